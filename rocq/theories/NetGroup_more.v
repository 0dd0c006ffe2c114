(** Proofs on the reordering by group (get_next_index, build_dataset) and on
    the identifiers of segments (build_unique_array, new_numbering). *)
From Coq Require Import List Arith Lia Bool.
From Verif Require Import Base Corr_model Corr_proofs Solver_proofs TrackObs_spec TrackObs_proofs NetGroup_model NetGroup_spec.
Import ListNotations.

(** ** get_next_index *)
Definition below (g : nat) (l : list nat) : nat := length (filter (fun x => x <? g) l).

Lemma below_le : forall g l, below g l <= length l.
Proof.
  unfold below. induction l as [|a l IH]; simpl; [lia|]. destruct (a <? g); simpl; lia.
Qed.
Lemma below_S : forall g l, below (S g) l = below g l + occurrences g l.
Proof.
  unfold below. induction l as [|a l IH]; cbn [filter occurrences]; auto.
  destruct (Nat.ltb_spec a (S g)), (Nat.ltb_spec a g), (Nat.eqb_spec a g); cbn [length]; lia.
Qed.
Lemma below_mono : forall g h l, g <= h -> below g l <= below h l.
Proof. intros g h l H. induction H; auto. rewrite below_S. lia. Qed.

Lemma sum_below : forall l k n, k <= n ->
  sum_list (firstn k (map (fun g => occurrences g l) (seq 0 n))) = below k l.
Proof.
  intros l k. induction k as [|k IH]; intros n H.
  - simpl. unfold below. induction l as [|a l IHl]; simpl; auto.
  - assert (E : firstn (S k) (map (fun g => occurrences g l) (seq 0 n)) = firstn k (map (fun g => occurrences g l) (seq 0 n)) ++ [occurrences k l]).
    { rewrite firstn_map, firstn_map. replace n with (k + S (n - S k)) by lia.
      rewrite seq_app. rewrite Nat.add_0_l. cbn [seq].
      assert (F1 : firstn (S k) (seq 0 k ++ k :: seq (S k) (n - S k)) = seq 0 k ++ [k]).
      { rewrite firstn_app, seq_length. replace (S k - k) with 1 by lia. rewrite firstn_all2 by (rewrite seq_length; lia). reflexivity. }
      assert (F2 : firstn k (seq 0 k ++ k :: seq (S k) (n - S k)) = seq 0 k).
      { rewrite firstn_app, seq_length, Nat.sub_diag. simpl. rewrite app_nil_r. apply firstn_all2. rewrite seq_length. lia. }
      rewrite F1, F2, map_app. reflexivity. }
    rewrite E, sum_list_app, IH by lia. rewrite below_S. simpl. lia.
Qed.

Lemma occurrences_app : forall g l m, occurrences g (l ++ m) = occurrences g l + occurrences g m.
Proof. induction l as [|a l IH]; intros m; simpl; auto. rewrite IH. lia. Qed.

Lemma next_index_loop_spec : forall gr done i_gr base,
  (forall g, In g gr -> nth_error i_gr g = Some (base g + occurrences g done)) ->
  exists r, next_index_loop gr i_gr = Some r /\ length r = length gr /\
    forall k g, nth_error gr k = Some g ->
      nth_error r k = Some (base g + occurrences g (done ++ firstn k gr)).
Proof.
  induction gr as [|g rest IH]; intros done i_gr base H.
  - exists []. split; [auto|]. split; [auto|]. intros [|k] g E; discriminate.
  - cbn [next_index_loop]. rewrite (H g (or_introl eq_refl)). cbn [bind].
    unfold store. destruct (Nat.ltb_spec g (length i_gr)) as [L|L].
    2:{ specialize (H g (or_introl eq_refl)). apply nth_error_Some_lt in H. lia. }
    cbn [bind].
    destruct (IH (done ++ [g]) (upd i_gr g (S (base g + occurrences g done))) base) as (r & E & LR & S).
    { intros h Hh. rewrite nth_error_upd. rewrite occurrences_app. cbn [occurrences].
      destruct (Nat.eqb_spec g h) as [->|N].
      - rewrite (proj2 (Nat.ltb_lt _ _) L), Nat.eqb_refl. f_equal. lia.
      - destruct (Nat.eqb_spec h g); [congruence|]. rewrite (H h (or_intror Hh)). f_equal. lia. }
    rewrite E. cbn [bind]. eexists. split; [reflexivity|]. split; [simpl; lia|].
    intros [|k] h Hk; cbn [nth_error] in *.
    + apply Some_inj in Hk; subst h. cbn [firstn]. rewrite app_nil_r. reflexivity.
    + rewrite (S k h Hk). cbn [firstn]. rewrite <- app_assoc. reflexivity.
Qed.

Lemma next_index_value : forall gr, exists r, get_next_index gr = Some r /\ length r = length gr /\
  forall k g, nth_error gr k = Some g -> nth_error r k = Some (below g gr + occurrences g (firstn k gr)).
Proof.
  intros gr. unfold get_next_index.
  destruct (next_index_loop_spec gr [] (excl_sums 0 (bincount gr)) (fun g => below g gr)) as (r & E & L & S).
  - intros g Hg. destruct gr as [|g0 gr0]; [destruct Hg|]. set (gr := g0 :: gr0) in *.
    assert (B : bincount gr = map (fun g => occurrences g gr) (seq 0 (S (list_max gr)))) by reflexivity.
    rewrite B. pose proof (list_max_ge _ _ Hg) as M.
    rewrite nth_error_excl_sums by (rewrite map_length, seq_length; lia).
    rewrite sum_below by lia. f_equal. simpl. lia.
  - exists r. auto.
Qed.

Lemma occurrences_lt : forall g gr a b, nth_error gr a = Some g -> a < b ->
  occurrences g (firstn a gr) < occurrences g (firstn b gr).
Proof.
  intros g. induction gr as [|x gr IH]; intros [|a] [|b] H L; try lia; cbn [nth_error] in H; try discriminate.
  - apply Some_inj in H; subst. cbn [firstn occurrences]. rewrite Nat.eqb_refl. lia.
  - cbn [firstn occurrences]. specialize (IH a b H ltac:(lia)). lia.
Qed.
Lemma occurrences_firstn : forall g l k, occurrences g (firstn k l) <= occurrences g l.
Proof. intros g l k. rewrite <- (firstn_skipn k l) at 2. rewrite occurrences_app. lia. Qed.
Lemma occurrences_firstn_lt : forall g gr a, nth_error gr a = Some g -> occurrences g (firstn a gr) < occurrences g gr.
Proof.
  intros g gr a H. pose proof (nth_error_Some_lt _ _ _ H) as L.
  pose proof (occurrences_lt g gr a (length gr) H L) as X. rewrite firstn_all in X. auto.
Qed.

(** Order of the new positions: by group, then by original position. *)
Lemma next_index_order : forall gr r, get_next_index gr = Some r ->
  length r = length gr /\
  (forall k p, nth_error r k = Some p -> p < length gr) /\
  (forall a b ga gb pa pb, nth_error gr a = Some ga -> nth_error gr b = Some gb ->
     nth_error r a = Some pa -> nth_error r b = Some pb ->
     (pa < pb <-> ga < gb \/ (ga = gb /\ a < b))).
Proof.
  intros gr r E. destruct (next_index_value gr) as (r' & E' & L & S). rewrite E in E'. apply Some_inj in E'. subst r'.
  split; [auto|]. split.
  - intros k p Hp. pose proof (nth_error_Some_lt _ _ _ Hp) as Lk. rewrite L in Lk.
    destruct (nth_error_lt_Some gr k Lk) as [g Hg]. rewrite (S k g Hg) in Hp. apply Some_inj in Hp.
    pose proof (occurrences_firstn_lt g gr k Hg). pose proof (below_S g gr). pose proof (below_le (Datatypes.S g) gr). lia.
  - assert (ONE : forall a b ga gb pa pb, nth_error gr a = Some ga -> nth_error gr b = Some gb ->
      nth_error r a = Some pa -> nth_error r b = Some pb -> ga < gb \/ (ga = gb /\ a < b) -> pa < pb).
    { intros a b ga gb pa pb Ga Gb Ra Rb O. rewrite (S a ga Ga) in Ra. rewrite (S b gb Gb) in Rb.
      apply Some_inj in Ra, Rb. destruct O as [O|[-> O]].
      - pose proof (occurrences_firstn_lt ga gr a Ga). pose proof (below_S ga gr).
        pose proof (below_mono (Datatypes.S ga) gb gr O). lia.
      - pose proof (occurrences_lt gb gr a b Ga O). lia. }
    intros a b ga gb pa pb Ga Gb Ra Rb. split; [|apply (ONE a b ga gb pa pb); auto].
    intros P. destruct (Nat.lt_trichotomy ga gb) as [|[->|G]]; auto.
    + right. split; auto. destruct (Nat.lt_trichotomy a b) as [|[->|G]]; auto.
      * exfalso. rewrite Ra in Rb. apply Some_inj in Rb. lia.
      * exfalso. pose proof (ONE b a gb gb pb pa Gb Ga Rb Ra ltac:(auto)). lia.
    + exfalso. pose proof (ONE b a gb ga pb pa Gb Ga Rb Ra ltac:(auto)). lia.
Qed.

Lemma next_index_nodup : forall gr r, get_next_index gr = Some r -> NoDup r.
Proof.
  intros gr r E. destruct (next_index_order gr r E) as (L & B & O).
  apply NoDup_nth_error. intros a b La Eab.
  destruct (nth_error_lt_Some r a La) as [p Pa]. rewrite Pa in Eab. symmetry in Eab.
  pose proof (nth_error_Some_lt _ _ _ Eab) as Lb. rewrite L in La, Lb.
  destruct (nth_error_lt_Some gr a La) as [ga Ga]. destruct (nth_error_lt_Some gr b Lb) as [gb Gb].
  destruct (Nat.eq_dec a b) as [|N]; auto. exfalso.
  pose proof (O a b ga gb p p Ga Gb Pa Eab) as H1. pose proof (O b a gb ga p p Gb Ga Eab Pa) as H2.
  destruct H1 as [_ H1], H2 as [_ H2].
  destruct (Nat.lt_trichotomy ga gb) as [G|[G|G]]; [specialize (H1 (or_introl G)); lia| |specialize (H2 (or_introl G)); lia].
  destruct (Nat.lt_trichotomy a b) as [G'|[G'|G']]; [|lia|].
  - specialize (H1 (or_intror (conj G G'))). lia.
  - specialize (H2 (or_intror (conj (eq_sym G) G'))). lia.
Qed.

(** ** build_dataset *)
Lemma nth_firstn_in : forall {A} (l : list A) k m, m < k -> nth_error (firstn k l) m = nth_error l m.
Proof. induction l as [|a l IH]; intros [|k] [|m] H; simpl; auto; try lia. apply IH. lia. Qed.
Lemma nth_skipn_add : forall {A} (l : list A) k m, nth_error (skipn k l) m = nth_error l (k + m).
Proof. induction l as [|a l IH]; intros [|k] m; simpl; auto. destruct m; auto. Qed.
Lemma skipn_add : forall {A} (l : list A) i k, skipn k (skipn i l) = skipn (i + k) l.
Proof. induction l as [|a l IH]; intros [|i] k; simpl; auto. apply skipn_nil. Qed.
Lemma NoDup_app_l : forall {A} (a b : list A), NoDup (a ++ b) -> NoDup a.
Proof.
  induction a as [|x a IH]; intros b H; [constructor|]. simpl in H. inversion H; subst. constructor; [|eauto].
  intros I. apply H2. apply in_or_app. auto.
Qed.
Lemma NoDup_app_r : forall {A} (a b : list A), NoDup (a ++ b) -> NoDup b.
Proof. induction a as [|x a IH]; intros b H; auto. simpl in H. inversion H; subst. eauto. Qed.

Lemma copy_files_spec : forall {A} (files : list (list A)) i new_i out,
  i + length (concat files) = length new_i -> NoDup new_i ->
  (forall p, In p new_i -> p < length out) ->
  exists out', copy_files files i new_i out = Some out' /\ length out' = length out /\
    (forall k v p, nth_error (concat files) k = Some v -> nth_error new_i (i + k) = Some p -> nth_error out' p = Some v) /\
    (forall p, ~ In p (skipn i new_i) -> nth_error out' p = nth_error out p).
Proof.
  intros A. induction files as [|e files IH]; intros i new_i out L N B.
  - exists out. split; [reflexivity|]. split; [auto|]. split; [intros [|k] v p H; discriminate|auto].
  - cbn [copy_files concat] in *. rewrite app_length in L.
    assert (SL : slice new_i i (i + length e) = firstn (length e) (skipn i new_i)).
    { unfold slice. f_equal. lia. }
    assert (LS : length (slice new_i i (i + length e)) = length e).
    { rewrite SL, firstn_length, skipn_length. lia. }
    assert (NT : forall k, nth_error (slice new_i i (i + length e)) k = if k <? length e then nth_error new_i (i + k) else None).
    { intros k. rewrite SL. destruct (Nat.ltb_spec k (length e)) as [H|H].
      - rewrite nth_firstn_in by auto. apply nth_skipn_add.
      - apply nth_error_None. rewrite firstn_length. lia. }
    assert (IN : forall p, In p (slice new_i i (i + length e)) -> In p new_i).
    { intros p H. rewrite SL in H. rewrite <- (firstn_skipn i new_i). apply in_or_app. right.
      rewrite <- (firstn_skipn (length e) (skipn i new_i)). apply in_or_app. left. auto. }
    assert (NS : NoDup (skipn i new_i)).
    { rewrite <- (firstn_skipn i new_i) in N. apply NoDup_app_r in N. auto. }
    assert (ND : NoDup (slice new_i i (i + length e))).
    { rewrite SL. rewrite <- (firstn_skipn (length e) (skipn i new_i)) in NS. apply NoDup_app_l in NS. auto. }
    destruct (stores_total (slice new_i i (i + length e)) out e) as (o1 & E1); auto.
    rewrite E1. cbn [bind].
    pose proof (length_stores _ _ _ _ E1) as L1.
    destruct (IH (i + length e) new_i o1) as (o2 & E2 & L2 & S2 & R2); auto.
    { lia. } { rewrite L1. auto. }
    exists o2. split; [exact E2|]. split; [lia|]. split.
    + intros k v p Hk Hp. destruct (Nat.lt_ge_cases k (length e)) as [K|K].
      * rewrite nth_error_app1 in Hk by auto. rewrite R2.
        -- eapply stores_nodup; [exact ND|exact E1| |exact Hk]. rewrite NT, (proj2 (Nat.ltb_lt _ _) K). auto.
        -- intros H. apply In_nth_error in H as [m Hm]. rewrite nth_skipn_add in Hm.
           assert (X : i + k = i + length e + m); [|lia].
           apply (proj1 (NoDup_nth_error new_i) N); [apply nth_error_Some_lt in Hp; auto|congruence].
      * rewrite nth_error_app2 in Hk by auto. eapply S2; [exact Hk|].
        replace (i + length e + (k - length e)) with (i + k) by lia. auto.
    + intros p H. rewrite R2.
      * eapply stores_other; [exact E1|]. intros X. apply H. rewrite SL in X.
        rewrite <- (firstn_skipn (length e) (skipn i new_i)). apply in_or_app. left. auto.
      * intros X. apply H. rewrite <- (firstn_skipn (length e) (skipn i new_i)). apply in_or_app. right.
        rewrite skipn_add. auto.
Qed.

Lemma build_dataset_spec : forall {A} (blank : A) files group,
  length (concat files) = length group ->
  exists rows track new_i, build_dataset blank files group = Some (rows, track) /\
    get_next_index group = Some new_i /\ length rows = length group /\ length track = length group /\
    (forall k v g p, nth_error (concat files) k = Some v -> nth_error group k = Some g -> nth_error new_i k = Some p ->
       nth_error rows p = Some v /\ nth_error track p = Some g).
Proof.
  intros A blank files group L. unfold build_dataset.
  destruct (next_index_value group) as (r & E & LR & _). rewrite E. cbn [bind].
  pose proof (next_index_nodup _ _ E) as N. destruct (next_index_order _ _ E) as (_ & B & _).
  assert (BI : forall p, In p r -> p < length group).
  { intros p H. apply In_nth_error in H as [k Hk]. eauto. }
  destruct (copy_files_spec files 0 r (repeat blank (length group))) as (o & E1 & L1 & S1 & _); auto.
  { simpl. lia. } { rewrite repeat_length. auto. }
  rewrite E1. cbn [bind].
  destruct (stores_total r (repeat 0 (length group)) group) as (t & E2).
  { rewrite LR. lia. } { rewrite repeat_length. auto. }
  rewrite E2. cbn [bind]. exists o, t, r. split; [reflexivity|]. split; [reflexivity|].
  rewrite repeat_length in L1. split; [auto|]. split.
  { rewrite (length_stores _ _ _ _ E2), repeat_length. auto. }
  intros k v g p Hv Hg Hp. split; [eapply S1; eauto|]. eapply stores_nodup; eauto.
Qed.

(** ** Identifiers *)
Lemma length_unique_loop : forall id1 id2 k p1 p2, length id1 = length id2 -> length (unique_loop k p1 p2 id1 id2) = length id1.
Proof. induction id1 as [|a id1 IH]; intros [|b id2] k p1 p2 L; simpl in *; try lia. rewrite IH; lia. Qed.

Lemma unique_loop_step : forall id1 id2 k p1 p2, length id1 = length id2 ->
  forall i a b u, nth_error (p1 :: id1) i = Some a -> nth_error (p2 :: id2) i = Some b ->
    nth_error (k :: unique_loop k p1 p2 id1 id2) i = Some u ->
  forall a' b' u', nth_error id1 i = Some a' -> nth_error id2 i = Some b' ->
    nth_error (unique_loop k p1 p2 id1 id2) i = Some u' ->
    u' = if (a' =? a) && (b' =? b) then u else S u.
Proof.
  induction id1 as [|x id1 IH]; intros [|y id2] k p1 p2 L i a b u Ha Hb Hu a' b' u' Ha' Hb' Hu'; simpl in L; try lia;
    try (destruct i; discriminate).
  cbn [unique_loop] in *.
  destruct i as [|i].
  - cbn [nth_error] in *. apply Some_inj in Ha, Hb, Hu, Ha', Hb', Hu'. subst.
    destruct (a' =? a), (b' =? b); reflexivity.
  - cbn [nth_error] in Ha, Hb, Hu, Ha', Hb', Hu'. injection L as L.
    eapply (IH id2 _ x y L i); eauto.
Qed.

Lemma unique_spec : forall id1 id2, length id1 = length id2 -> id1 <> [] -> pairs_sorted id1 id2 ->
  exists u, build_unique_array id1 id2 = Some u /\ length u = length id1 /\ nth_error u 0 = Some 0 /\
    (forall i x y, nth_error u i = Some x -> nth_error u (S i) = Some y -> y = x \/ y = S x) /\
    (forall i j a b a' b' x y, nth_error id1 i = Some a -> nth_error id2 i = Some b ->
       nth_error id1 j = Some a' -> nth_error id2 j = Some b' ->
       nth_error u i = Some x -> nth_error u j = Some y ->
       ((x = y <-> a = a' /\ b = b') /\ (x < y <-> b < b' \/ (b = b' /\ a < a')))).
Proof.
  intros [|a0 id1] [|b0 id2] L NE ST; simpl in L; try lia; try congruence. clear NE.
  set (I1 := a0 :: id1) in *. set (I2 := b0 :: id2) in *.
  assert (EL : length I1 = length I2) by (simpl; lia).
  exists (unique_loop 0 a0 b0 I1 I2). split; [reflexivity|].
  rewrite length_unique_loop by auto. split; [auto|].
  set (u := unique_loop 0 a0 b0 I1 I2) in *.
  assert (U0 : nth_error u 0 = Some 0).
  { unfold u, I1, I2. cbn [unique_loop nth_error]. rewrite !Nat.eqb_refl. reflexivity. }
  assert (LU : length u = length I1) by (apply length_unique_loop; auto).
  split; [exact U0|].
  assert (STEP : forall i a b x a' b' y, nth_error I1 i = Some a -> nth_error I2 i = Some b -> nth_error u i = Some x ->
     nth_error I1 (S i) = Some a' -> nth_error I2 (S i) = Some b' -> nth_error u (S i) = Some y ->
     y = if (a' =? a) && (b' =? b) then x else S x).
  { intros i a b x a' b' y H1 H2 H3 H4 H5 H6.
    exact (unique_loop_step I1 I2 0 a0 b0 EL (S i) a b x H1 H2 H3 a' b' y H4 H5 H6). }
  assert (ROW : forall i, i < length I1 -> exists a b x, nth_error I1 i = Some a /\ nth_error I2 i = Some b /\ nth_error u i = Some x).
  { intros i Hi. destruct (nth_error_lt_Some I1 i) as [a Ha]; [lia|].
    destruct (nth_error_lt_Some I2 i) as [b Hb]; [lia|].
    destruct (nth_error_lt_Some u i) as [x Hx]; [lia|]. exists a, b, x. auto. }
  split.
  { intros i x y Hx Hy. pose proof (nth_error_Some_lt _ _ _ Hx). pose proof (nth_error_Some_lt _ _ _ Hy).
    destruct (ROW i) as (a & b & x' & H1 & H2 & H3); [lia|]. destruct (ROW (S i)) as (a' & b' & y' & H4 & H5 & H6); [lia|].
    pose proof (STEP _ _ _ _ _ _ _ H1 H2 Hx H4 H5 Hy) as E. destruct ((a' =? a) && (b' =? b)); auto. }
  assert (GO : forall d i a b x a' b' y, nth_error I1 i = Some a -> nth_error I2 i = Some b -> nth_error u i = Some x ->
     nth_error I1 (i + d) = Some a' -> nth_error I2 (i + d) = Some b' -> nth_error u (i + d) = Some y ->
     (a = a' /\ b = b' /\ x = y) \/ ((b < b' \/ (b = b' /\ a < a')) /\ x < y)).
  { induction d as [|d IH]; intros i a b x a' b' y H1 H2 H3 H4 H5 H6.
    - rewrite Nat.add_0_r in *. left. repeat split; congruence.
    - assert (i + d < length I1) by (apply nth_error_Some_lt in H4; lia).
      destruct (ROW (i + d)) as (am & bm & xm & M1 & M2 & M3); [auto|].
      replace (i + S d) with (S (i + d)) in * by lia.
      specialize (IH i a b x am bm xm H1 H2 H3 M1 M2 M3).
      pose proof (STEP _ _ _ _ _ _ _ M1 M2 M3 H4 H5 H6) as E.
      pose proof (ST (i + d) (S (i + d)) am bm a' b' ltac:(lia) M1 M2 H4 H5) as O.
      destruct (Nat.eqb_spec a' am), (Nat.eqb_spec b' bm); cbn [andb] in E; subst; lia. }
  intros i j a b a' b' x y H1 H2 H4 H5 H3 H6.
  destruct (Nat.le_ge_cases i j) as [O|O].
  - replace j with (i + (j - i)) in * by lia. pose proof (GO (j - i) i a b x a' b' y H1 H2 H3 H4 H5 H6) as X.
    split; lia.
  - replace i with (j + (i - j)) in * by lia. pose proof (GO (i - j) j a' b' y a b x H4 H5 H6 H1 H2 H3) as X.
    split; lia.
Qed.

Lemma numbering_unique : forall segs j s0 c, numbering_loop j s0 segs = unique_loop j s0 c segs (repeat c (length segs)).
Proof.
  induction segs as [|s segs IH]; intros j s0 c; [reflexivity|].
  cbn [numbering_loop length repeat unique_loop]. rewrite Nat.eqb_refl. cbn [negb]. rewrite orb_false_r.
  rewrite (IH _ _ c). destruct (s =? s0); reflexivity.
Qed.
Lemma unique_loop_shift : forall id1 id2 j p1 p2, unique_loop j p1 p2 id1 id2 = map (fun x => j + x) (unique_loop 0 p1 p2 id1 id2).
Proof.
  induction id1 as [|a id1 IH]; intros [|b id2] j p1 p2; try reflexivity.
  cbn [unique_loop map]. destruct (negb (a =? p1) || negb (b =? p2)).
  - rewrite (IH id2 (S j)), (IH id2 1), map_map. f_equal; [lia|]. apply map_ext. intros; lia.
  - rewrite (IH id2 j). f_equal. lia.
Qed.

Lemma numbering_spec : forall segs start, segs <> [] ->
  (forall i j a b, i < j -> nth_error segs i = Some a -> nth_error segs j = Some b -> a <= b) ->
  exists u, new_numbering segs start = Some u /\ length u = length segs /\ nth_error u 0 = Some start /\
    (forall i x y, nth_error u i = Some x -> nth_error u (S i) = Some y -> y = x \/ y = S x) /\
    (forall i j a b x y, nth_error segs i = Some a -> nth_error segs j = Some b ->
       nth_error u i = Some x -> nth_error u j = Some y ->
       ((x = y <-> a = b) /\ (x < y <-> a < b))).
Proof.
  intros segs start NE ST.
  destruct (unique_spec segs (repeat 0 (length segs))) as (u & E & L & Z & S & P).
  - rewrite repeat_length. auto.
  - auto.
  - intros i j a b a' b' O H1 H2 H3 H4. right. split; [|eapply ST; eauto].
    apply nth_error_In, repeat_spec in H2, H4. congruence.
  - destruct segs as [|s0 segs]; [congruence|]. clear NE.
    exists (map (fun x => start + x) u). split.
    { unfold new_numbering. rewrite (numbering_unique _ _ _ 0), unique_loop_shift. f_equal. f_equal.
      cbn [length repeat build_unique_array] in E. apply Some_inj in E. exact E. }
    rewrite map_length. split; [auto|]. split.
    { rewrite (map_nth_error _ 0 u Z). f_equal. lia. }
    split.
    + intros i x y Hx Hy. rewrite nth_error_map in Hx, Hy.
      destruct (nth_error u i) as [x0|] eqn:X; [|discriminate]. destruct (nth_error u (Datatypes.S i)) as [y0|] eqn:Y; [|discriminate].
      cbn in Hx, Hy. apply Some_inj in Hx, Hy. pose proof (S i x0 y0 X Y). lia.
    + intros i j a b x y Ha Hb Hx Hy. rewrite nth_error_map in Hx, Hy.
      destruct (nth_error u i) as [x0|] eqn:X; [|discriminate]. destruct (nth_error u j) as [y0|] eqn:Y; [|discriminate].
      cbn in Hx, Hy. apply Some_inj in Hx, Hy.
      assert (R : forall k q, nth_error (s0 :: segs) k = Some q -> nth_error (repeat 0 (length (s0 :: segs))) k = Some 0).
      { intros k q Hk. rewrite nth_error_repeat_lt. apply nth_error_Some_lt in Hk. rewrite (proj2 (Nat.ltb_lt _ _) Hk). auto. }
      destruct (P i j a 0 b 0 x0 y0 Ha (R _ _ Ha) Hb (R _ _ Hb) X Y) as [P1 P2]. lia.
Qed.
