(** Proofs on identify_in: iteration on whole numbers, items, sizes, alignment. *)
From Coq Require Import List Arith ZArith Bool QArith Qround Lia Lqa Permutation.
From Verif Require Import Base Qaux Spec Generic_model Generic_proofs Corr_model Obs_spec Obs_model Obs_words Obs_proofs Obs_align NetTab_model NetTab_proofs NetSeg_model NetSeg_dead NetCmp_model NetCmp_spec NetCmp_proofs Match_props Corr_merge Iter_props Ident_model.
Import ListNotations.
Local Close Scope Q_scope.
Local Open Scope nat_scope.

Definition qn (n : nat) : Q := inject_Z (Z.of_nat n).

Lemma qn_le : forall a b, (qn a <= qn b)%Q <-> a <= b.
Proof. intros a b. unfold qn. rewrite <- Zle_Qle. lia. Qed.
Lemma qn_lt : forall a b, (qn a < qn b)%Q <-> a < b.
Proof. intros a b. unfold qn. rewrite <- Zlt_Qlt. lia. Qed.
Lemma qn_eq : forall a b, (qn a == qn b)%Q <-> a = b.
Proof. intros a b. split; [|intros ->; reflexivity]. intros H. assert (a <= b) by (apply qn_le; lra). assert (b <= a) by (apply qn_le; lra). lia. Qed.
Lemma qn_S : forall a, (qn a + 1 == qn (S a))%Q.
Proof. intros a. unfold qn. rewrite Nat2Z.inj_succ, <- Z.add_1_r, inject_Z_plus. reflexivity. Qed.

Lemma emit_slices_lows : forall bins i bounds gs ok, emit_slices bins i bounds = (gs, ok) -> forall g, In g gs -> In (low g) bins.
Proof.
  intros bins i bounds. induction bounds as [|[a b] rest IH]; intros gs ok E g H; cbn [emit_slices] in E; [injection E as <- <-; destruct H|].
  destruct (nth_error i a); [|injection E as <- <-; destruct H]. destruct (pyget bins z) as [lo|] eqn:G; [|injection E as <- <-; destruct H]. destruct (pyget bins (z + 1)); [|injection E as <- <-; destruct H].
  destruct (emit_slices bins i rest) as [ys ok'] eqn:E'. injection E as <- <-. destruct H as [<-|H]; [|exact (IH ys ok' eq_refl g H)].
  unfold low. cbn. unfold pyget in G. destruct (pyidx (length bins) z); [|discriminate G]. eapply nth_error_In; exact G.
Qed.
Lemma emit_index_lows : forall bins i tr bounds gs ok, emit_index bins i tr bounds = (gs, ok) -> forall g, In g gs -> In (low g) bins.
Proof.
  intros bins i tr bounds. induction bounds as [|[a b] rest IH]; intros gs ok E g H; cbn [emit_index] in E; [injection E as <- <-; destruct H|].
  destruct (nth_error i a); [|injection E as <- <-; destruct H]. destruct (_ || _); [exact (IH gs ok E g H)|]. destruct (pyget bins z) as [lo|] eqn:G; [|injection E as <- <-; destruct H]. destruct (pyget bins (z + 1)); [|injection E as <- <-; destruct H].
  destruct (emit_index bins i tr rest) as [ys ok'] eqn:E'. injection E as <- <-. destruct H as [<-|H]; [|exact (IH ys ok' eq_refl g H)].
  unfold low. cbn. unfold pyget in G. destruct (pyidx (length bins) z); [|discriminate G]. eapply nth_error_In; exact G.
Qed.
Lemma iter_on_lows : forall argsort u x bins gs ok, iter_on argsort u x (Some bins) = (gs, ok) -> forall g, In g gs -> In (low g) bins.
Proof.
  intros argsort u x bins gs ok E g H. unfold iter_on in E.
  destruct (not_monotonous u x).
  - destruct (match iter_mode_reduce x bins with None => Some x | Some ix => gather x ix end); [|injection E as <- <-; destruct H].
    destruct (numba_digitize l bins); [|injection E as <- <-; destruct H].
    destruct (gather _ _); [|injection E as <- <-; destruct H]. destruct (match iter_mode_reduce x bins with None => _ | Some ix => _ end); [|injection E as <- <-; destruct H].
    destruct (build_index l1) as [[[f la] z]|]; [|injection E as <- <-; destruct H]. exact (emit_index_lows _ _ _ _ _ _ E g H).
  - destruct (numba_digitize x bins); [|injection E as <- <-; destruct H].
    destruct (build_index _) as [[[f la] z]|]; [|injection E as <- <-; destruct H]. exact (emit_slices_lows _ _ _ _ _ E g H).
Qed.

(** Iteration on whole numbers with the default bins: one group for each value. *)
Definition one_value (ns : list nat) (g : group) (n : nat) : Prop :=
  (low g == qn n)%Q /\ rows_list (fst (fst g)) <> [] /\ forall k, In k (rows_list (fst (fst g))) <-> nth_error ns k = Some n.
Definition nord (ns : list nat) : Prop := forall i j a b, i < j -> nth_error ns i = Some a -> nth_error ns j = Some b -> a <= b.
Lemma qsorted_qn : forall ns, qsorted (map qn ns) <-> nord ns.
Proof.
  intros ns. split.
  - intros H i j a b L A B. apply qn_le. apply (H i j); [exact L|apply map_nth_error, A|apply map_nth_error, B].
  - intros H i j a b L A B. rewrite nth_error_map in A, B. destruct (nth_error ns i) as [x|] eqn:X; [|discriminate A]. destruct (nth_error ns j) as [y|] eqn:Y; [|discriminate B].
    cbn in A, B. apply Some_inj in A, B. subst. apply qn_le. apply (H i j); assumption.
Qed.
Lemma groups_int : forall argsort ns, sorts argsort -> ns <> [] ->
  exists gs, iter_on argsort false (map qn ns) None = (gs, true) /\ gs <> [] /\
    NoDup (concat (map (fun g => rows_list (fst (fst g))) gs)) /\
    (forall g, In g gs -> exists n, one_value ns g n) /\
    (forall n, In n ns -> exists g, In g gs /\ one_value ns g n) /\
    increasing (lows gs) /\
    (nord ns -> forall g, In g gs -> exists a b, fst (fst g) = Slice a b) /\
    (~ nord ns -> forall g, In g gs -> exists l, fst (fst g) = Index l).
Proof.
  intros argsort ns AS NE. assert (NX : map qn ns <> []) by (destruct ns; [congruence|discriminate]).
  destruct (iter_on_default argsort (map qn ns) AS NX) as (gs & E & ND & COV & G & INC & SL & IX).
  assert (CM : concat (map (fun g : list nat * Q * Q => fst (fst g)) (map view gs)) = concat (map (fun g => rows_list (fst (fst g))) gs)) by (rewrite map_map; reflexivity).
  rewrite CM in ND, COV.
  assert (LW : forall g, In g gs -> exists n, (low g == qn n)%Q).
  { intros g H. destruct (default_bins_spec (map qn ns) NX) as (bins & DB & _ & _ & _ & lo & IL & ST).
    assert (EQ : iter_on argsort false (map qn ns) None = iter_on argsort false (map qn ns) (Some bins)) by (unfold iter_on; rewrite DB; reflexivity).
    rewrite EQ in E. pose proof (iter_on_lows _ _ _ _ _ _ E g H) as I. apply In_nth_error in I as [j J]. apply ST in J. apply in_map_iff in IL as (m & <- & _).
    exists (m + j). rewrite J. unfold qn. rewrite Nat2Z.inj_add, inject_Z_plus. reflexivity. }
  assert (GV : forall g, In g gs -> exists n, one_value ns g n).
  { intros g H. destruct (LW g H) as [n LN]. exists n. split; [exact LN|]. destruct (G _ _ _ (in_map view gs g H)) as (NR & _ & K). split; [exact NR|].
    intros k. rewrite K. fold (low g). split.
    - intros (v & Hv & B1 & B2). rewrite nth_error_map in Hv. destruct (nth_error ns k) as [m|]; [|discriminate Hv]. cbn in Hv. apply Some_inj in Hv. subst v. f_equal.
      assert (n <= m) by (apply qn_le; lra). assert (m < S n) by (apply qn_lt; rewrite <- qn_S; lra). lia.
    - intros Hn. exists (qn n). split; [apply map_nth_error, Hn|]. split; lra. }
  exists gs. split; [exact E|]. split.
  { intros ->. destruct ns as [|n ns]; [congruence|]. destruct (proj2 (COV 0)); cbn; lia. }
  split; [exact ND|]. split; [exact GV|]. split.
  { intros n I. apply In_nth_error in I as [k K]. assert (C : In k (concat (map (fun g => rows_list (fst (fst g))) gs))) by (apply COV; rewrite map_length; eapply nth_error_Some_lt; exact K).
    apply in_concat in C as (l & IL & IK). apply in_map_iff in IL as (g & <- & IG). destruct (GV g IG) as [m V]. exists g. split; [exact IG|].
    assert (m = n). { destruct V as (_ & _ & V). apply V in IK. congruence. } subst m. exact V. }
  split; [unfold lows; rewrite map_map in INC; exact INC|]. split.
  - intros S. apply SL. apply qsorted_qn. exact S.
  - intros S. apply IX. rewrite qsorted_qn. exact S.
Qed.

(** ** Labels and their positions *)
Definition labels (rows : list row) : list nat := map fst rows.
Definition positions (t : nat) (rows : list row) : list pos := map snd (filter (fun r => fst r =? t) rows).

Lemma emit_slices_bounds : forall bins i bounds gs, emit_slices bins i bounds = (gs, true) -> map (fun g => fst (fst g)) gs = map (fun p => Slice (fst p) (snd p)) bounds.
Proof.
  intros bins i bounds. induction bounds as [|[a b] rest IH]; intros gs E; cbn [emit_slices] in E; [injection E as <-; reflexivity|].
  destruct (nth_error i a); [|discriminate E]. destruct (pyget bins z); [|discriminate E]. destruct (pyget bins (z + 1)); [|discriminate E].
  destruct (emit_slices bins i rest) as [ys ok'] eqn:E'. injection E as <- ->. cbn [map fst snd]. rewrite (IH ys eq_refl). reflexivity.
Qed.
Lemma iter_tiles : forall argsort ns gs, ns <> [] -> nord ns -> iter_on argsort false (map qn ns) None = (gs, true) ->
  exists bounds, tiles 0 (length ns) bounds /\ map (fun g => fst (fst g)) gs = map (fun p => Slice (fst p) (snd p)) bounds.
Proof.
  intros argsort ns gs NE S E. assert (NX : map qn ns <> []) by (destruct ns; [congruence|discriminate]).
  destruct (default_bins_spec (map qn ns) NX) as (bins & DB & I & L & IN & _).
  unfold iter_on in E. rewrite DB in E. assert (NM : not_monotonous false (map qn ns) = false) by (apply any_decrease_false, qsorted_qn; exact S).
  rewrite NM, digitize_spec in E by auto. rewrite map_map in E.
  set (i := map _ (map qn ns)) in E. assert (IB : i = map (bin_of bins) (map qn ns)) by reflexivity.
  assert (NI : i <> []) by (rewrite IB; destruct ns; [congruence|discriminate]).
  assert (SI : zsorted i).
  { rewrite IB. intros p q a b PQ Ha Hb. rewrite nth_error_map in Ha, Hb.
    destruct (nth_error (map qn ns) p) as [u|] eqn:U; [|discriminate]. destruct (nth_error (map qn ns) q) as [v|] eqn:W; [|discriminate].
    simpl in Ha, Hb. injection Ha as <-. injection Hb as <-. unfold bin_of.
    pose proof (edges_below_mono bins u v (proj2 (qsorted_qn ns) S p q u v PQ U W)). lia. }
  destruct (build_index_tiles i NI SI) as (first & last & i0 & EB & T & V). rewrite EB in E.
  exists (not_empty first last). split; [|eapply emit_slices_bounds; exact E].
  replace (length ns) with (length i); [exact T|]. rewrite IB, !map_length. reflexivity.
Qed.

Lemma tiles_le : forall bounds p n, tiles p n bounds -> p <= n.
Proof. induction bounds as [|[a b] r IH]; intros p n H; cbn in H; [lia|]. destruct H as (-> & L & H). apply IH in H. lia. Qed.

Lemma items_tiles : forall psort rows gs bounds p, p <= length rows -> tiles p (length rows) bounds ->
  map (fun g : group => fst (fst g)) gs = map (fun p => Slice (fst p) (snd p)) bounds ->
  (forall g, In g gs -> exists n, one_value (labels rows) g n) ->
  exists its, items_from psort rows gs = Some its /\
    map fst its = combine (excl_sums p (map (@length pos) (map (fun t => positions t rows) (map snd its)))) (map psort (map (fun t => positions t rows) (map snd its))) /\
    NoDup (map snd its) /\ concat (map (fun t => positions t rows) (map snd its)) = map snd (skipn p rows) /\
    (forall t, In t (map snd its) <-> exists k, p <= k /\ nth_error (labels rows) k = Some t).
Proof.
  intros psort rows gs. induction gs as [|[[r lo] hi] gs IH]; intros [|[a b] bounds] p P T M V; try discriminate M.
  - cbn in T. subst p. exists []. split; [reflexivity|]. split; [reflexivity|]. split; [constructor|]. split.
    + rewrite skipn_all2 by lia. reflexivity.
    + intros t. split; [intros []|]. intros (k & K & H). apply nth_error_Some_lt in H. unfold labels in H. rewrite map_length in H. destruct (Nat.lt_irrefl _ (Nat.lt_le_trans _ _ _ H K)).
  - cbn [tiles] in T. destruct T as (-> & L & T). cbn [map fst snd] in M. injection M as -> M.
    pose proof (tiles_le _ _ _ T) as BL.
    destruct (V _ (or_introl eq_refl)) as (n & _ & _ & VN). cbn [fst rows_list] in VN.
    assert (VN' : forall k, p <= k < b <-> nth_error (labels rows) k = Some n) by (intros k; rewrite <- VN, in_seq; lia).
    destruct (nth_error_lt_Some rows p ltac:(lia)) as [rp RP].
    assert (FN : fst rp = n). { assert (X : nth_error (labels rows) p = Some n) by (apply VN'; lia). unfold labels in X. rewrite nth_error_map, RP in X. cbn in X. apply Some_inj in X. exact X. }
    destruct (IH bounds b BL T M) as (its & E & C & ND & CC & IN); [intros; apply V; right; assumption|].
    assert (PS : positions n rows = map snd (slice rows p b)).
    { unfold positions. f_equal. symmetry. unfold slice. change (firstn (b - p) (skipn p rows)) with (Base.slice rows p b). apply Iter_props.slice_filter.
      intros i x X. rewrite VN'. unfold labels. rewrite nth_error_map, X. cbn. rewrite Nat.eqb_eq. split; [intros ->; reflexivity|intros H; apply Some_inj in H; exact H]. }
    assert (LN : length (positions n rows) = b - p) by (rewrite PS, map_length; unfold slice; rewrite firstn_length, skipn_length; lia).
    cbn [items_from]. rewrite RP. cbn [bind]. rewrite E. cbn [bind]. eexists. split; [reflexivity|]. cbn [map fst snd]. rewrite FN. split.
    + cbn [excl_sums]. rewrite LN. replace (p + (b - p)) with b by lia. cbn [combine]. rewrite <- C, PS. reflexivity.
    + split.
      { constructor; [|exact ND]. rewrite IN. intros (k & K & H). apply VN' in H. lia. }
      split.
      { cbn [concat]. rewrite CC, PS, <- map_app. f_equal. unfold slice. rewrite <- (skipn_split rows p b) by lia. reflexivity. }
      intros t. cbn [In]. rewrite IN. split.
      * intros [<-|(k & K & H)]; [exists p; split; [lia|]; apply VN'; lia|exists k; split; [lia|exact H]].
      * intros (k & K & H). destruct (lt_dec k b) as [LT|LT]; [left|right; exists k; split; [lia|exact H]].
        assert (X : nth_error (labels rows) k = Some n) by (apply VN'; lia). congruence.
Qed.

Lemma items_spec : forall argsort psort rows, sorts argsort -> rows <> [] -> nord (labels rows) ->
  exists its, items argsort psort rows = Some its /\
    map fst its = items_of psort (map (fun t => positions t rows) (map snd its)) /\ NoDup (map snd its) /\
    concat (map (fun t => positions t rows) (map snd its)) = map snd rows /\ (forall t, In t (map snd its) <-> In t (labels rows)).
Proof.
  intros argsort psort rows AS NE S. assert (NL : labels rows <> []) by (destruct rows; [congruence|discriminate]).
  destruct (groups_int argsort (labels rows) AS NL) as (gs & E & _ & _ & GV & _).
  destruct (iter_tiles argsort (labels rows) gs NL S E) as (bounds & T & M). unfold labels in T at 1. rewrite map_length in T.
  destruct (items_tiles psort rows gs bounds 0 (Nat.le_0_l _) T M GV) as (its & EI & C & ND & CC & IN).
  exists its. unfold items. assert (MQ : map (fun r : row => inject_Z (Z.of_nat (fst r))) rows = map qn (labels rows)) by (unfold labels; rewrite map_map; reflexivity).
  rewrite MQ, E. split; [exact EI|]. split; [exact C|]. split; [exact ND|]. split; [exact CC|].
  intros t. rewrite IN. split; [intros (k & _ & H); eapply nth_error_In; exact H|intros H; apply In_nth_error in H as [k K]; exists k; split; [lia|exact K]].
Qed.

(** ** Selection of labels *)
Lemma mask_shift : forall f l lo idx m, generate_mask_from_ids (map (fun i => Z.to_nat (Z.of_nat i + Z.of_nat lo)) idx) f l (Z.of_nat lo) m = generate_mask_from_ids idx f l 0 m.
Proof.
  intros f l lo. induction idx as [|i idx IH]; intros m; [reflexivity|]. cbn [map generate_mask_from_ids].
  replace (Z.of_nat (Z.to_nat (Z.of_nat i + Z.of_nat lo)) - Z.of_nat lo)%Z with (Z.of_nat i - 0)%Z by lia.
  destruct (pyget f _); [|reflexivity]. cbn [bind]. destruct (pyget l _); [|reflexivity]. cbn [bind]. apply IH.
Qed.
Lemma select_filter : forall {A} (P : A -> bool) m (l : list A), length m = length l ->
  (forall k x, nth_error l k = Some x -> (nth_error m k = Some true <-> P x = true)) -> select m l = filter P l.
Proof.
  intros A P. induction m as [|b m IH]; intros [|x l] L H; try discriminate L; [reflexivity|]. cbn [select filter].
  rewrite (IH l); [|injection L; auto|intros k y Y; exact (H (S k) y Y)].
  pose proof (H 0 x eq_refl) as H0. cbn in H0. destruct b, (P x); try reflexivity.
  - destruct H0 as [H0 _]. discriminate (H0 eq_refl).
  - destruct H0 as [_ H0]. discriminate (H0 eq_refl).
Qed.
Definition label_in (ids : list nat) (r : row) : bool := existsb (Nat.eqb (fst r)) ids.
Lemma selected : forall rows f l lo idx, tab_of (labels rows) (f, l, Z.of_nat lo) -> (forall i, In i idx -> i < length f) ->
  exists m, generate_mask_from_ids (map (fun i => Z.to_nat (Z.of_nat i + Z.of_nat lo)) idx) f l (Z.of_nat lo) (repeat false (length rows)) = Some m /\
    select m rows = filter (label_in (map (fun i => lo + i) idx)) rows.
Proof.
  intros rows f l lo idx T B. destruct T as (lo' & EL & LL & _ & _ & _ & RG & TB). apply Nat2Z.inj in EL. subst lo'.
  destruct (generate_mask_spec f l idx (repeat false (length rows)) LL B) as (m & E & LM & H). exists m. rewrite mask_shift. split; [exact E|].
  rewrite repeat_length in LM. apply select_filter; [exact LM|]. intros k x X.
  assert (K : k < length (repeat false (length rows))) by (rewrite repeat_length; eapply nth_error_Some_lt; exact X). rewrite (H k K).
  assert (NX : nth_error (labels rows) k = Some (fst x)) by (unfold labels; rewrite nth_error_map, X; reflexivity).
  unfold label_in. rewrite existsb_exists. split.
  - intros [F|(i & a & b & I & A & Hb & AB)].
    + apply nth_error_In, repeat_spec in F. discriminate F.
    + exists (lo + i). split; [apply in_map; exact I|]. apply Nat.eqb_eq. destruct (TB i (B i I)) as (a' & b' & A' & B' & _ & _ & J). rewrite A in A'. rewrite Hb in B'. apply Some_inj in A', B'. subst a' b'.
      apply J in AB. rewrite NX in AB. apply Some_inj in AB. exact AB.
  - intros (t & I & EQ). apply Nat.eqb_eq in EQ. apply in_map_iff in I as (i & <- & I). right. destruct (TB i (B i I)) as (a & b & A & Hb & _ & _ & J).
    exists i, a, b. split; [exact I|]. split; [exact A|]. split; [exact Hb|]. apply J. rewrite NX, EQ. reflexivity.
Qed.

(** ** Sizes *)
Lemma sizes_spec : forall rows, rows <> [] -> nord (labels rows) ->
  exists f l lo ns, build_index (map (fun r => Z.of_nat (fst r)) rows) = Some (f, l, Z.of_nat lo) /\ tab_of (labels rows) (f, l, Z.of_nat lo) /\
    sizes f l = map qn ns /\ ns <> [] /\ length ns = length f /\ (forall k, k < length f -> nth_error ns k = Some (length (positions (lo + k) rows))).
Proof.
  intros rows NE S. assert (NL : labels rows <> []) by (destruct rows; [congruence|discriminate]).
  destruct (tables_spec (labels rows) NL S) as ([[f l] ref] & E & T). pose proof T as T'. destruct T' as (lo & -> & LL & PO & _ & _ & _ & TB).
  exists f, l, lo, (map (fun p => snd p - fst p) (combine f l)).
  assert (M : map (fun r : row => Z.of_nat (fst r)) rows = map Z.of_nat (labels rows)) by (unfold labels; rewrite map_map; reflexivity).
  assert (NC : forall k p, nth_error (combine f l) k = Some p -> fst p <= snd p /\ snd p - fst p = length (positions (lo + k) rows)).
  { intros k [a b] C. apply nth_combine_iff in C as [A B]. cbn [fst snd]. pose proof (nth_error_Some_lt _ _ _ A) as K.
    destruct (TB k K) as (a' & b' & A' & B' & AB & BL & J). rewrite A in A'. rewrite B in B'. apply Some_inj in A', B'. subst a' b'. split; [exact AB|].
    assert (PS : positions (lo + k) rows = map snd (Base.slice rows a b)).
    { unfold positions. f_equal. symmetry. apply Iter_props.slice_filter. intros i x X. rewrite J. unfold labels. rewrite nth_error_map, X. cbn. rewrite Nat.eqb_eq. split; [intros ->; reflexivity|intros H; apply Some_inj in H; exact H]. }
    rewrite PS, map_length. unfold Base.slice. rewrite firstn_length, skipn_length. unfold labels in BL. rewrite map_length in BL. lia. }
  split; [rewrite M; exact E|]. split; [exact T|]. split.
  { unfold sizes. rewrite map_map. apply map_ext_in. intros p P. apply In_nth_error in P as [k P]. apply NC in P as [P _]. unfold qn. f_equal. lia. }
  assert (LC : length (map (fun p => snd p - fst p) (combine f l)) = length f) by (rewrite map_length, combine_length; lia).
  split; [intros X; rewrite X in LC; cbn in LC; lia|]. split; [exact LC|].
  intros k K. rewrite nth_error_map. destruct (nth_error_lt_Some (combine f l) k) as [p P]; [rewrite combine_length; lia|]. rewrite P. cbn. f_equal. apply (NC k p P).
Qed.

(** ** Alignment, with slices *)
Definition bad (others : list group) (g : group) : bool :=
  match fst (fst g) with
  | Slice _ _ => match find (same_low (low g)) others with Some _ => false | None => existsb (fun o => Qlt_bool (low g) (low o)) others end
  | Index _ => false
  end.
Lemma bad_drop : forall pre rest self b, (forall o, In o pre -> (low o < b)%Q) -> (forall g, In g self -> (b <= low g)%Q) ->
  existsb (bad (pre ++ rest)) self = existsb (bad rest) self.
Proof.
  intros pre rest. induction self as [|[[r b0] b1] self IH]; intros b H G; [reflexivity|]. cbn [existsb].
  assert (b <= b0)%Q by (apply (G (r, b0, b1)); left; auto).
  assert (X : forall o, In o pre -> (low o < b0)%Q) by (intros o Ho; specialize (H o Ho); lra).
  rewrite (IH b) by (try assumption; intros; apply G; right; assumption). f_equal. unfold bad. cbn [fst]. destruct r; [|reflexivity].
  change (low (Slice a b2, b0, b1)) with b0. rewrite find_drop, exists_drop by auto. reflexivity.
Qed.
Lemma bad_below : forall others self b, (forall o, In o others -> (low o < b)%Q) -> (forall g, In g self -> (b <= low g)%Q) -> existsb (bad others) self = false /\ flat_map (pairs_of true others) self = [].
Proof.
  intros others self b H G. split.
  - rewrite <- (app_nil_r others), (bad_drop others [] self b H G). induction self as [|[[r b0] b1] self IH]; [reflexivity|]. cbn [existsb]. rewrite IH by (intros; apply G; right; assumption).
    unfold bad. cbn. destruct r; reflexivity.
  - rewrite <- (app_nil_r others), (pairs_drop true others [] self b H G). clear. induction self as [|[[r b0] b1] self IH]; [reflexivity|]. cbn [flat_map pairs_of find existsb andb app]. exact IH.
Qed.
Lemma align_loop_ok : forall self cur others, increasing (lows self) -> increasing (lows (cur :: others)) ->
  exists ps ok, align_loop true self true cur others = (ps, ok) /\ ok = negb (existsb (bad (cur :: others)) self) /\ (ok = true -> ps = flat_map (pairs_of true (cur :: others)) self).
Proof.
  induction self as [|[[r b0] b1] self IH]; intros cur others IS IO.
  - exists [], true. split; [reflexivity|]. split; [reflexivity|]. intros _. reflexivity.
  - assert (GS : forall g, In g self -> (b0 <= low g)%Q).
    { intros g H. pose proof (increasing_head (r, b0, b1) self g IS H) as X. unfold low in X at 1. simpl in X. lra. }
    assert (GS' : forall g, In g ((r, b0, b1) :: self) -> (b0 <= low g)%Q) by (intros g [<-|H]; [unfold low; cbn; lra|exact (GS g H)]).
    assert (STEP : forall cur others, increasing (lows (cur :: others)) -> (b0 <= low cur)%Q ->
      exists ps ok, (if Qlt_bool b0 (snd (fst cur)) then
          match r with
            | Slice _ _ => ([], false)
            | Index _ =>
                let '(ys, ok) := align_loop true self true cur others in
                ((r, Index [], b0, b1) :: ys, ok)
            end
        else
          let '(ys, ok) := align_loop true self true cur others in
          ((r, fst (fst cur), b0, b1) :: ys, ok)) = (ps, ok) /\ ok = negb (existsb (bad (cur :: others)) ((r, b0, b1) :: self)) /\ (ok = true -> ps = flat_map (pairs_of true (cur :: others)) ((r, b0, b1) :: self))).
    { intros cur' others' IO' LC.
      destruct (IH cur' others' (increasing_rest _ _ IS) IO') as (ps & ok & E & OK & FL).
      rewrite E. fold (low cur'). cbn [flat_map pairs_of existsb].
      destruct (Qlt_bool b0 (low cur')) eqn:LT.
      - pose proof LT as LT'. apply Qlt_bool_iff in LT.
        assert (AB : forall o, In o (cur' :: others') -> (b0 < low o)%Q).
        { intros o [<-|Ho]; auto. pose proof (increasing_head _ _ o IO' Ho). lra. }
        unfold bad at 1. cbn [fst]. change (low (r, b0, b1)) with b0. rewrite (find_above _ _ AB). cbn [existsb]. rewrite LT'. cbn [orb andb].
        destruct r as [a b|ix].
        + exists [], false. split; [reflexivity|]. split; [reflexivity|]. intros X. discriminate X.
        + eexists _, ok. split; [reflexivity|]. split; [exact OK|]. intros T. rewrite (FL T). reflexivity.
      - apply Qlt_bool_false in LT. assert (EQ : same_low b0 cur' = true). { unfold same_low. apply Qeq_bool_iff. lra. }
        unfold bad at 1. cbn [fst]. change (low (r, b0, b1)) with b0. cbn [find]. rewrite EQ. eexists _, ok. split; [reflexivity|]. split; [destruct r; exact OK|].
        intros T. rewrite (FL T). reflexivity. }
    cbn [align_loop]. fold (low cur).
    destruct (Qlt_bool (low cur) b0) eqn:LT.
    + destruct (advance_spec others b0 cur IO) as [[A B]|(pre & c' & o' & A & B & C & D)]; rewrite A.
      * exists [], true. destruct (bad_below (cur :: others) ((r, b0, b1) :: self) b0 B GS') as [X Y]. split; [reflexivity|]. split; [unfold group in *; rewrite X; reflexivity|]. intros _. symmetry. exact Y.
      * rewrite B. pose proof (bad_drop pre (c' :: o') _ b0 C GS') as BD. pose proof (pairs_drop true pre (c' :: o') _ b0 C GS') as PD. unfold group in *. rewrite BD, PD.
        apply STEP; auto. clear -IO B. rewrite B in IO. clear B. induction pre as [|p pre IH]; [exact IO|].
        apply IH. apply increasing_rest in IO. exact IO.
    + apply Qlt_bool_false in LT. apply STEP; auto.
Qed.
