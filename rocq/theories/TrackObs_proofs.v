(** Lemmas about the track dataset model. *)
From Coq Require Import List Arith ZArith Bool QArith Qabs Lia Lqa.
Import ListNotations.
From Verif Require Import Base Qaux Spec Solver_proofs Corr_model Corr_proofs Corr_merge Corr_more TrackObs_model TrackObs_spec.
Local Close Scope Q_scope.
Local Open Scope nat_scope.

(** ** Counts *)
Lemma count_app : forall t a b, count t (a ++ b) = count t a + count t b.
Proof. intros. unfold count. apply count_occ_app. Qed.
Lemma count_cons : forall t a l, count t (a :: l) = (if a =? t then 1 else 0) + count t l.
Proof.
  intros. unfold count. simpl. destruct (Nat.eq_dec a t) as [->|N].
  - rewrite Nat.eqb_refl. reflexivity.
  - apply Nat.eqb_neq in N. rewrite N. reflexivity.
Qed.
Lemma count_0 : forall t l, count t l = 0 <-> ~ In t l.
Proof. intros. unfold count. symmetry. apply count_occ_not_In. Qed.
Lemma list_max_ge : forall l t, In t l -> t <= list_max l.
Proof.
  intros l t H. pose proof (list_max_le l (list_max l)) as [Q _].
  specialize (Q (le_n _)). rewrite Forall_forall in Q. auto.
Qed.
Lemma list_max_in : forall l, l <> [] -> In (list_max l) l.
Proof.
  induction l as [|a l IH]; intros H; [congruence|].
  cbn [list_max fold_right]. change (fold_right Init.Nat.max 0 l) with (list_max l).
  destruct l as [|b l].
  - left. simpl. lia.
  - destruct (Nat.max_dec a (list_max (b :: l))) as [E|E].
    + left. symmetry. exact E.
    + right. rewrite E. apply IH. discriminate.
Qed.

(** ** Index tables *)

(** What the two tables mean after the rows [pre]. *)
Definition tables (s : nat) (pre : list nat) (index : list Z) (number : list nat) : Prop :=
  length index = s /\ length number = s /\
  forall t, t < s ->
    nth_error number t = Some (count t pre) /\
    exists f, nth_error index t = Some f /\ (count t pre = 0 -> f = (-1)%Z) /\
      (count t pre <> 0 -> (0 <= f)%Z) /\
      forall i, nth_error pre i = Some t <-> (f <= Z.of_nat i < f + Z.of_nat (count t pre))%Z.

Lemma nth_error_snoc : forall {A} (l : list A) a i,
  nth_error (l ++ [a]) i = if i <? length l then nth_error l i
                           else if i =? length l then Some a else None.
Proof.
  intros. destruct (Nat.ltb_spec i (length l)).
  - apply nth_error_app1; lia.
  - rewrite nth_error_app2 by lia. destruct (Nat.eqb_spec i (length l)).
    + subst. rewrite Nat.sub_diag. reflexivity.
    + destruct (i - length l) as [|k] eqn:E; [lia|]. simpl. destruct k; reflexivity.
Qed.

Lemma grouped_app_l : forall a b, grouped (a ++ b) -> grouped a.
Proof.
  intros a b G i j k t H1 H2 A B.
  assert (k < length a) by (eapply nth_error_Some_lt; eauto).
  specialize (G i j k t H1 H2). rewrite !nth_error_app1 in G by lia. auto.
Qed.

Lemma tables_step : forall s pre t index number index',
  grouped (pre ++ [t]) -> t < s -> tables s pre index number ->
  (index' = if (Z.of_nat t =? match nth_error pre (length pre - 1) with
                              | Some p => Z.of_nat p | None => -1 end)%Z
            then index else upd index t (Z.of_nat (length pre))) ->
  tables s (pre ++ [t]) index' (upd number t (S (count t pre))).
Proof.
  intros s pre t index number index' G Ht (L1 & L2 & T) E.
  assert (Lp : forall u i, nth_error pre i = Some u -> i < length pre)
    by (intros; eapply nth_error_Some_lt; eauto).
  repeat split.
  - subst index'. destruct (_ =? _)%Z; [|rewrite length_upd]; assumption.
  - rewrite length_upd. assumption.
  - rewrite count_app, count_cons. cbn [count count_occ].
    change (count t0 []) with 0. destruct (Nat.eqb_spec t t0) as [<-|N].
    + rewrite nth_error_upd_eq by lia. f_equal. lia.
    + rewrite nth_error_upd_neq by auto. destruct (T t0 H) as [-> _]. f_equal. lia.
  - rename t0 into u. rename H into Hu.
    destruct (T u Hu) as (_ & f & F1 & F2 & F2' & F3).
    rewrite count_app, count_cons. change (count u []) with 0.
    destruct (Nat.eqb_spec t u) as [<-|N].
    + (* the track of the new row *)
      destruct (Nat.eq_dec (length pre) 0) as [Z0|NZ].
      * destruct pre; [|discriminate]. change (nth_error [] (length (@nil nat) - 1)) with (@None nat) in E. cbv iota in E.
        replace (_ =? _)%Z with false in E by (symmetry; apply Z.eqb_neq; lia).
        exists 0%Z. subst index'. rewrite nth_error_upd_eq by lia.
        repeat split; try lia; cbn [app length] in *.
        -- destruct i; [simpl; lia|]. simpl in H. destruct i; discriminate.
        -- intros H. change (count t []) with 0 in H. assert (i = 0) by lia. subst. reflexivity.
      * destruct (nth_error_lt_Some pre (length pre - 1)) as [p Hp]; [lia|].
        rewrite Hp in E.
        destruct (Z.eqb_spec (Z.of_nat t) (Z.of_nat p)) as [Etp|Ntp].
        -- assert (p = t) by lia. subst p index'.
           pose proof (proj1 (F3 _) Hp) as R.
           assert (C : (f + Z.of_nat (count t pre) = Z.of_nat (length pre))%Z).
           { destruct (Z.eq_dec (f + Z.of_nat (count t pre)) (Z.of_nat (length pre))); auto.
             assert (nth_error pre (length pre) = Some t) by (apply F3; lia).
             apply Lp in H. lia. }
           exists f. split; auto. split; [lia|]. split; [intros; apply F2'; lia|].
           intros i. rewrite nth_error_snoc.
           destruct (Nat.ltb_spec i (length pre)).
           ++ rewrite F3. lia.
           ++ destruct (Nat.eqb_spec i (length pre)); split; intros HH; try discriminate; try lia; try reflexivity.
        -- assert (C : count t pre = 0).
           { apply count_0. intros I. apply In_nth_error in I. destruct I as [i Hi].
             pose proof (Lp _ _ Hi).
             destruct (Nat.eq_dec i (length pre - 1)) as [->|Ni]; [congruence|].
             assert (nth_error (pre ++ [t]) (length pre - 1) = Some t).
             { apply (G i _ (length pre)); try lia.
               - rewrite nth_error_app1 by lia. exact Hi.
               - rewrite nth_error_app2 by lia. rewrite Nat.sub_diag. reflexivity. }
             rewrite nth_error_app1 in H0 by lia. congruence. }
           rewrite C in *. exists (Z.of_nat (length pre)). subst index'.
           rewrite nth_error_upd_eq by lia. split; [reflexivity|].
           split; [lia|]. split; [lia|].
           intros i. rewrite nth_error_snoc.
           destruct (Nat.ltb_spec i (length pre)).
           ++ rewrite F3. lia.
           ++ destruct (Nat.eqb_spec i (length pre)); split; intros HH; try discriminate; try lia; try reflexivity.
    + exists f. split; [|split; [|split]].
      * subst index'. destruct (_ =? _)%Z; auto. rewrite nth_error_upd_neq by auto. auto.
      * rewrite !Nat.add_0_r. auto.
      * rewrite !Nat.add_0_r. auto.
      * intros i. rewrite !Nat.add_0_r. rewrite nth_error_snoc. rewrite <- F3.
        destruct (Nat.ltb_spec i (length pre)); [reflexivity|].
        destruct (Nat.eqb_spec i (length pre)); split; intros HH; try discriminate; try congruence.
        -- apply Lp in HH. lia.
        -- apply Lp in HH. lia.
Qed.

Lemma compute_index_loop_spec : forall s rest pre index number,
  grouped (pre ++ rest) -> (forall t, In t rest -> t < s) -> tables s pre index number ->
  exists index' number',
    compute_index_loop (length pre)
      (match nth_error pre (length pre - 1) with Some p => Z.of_nat p | None => -1 end)%Z
      rest index number = Some (index', number') /\
    tables s (pre ++ rest) index' number'.
Proof.
  intros s. induction rest as [|t rest IH]; intros pre index number G B T.
  - exists index, number. rewrite app_nil_r. split; auto.
  - assert (Ht : t < s) by (apply B; left; reflexivity).
    assert (G1 : grouped (pre ++ [t])).
    { apply (grouped_app_l _ rest). rewrite <- app_assoc. exact G. }
    pose proof T as (L1 & L2 & TT). destruct (TT t Ht) as [N _].
    cbn [compute_index_loop].
    match goal with |- context [bind (if ?c then Some index else ?d) _] =>
      assert (X : (if c then Some index else d) = Some (if c then index else upd index t (Z.of_nat (length pre)))) end.
    { destruct (_ =? _)%Z; auto. unfold store. destruct (Nat.ltb_spec t (length index)); [reflexivity|lia]. }
    rewrite X. cbn [bind]. rewrite N. cbn [bind].
    unfold store. destruct (Nat.ltb_spec t (length number)); [|lia]. cbn [bind].
    pose proof (tables_step s pre t index number _ G1 Ht T eq_refl) as T1.
    destruct (IH (pre ++ [t]) _ _ ltac:(rewrite <- app_assoc; exact G)
                 ltac:(intros; apply B; right; assumption) T1) as (i2 & n2 & R & T2).
    exists i2, n2. rewrite <- app_assoc in T2. split; [|exact T2].
    rewrite <- R. rewrite app_length. cbn [length].
    replace (length pre + 1 - 1) with (length pre) by lia.
    rewrite (nth_error_app2 pre [t]) by lia. rewrite Nat.sub_diag. cbn [nth_error].
    rewrite Nat.add_1_r. reflexivity.
Qed.

Lemma compute_index_spec : forall tracks,
  tracks <> [] -> grouped tracks ->
  exists index number, compute_index tracks = Some (index, number) /\
    tables (S (list_max tracks)) tracks index number.
Proof.
  intros tracks NE G. unfold compute_index. destruct tracks as [|a l] eqn:E; [congruence|].
  rewrite <- E in *. clear NE.
  apply (compute_index_loop_spec (S (list_max tracks)) tracks [] _ _ G).
  - intros t H. apply list_max_ge in H. lia.
  - repeat split; try apply repeat_length.
    + rewrite nth_error_repeat_lt. destruct (Nat.ltb_spec t (S (list_max tracks))); [reflexivity|lia].
    + exists (-1)%Z. rewrite nth_error_repeat_lt. destruct (Nat.ltb_spec t (S (list_max tracks))); [|lia].
      change (count t []) with 0. repeat split; try lia.
      all: destruct i; discriminate.
Qed.

Lemma grouped_sorted : forall l, nsorted l -> grouped l.
Proof.
  intros l S i j k t H1 H2 A B.
  assert (k < length l) by (eapply nth_error_Some_lt; eauto).
  destruct (nth_error_lt_Some l j) as [u U]; [lia|].
  rewrite U. f_equal. pose proof (S i j _ _ H1 A U). pose proof (S j k _ _ H2 U B). lia.
Qed.

(** ** Masks *)
Lemma compute_mask_spec : forall s tracks index number ids mask,
  tables s tracks index number -> (forall t, In t ids -> t < s) -> length mask = length tracks ->
  exists m, compute_mask_from_id ids index number mask = Some m /\ length m = length tracks /\
    forall i t, nth_error tracks i = Some t ->
      (nth_error m i = Some true <-> (nth_error mask i = Some true \/ In t ids)).
Proof.
  intros s tracks index number. induction ids as [|u ids IH]; intros mask T B L.
  - exists mask. split; [reflexivity|]. split; [exact L|]. intros i t Hi. simpl. tauto.
  - assert (Hu : u < s) by (apply B; left; reflexivity).
    pose proof T as (_ & _ & TT). destruct (TT u Hu) as (N & f & F1 & F2 & F2' & F3).
    cbn [compute_mask_from_id]. rewrite F1. cbn [bind]. rewrite N. cbn [bind].
    set (n := length mask) in *.
    remember (fill mask (pybound n f) (pybound n (f + Z.of_nat (count u tracks))) true) as m1 eqn:E1.
    assert (L1 : length m1 = length tracks) by (subst m1; rewrite length_fill; exact L).
    destruct (IH m1 T ltac:(intros; apply B; right; assumption) L1) as (m & R & Lm & M).
    exists m. split; [exact R|]. split; [exact Lm|].
    intros i t Hi. rewrite (M i t Hi). simpl.
    assert (Li : i < n) by (rewrite L; eapply nth_error_Some_lt; eauto).
    assert (K : nth_error m1 i = Some true <-> (nth_error mask i = Some true \/ t = u)).
    { subst m1. rewrite nth_error_fill. fold n.
      destruct (Nat.eq_dec (count u tracks) 0) as [C0|C0].
      - rewrite (F2 C0), C0. replace (-1 + Z.of_nat 0)%Z with (-1)%Z by lia.
        assert (X : (pybound n (-1) <=? i) && (i <? pybound n (-1)) = false).
        { destruct (Nat.leb_spec (pybound n (-1)) i); [|reflexivity].
          destruct (Nat.ltb_spec i (pybound n (-1))); [lia|reflexivity]. }
        rewrite X. cbn [andb]. split; [auto|]. intros [H|H]; auto. subst t.
        apply count_0 in C0. exfalso. apply C0. eapply nth_error_In; eauto.
      - specialize (F2' C0).
        assert (Q : (f + Z.of_nat (count u tracks) <= Z.of_nat n)%Z).
        { destruct (Z_le_gt_dec (f + Z.of_nat (count u tracks)) (Z.of_nat n)); auto.
          assert (X : nth_error tracks n = Some u).
          { destruct (Z_le_gt_dec f (Z.of_nat n)).
            - apply F3. lia.
            - exfalso. assert (Y : nth_error tracks (Z.to_nat f) = Some u) by (apply F3; lia).
              apply nth_error_Some_lt in Y. lia. }
          apply nth_error_Some_lt in X. lia. }
        unfold pybound. destruct (Z.ltb_spec f 0); [lia|].
        destruct (Z.ltb_spec (f + Z.of_nat (count u tracks)) 0); [lia|].
        rewrite (proj2 (Nat.ltb_lt i n) Li).
        destruct (Nat.leb_spec (Nat.min (Z.to_nat f) n) i); cbn [andb].
        + destruct (Nat.ltb_spec i (Nat.min (Z.to_nat (f + Z.of_nat (count u tracks))) n)); cbn [andb].
          * split; auto. intros _. right. assert (X : nth_error tracks i = Some u) by (apply F3; lia). congruence.
          * split; auto. intros [X|X]; auto. subst t. apply F3 in Hi. lia.
        + split; auto. intros [X|X]; auto. subst t. apply F3 in Hi. lia. }
    rewrite K. intuition congruence.
Qed.

Lemma get_mask_spec : forall tracks ids,
  tracks <> [] -> grouped tracks -> (forall t, In t ids -> In t tracks \/ t <= list_max tracks) ->
  exists m, get_mask_from_id tracks ids = Some m /\ length m = length tracks /\
    forall i t, nth_error tracks i = Some t -> (nth_error m i = Some true <-> In t ids).
Proof.
  intros tracks ids NE G B. unfold get_mask_from_id.
  destruct (compute_index_spec tracks NE G) as (index & number & -> & T). cbn [bind fst snd].
  destruct (compute_mask_spec _ _ _ _ ids (repeat false (length tracks)) T) as (m & R & L & M).
  - intros t H. destruct (B t H) as [H'|H']; [apply list_max_ge in H'|]; lia.
  - apply repeat_length.
  - exists m. split; [exact R|]. split; [exact L|]. intros i t Hi. rewrite (M i t Hi).
    rewrite nth_error_repeat_lt. destruct (i <? length tracks); intuition discriminate.
Qed.

Lemma select_kept : forall {A} m (l : list A) P,
  mask_is m (length l) P -> kept l P (select m l).
Proof.
  intros A m l P (L & M). exists (where_ m).
  split; [unfold where_; rewrite length_where_from, length_select by exact L; reflexivity|].
  split; [intros u v a b; apply incr_nth; apply incr_where|].
  split.
  - intros i. rewrite In_where. split.
    + intros H. assert (i < length l) by (rewrite <- L; eapply nth_error_Some_lt; eauto).
      split; auto. apply M; auto.
    + intros [H1 H2]. apply M; auto.
  - intros u i H. rewrite (nth_error_select m l 0 u i L H), Nat.sub_0_r. reflexivity.
Qed.

Lemma nth_error_select_full : forall {A} m (l : list A) u a,
  length m = length l -> nth_error (select m l) u = Some a ->
  exists i, nth_error m i = Some true /\ nth_error l i = Some a.
Proof.
  intros A m l u a L H.
  assert (u < length (where_ m)).
  { unfold where_. rewrite length_where_from. rewrite <- (length_select m l L). eapply nth_error_Some_lt; eauto. }
  destruct (nth_error_lt_Some _ _ H0) as [i Hi]. exists i.
  split; [apply In_where; eapply nth_error_In; eauto|].
  rewrite <- H. symmetry. unfold where_ in Hi. rewrite (nth_error_select m l 0 u i L Hi), Nat.sub_0_r. reflexivity.
Qed.

Lemma In_select_iff : forall {A} m (l : list A) a, length m = length l ->
  (In a (select m l) <-> exists i, nth_error m i = Some true /\ nth_error l i = Some a).
Proof.
  intros A m l a L. split.
  - intros H. apply In_nth_error in H as [u H]. eapply nth_error_select_full; eauto.
  - intros (i & H1 & H2). assert (In i (where_ m)) by (apply In_where; exact H1).
    apply In_nth_error in H as [u H].
    apply (nth_error_In _ u). unfold where_ in H. rewrite (nth_error_select m l 0 u i L H), Nat.sub_0_r. exact H2.
Qed.

(** ** Extraction *)
Lemma map_negb_true : forall m i, nth_error (map negb m) i = Some true <-> nth_error m i = Some false.
Proof.
  intros. rewrite nth_error_map. destruct (nth_error m i) as [[|]|]; cbn; split; congruence.
Qed.

Section Extract.
Variables (A : Type) (tracks : list nat) (virtual : list bool) (rows : list A) (mask : list bool).
Hypothesis NE : tracks <> [].
Hypothesis G : grouped tracks.
Hypothesis LR : length rows = length tracks.
Hypothesis LM : length mask = length tracks.
Hypothesis LV : length virtual = length tracks.

(** Uncompressed result of a known mask. *)
Lemma extract_of_mask : forall m P (r : list nat * list A),
  length m = length tracks ->
  (forall i, i < length tracks -> (nth_error m i = Some true <-> P i)) ->
  r = (select m tracks, select m rows) ->
  kept tracks P (fst r) /\ kept rows P (snd r).
Proof.
  intros m P r L M ->. cbn [fst snd]. split; apply select_kept; split; auto; [congruence|].
  rewrite LR. exact M.
Qed.

Lemma plain_nil : forall m : list bool, length m = length tracks ->
  match select m tracks with [] => Some ([], []) | _ :: _ => Some (select m tracks, select m rows) end
  = Some (select m tracks, select m rows).
Proof.
  intros m L. destruct (select m tracks) eqn:E; auto.
  assert (X : length (select m rows) = 0).
  { rewrite length_select by congruence. rewrite <- (length_select m tracks L), E. reflexivity. }
  destruct (select m rows); [reflexivity|discriminate].
Qed.

Lemma extract_plain : forall rv,
  exists r, extract_with_mask tracks virtual rows mask false false false rv = Some r /\
    kept tracks (fun i => nth_error mask i = Some true) (fst r) /\
    kept rows (fun i => nth_error mask i = Some true) (snd r).
Proof.
  intros rv. unfold extract_with_mask. cbn [bind].
  exists (select mask tracks, select mask rows). split.
  - rewrite <- (plain_nil mask LM). destruct (select mask tracks); reflexivity.
  - apply (extract_of_mask mask); auto. intros; reflexivity.
Qed.

Definition sel (rv : bool) (j : nat) : Prop :=
  nth_error mask j = Some true /\ (rv = true -> nth_error virtual j = Some false).

Lemma reject_mask : forall (rv : bool) j, j < length tracks ->
  nth_error (if rv then map (fun p : bool * bool => fst p && negb (snd p)) (combine mask virtual) else mask) j = Some true
  <-> sel rv j.
Proof.
  intros rv j H. unfold sel. destruct rv; [|intuition discriminate].
  destruct (nth_error_lt_Some mask j) as [b Hb]; [lia|].
  destruct (nth_error_lt_Some virtual j) as [v Hv]; [lia|].
  rewrite nth_error_map, (nth_error_combine _ _ _ _ _ Hb Hv), Hb, Hv. cbn.
  destruct b, v; cbn; intuition discriminate.
Qed.

Lemma extract_full : forall ri rv,
  exists r, extract_with_mask tracks virtual rows mask true ri false rv = Some r /\
    let P i := exists j, sel rv j /\ nth_error tracks j = nth_error tracks i in
    kept tracks P (fst r) /\ kept rows P (snd r).
Proof.
  intros ri rv. unfold extract_with_mask.
  set (m0 := if rv then map (fun p : bool * bool => fst p && negb (snd p)) (combine mask virtual) else mask).
  assert (L0 : length m0 = length tracks).
  { unfold m0. destruct rv; auto. rewrite map_length, combine_length. lia. }
  destruct (get_mask_spec tracks (usort (select m0 tracks)) NE G) as (m & R & L & M).
  { intros t H. left. rewrite In_usort in H. apply In_select_iff in H as (i & _ & H); auto. eapply nth_error_In; eauto. }
  cbv zeta. rewrite R. cbn [bind].
  exists (select m tracks, select m rows). split.
  - rewrite <- (plain_nil m L). destruct (select m tracks); reflexivity.
  - apply (extract_of_mask m); auto. intros i Hi.
    destruct (nth_error_lt_Some tracks i Hi) as [t Ht]. rewrite (M i t Ht), In_usort, In_select_iff by auto.
    split.
    + intros (j & H1 & H2). exists j. split; [|congruence].
      apply reject_mask; auto. eapply nth_error_Some_lt; eauto.
    + intros (j & H1 & H2). exists j. rewrite Ht in H2. split; auto. apply reject_mask; auto.
      eapply nth_error_Some_lt; eauto.
Qed.

Lemma extract_complete : forall rv,
  exists r, extract_with_mask tracks virtual rows mask false true false rv = Some r /\
    let P i := forall j, nth_error tracks j = nth_error tracks i -> nth_error mask j = Some true in
    kept tracks P (fst r) /\ kept rows P (snd r).
Proof.
  intros rv. unfold extract_with_mask.
  assert (L0 : length (map negb mask) = length tracks) by (rewrite map_length; auto).
  destruct (get_mask_spec tracks (usort (select (map negb mask) tracks)) NE G) as (m & R & L & M).
  { intros t H. left. rewrite In_usort in H. apply In_select_iff in H as (i & _ & H); auto. eapply nth_error_In; eauto. }
  cbv zeta. rewrite R. cbn [bind].
  assert (L1 : length (map negb m) = length tracks) by (rewrite map_length; auto).
  exists (select (map negb m) tracks, select (map negb m) rows). split.
  - rewrite <- (plain_nil _ L1). destruct (select (map negb m) tracks); reflexivity.
  - apply (extract_of_mask (map negb m)); auto. intros i Hi.
    destruct (nth_error_lt_Some tracks i Hi) as [t Ht]. rewrite map_negb_true.
    assert (MM : nth_error m i = Some false <-> ~ In t (usort (select (map negb mask) tracks))).
    { rewrite <- (M i t Ht). destruct (nth_error_lt_Some m i) as [b Hb]; [lia|]. rewrite Hb. destruct b; intuition congruence. }
    rewrite MM, In_usort, In_select_iff by auto. split.
    + intros H j Hj. rewrite Ht in Hj. destruct (nth_error_lt_Some mask j) as [b Hb].
      { rewrite LM. eapply nth_error_Some_lt; eauto. }
      destruct b; auto. exfalso. apply H. exists j. split; auto. apply map_negb_true. exact Hb.
    + intros H (j & H1 & H2). apply map_negb_true in H1. rewrite (H j) in H1; [discriminate|congruence].
Qed.

End Extract.

(** ** Compressed numbers *)
Lemma list_max_usort : forall l, list_max (usort l) = list_max l.
Proof.
  intros l. destruct l as [|a l]; [reflexivity|].
  assert (N1 : a :: l <> []) by discriminate.
  assert (N2 : usort (a :: l) <> []).
  { intros C. assert (In a []) by (rewrite <- C; apply In_usort; left; reflexivity). destruct H. }
  apply Nat.le_antisymm; apply list_max_ge.
  - apply In_usort. apply list_max_in. exact N2.
  - apply In_usort. apply list_max_in. exact N1.
Qed.

Lemma compress_spec : forall tracks, tracks <> [] ->
  exists r, compress_id tracks = Some r /\ length r = length tracks /\
    (forall i j a b a' b', nth_error tracks i = Some a -> nth_error tracks j = Some b ->
       nth_error r i = Some a' -> nth_error r j = Some b' -> (a' < b' <-> a < b)) /\
    (forall v, In v r <-> 1 <= v <= length (usort tracks)).
Proof.
  intros tracks NE. unfold compress_id. set (u := usort tracks).
  destruct (stores_total u (seq 0 (S (list_max u))) (seq 1 (length u))) as [table HT].
  { rewrite seq_length. reflexivity. }
  { intros i H. rewrite seq_length. apply list_max_ge in H. lia. }
  rewrite HT. cbn [bind].
  assert (ND : NoDup u) by (apply incr_NoDup, incr_usort).
  assert (K : forall t, In t tracks -> exists k, nth_error u k = Some t /\ nth_error table t = Some (S k)).
  { intros t H. assert (In t u) by (apply In_usort; exact H). apply In_nth_error in H0 as [k Hk].
    exists k. split; auto. apply (stores_nodup u _ (seq 1 (length u)) table k t (S k) ND HT Hk).
    rewrite nth_error_seq. destruct (Nat.ltb_spec k (length u)).
    - f_equal.
    - apply nth_error_Some_lt in Hk. lia. }
  destruct (gather_total table tracks) as [r Hr].
  { intros t H. destruct (K t H) as (k & _ & E). eapply nth_error_Some_lt; eauto. }
  exists r. split; auto. apply gather_Some in Hr as [Lr Hr]. split; auto.
  assert (V : forall i t a, nth_error tracks i = Some t -> nth_error r i = Some a ->
             exists k, nth_error u k = Some t /\ a = S k).
  { intros i t a H1 H2. destruct (K t (nth_error_In _ _ H1)) as (k & K1 & K2).
    destruct (Hr i t H1) as (a' & A1 & A2). exists k. split; auto. congruence. }
  split.
  - intros i j a b a' b' Ha Hb Ha' Hb'.
    destruct (V i a a' Ha Ha') as (k & K1 & ->). destruct (V j b b' Hb Hb') as (l & L1 & ->).
    assert (IN : incr u) by apply incr_usort.
    destruct (Nat.lt_trichotomy k l) as [X|[X|X]].
    + pose proof (incr_nth u IN k l a b X K1 L1). lia.
    + subst. assert (a = b) by congruence. lia.
    + pose proof (incr_nth u IN l k b a X L1 K1). lia.
  - intros v. split.
    + intros H. apply In_nth_error in H as [i Hi].
      destruct (nth_error_lt_Some tracks i) as [t Ht]; [rewrite <- Lr; eapply nth_error_Some_lt; eauto|].
      destruct (V i t v Ht Hi) as (k & K1 & ->). apply nth_error_Some_lt in K1. lia.
    + intros H. destruct (nth_error_lt_Some u (v - 1)) as [t Ht]; [lia|].
      assert (I : In t tracks) by (apply In_usort; eapply nth_error_In; eauto).
      apply In_nth_error in I as [i Hi]. destruct (Hr i t Hi) as (a & A1 & A2).
      destruct (V i t a Hi A2) as (k & K1 & ->).
      assert (k = v - 1).
      { apply (proj1 (NoDup_nth_error u) ND); [eapply nth_error_Some_lt; eauto|congruence]. }
      apply (nth_error_In _ i). rewrite A2. f_equal. lia.
Qed.

Lemma usort_nodup_length : forall l, length (usort l) = length (nodup Nat.eq_dec l).
Proof.
  intros l. apply Nat.le_antisymm; apply NoDup_incl_length.
  - apply incr_NoDup, incr_usort.
  - intros x H. apply nodup_In. apply In_usort. exact H.
  - apply NoDup_nodup.
  - intros x H. apply In_usort. apply nodup_In in H. exact H.
Qed.

Lemma extract_compress : forall {A} tracks virtual (rows : list A) mask fp ri rv tr rw,
  extract_with_mask tracks virtual rows mask fp ri false rv = Some (tr, rw) ->
  exists tr', extract_with_mask tracks virtual rows mask fp ri true rv = Some (tr', rw) /\
    length tr' = length tr /\
    (forall i j a b a' b', nth_error tr i = Some a -> nth_error tr j = Some b ->
       nth_error tr' i = Some a' -> nth_error tr' j = Some b' -> (a' < b' <-> a < b)) /\
    (forall v, In v tr' <-> 1 <= v <= length (nodup Nat.eq_dec tr)).
Proof.
  intros A tracks virtual rows mask fp ri rv tr rw H. unfold extract_with_mask in *.
  apply bind_Some in H as (m & Hm & H). rewrite Hm. cbn [bind]. cbv zeta in H.
  destruct (select m tracks) as [|t l] eqn:E.
  - injection H as <- <-. exists []. split; [reflexivity|]. split; [reflexivity|].
    split; [intros [|]; discriminate|]. simpl. intros v. split; [tauto|lia].
  - injection H as <- <-. cbv beta iota zeta.
    destruct (compress_spec (t :: l)) as (r & R & L & O & I); [discriminate|].
    rewrite R. cbn [bind]. exists r. split; [reflexivity|]. split; [exact L|]. split; [exact O|].
    intros v. rewrite <- usort_nodup_length. apply I.
Qed.
