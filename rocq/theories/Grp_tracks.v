(** Lemmas on targets in the full dataset, tracks selected by date and the atlas
    of targets. *)
From Coq Require Import List Arith ZArith QArith Qround Bool Lia Lqa Permutation.
From Verif Require Import Base Spec Qaux Generic_model Generic_proofs Corr_model Corr_spec Corr_merge Corr_more TrackObs_model TrackObs_spec TrackObs_proofs TrackObs_more Split_model Split_net Obs_model Obs_spec Obs_proofs Obs_align NetEvt_model NetEvt_more Net_links Grp_model Grp_spec Grp_proofs Grp_more Grp_targets.
Import ListNotations.
Local Close Scope Q_scope.
Local Open Scope nat_scope.

(** ** get_matrix *)

Lemma skipn_cons : forall {A} (l : list A) n x, nth_error l n = Some x -> skipn n l = x :: skipn (S n) l.
Proof. induction l as [|a l IH]; intros [|n] x E; simpl in E; try discriminate; [injection E as ->; auto|]. cbn [skipn]. rewrite (IH n x E). destruct l; auto. Qed.
Lemma matrix_row_spec : forall names ref cs n b, n + length cs <= length names ->
  matrix_row ref cs (skipn n names) (renamed names b) = Some (renamed names (rank_row whole ref n cs b)).
Proof.
  intros names ref. induction cs as [|c cs IH]; intros n b L; [reflexivity|]. cbn [length] in L. destruct (nth_error_lt_Some names n ltac:(lia)) as [j J]. rewrite (skipn_cons names n j J). cbn [matrix_row rank_row].
  rewrite <- (IH (S n)) by lia. f_equal. unfold renamed at 1 2 4 5. cbn [b_p0 b_p1]. destruct (c =? 0)%Z; [auto|]. cbv zeta. destruct (Qlt_bool (b_p0 b) _); [|destruct (Qlt_bool (b_p1 b) _)]; unfold renamed; cbn [b_t0 b_t1 b_p0 b_p1 option_map]; rewrite ?(nth_error_nth names n 0 J); auto.
Qed.
Lemma matrix_rows_spec : forall names refs counts ts all, length counts = length refs -> length ts = length refs -> NoDup ts ->
  (forall c, In c counts -> length c = length names) -> (forall s, In s ts -> nth_error all s = Some no_target) ->
  exists all', matrix_rows refs counts ts names all = Some all' /\ length all' = length all /\
    (forall i s r c, nth_error ts i = Some s -> nth_error refs i = Some r -> nth_error counts i = Some c -> nth_error all' s = Some (renamed names (rank_row whole r 0 c no_target))) /\
    (forall s, ~ In s ts -> nth_error all' s = nth_error all s).
Proof.
  intros names. induction refs as [|r refs IH]; intros [|c counts] [|s ts] all L1 L2 ND LC NT; simpl in L1, L2; try discriminate.
  - exists all. split; [reflexivity|]. split; [auto|]. split; [|auto]. intros [|i]; discriminate.
  - cbn [matrix_rows]. rewrite (NT s (or_introl eq_refl)). cbn [bind]. pose proof (matrix_row_spec names r c 0 no_target) as M. rewrite (LC c (or_introl eq_refl)) in M. specialize (M ltac:(lia)). cbn [skipn] in M. change (renamed names no_target) with no_target in M. rewrite M. cbn [bind].
    inversion ND as [|? ? NI ND']; subst. assert (SL : s < length all) by (eapply nth_error_Some_lt; apply NT; left; eauto).
    destruct (IH counts ts (upd all s (renamed names (rank_row whole r 0 c no_target)))) as (all' & E & A1 & A2 & A3); auto; try lia.
    { intros x I. apply LC. right. auto. } { intros x I. rewrite nth_error_upd_neq by congruence. apply NT. right. auto. }
    exists all'. rewrite length_upd in A1. split; [exact E|]. split; [auto|]. split.
    + intros [|i] s0 r0 c0 S0 R0 C0; cbn [nth_error] in S0, R0, C0; [|eauto]. injection S0 as <-. injection R0 as <-. injection C0 as <-. rewrite (A3 s NI). apply nth_error_upd_eq. auto.
    + intros x NX. rewrite (A3 x) by (simpl in NX; tauto). apply nth_error_upd_neq. simpl in NX. tauto.
Qed.

Lemma get_matrix_spec : forall i_start i_end ts te all, length i_start = length i_end -> NoDup ts ->
  (forall s, In s i_start -> s < length ts) -> (forall e, In (Some e) i_end -> e < length te) -> (forall s, In s ts -> nth_error all s = Some no_target) ->
  exists all', get_matrix i_start i_end ts te all = Some all' /\ length all' = length all /\
    (forall i s, nth_error ts i = Some s -> exists b, nth_error all' s = Some (renamed te b) /\ two_best whole (reached i_start i_end (length te) i) (percent i_start i_end i) b) /\
    (forall s, ~ In s ts -> nth_error all' s = nth_error all s).
Proof.
  intros i_start i_end ts te all L ND BS BE NT. unfold get_matrix.
  destruct (count_particles_spec (length te) i_start i_end (repeat 0%Z (length ts)) (repeat (repeat 0%Z (length te)) (length ts))) as (ref & counts & E & A1 & A2 & A3 & A4 & A5); auto.
  { rewrite !repeat_length. auto. } { intros row I. apply repeat_spec in I. subst row. apply repeat_length. } { rewrite repeat_length. auto. }
  rewrite repeat_length in A1, A2. rewrite E. cbn [bind]. destruct (matrix_rows_spec te ref counts ts all) as (all' & E' & B1 & B2 & B3); auto; try lia.
  exists all'. split; [auto|]. split; [auto|]. split; [|auto]. intros i s S1. assert (IL : i < length ts) by (eapply nth_error_Some_lt; eauto).
  specialize (A4 i 0%Z). rewrite nth_error_repeat_lt in A4. destruct (Nat.ltb_spec i (length ts)); [|lia]. specialize (A4 eq_refl).
  destruct (A5 i (repeat 0%Z (length te))) as (row & R & H'); [rewrite nth_error_repeat_lt; destruct (Nat.ltb_spec i (length ts)); [auto|lia]|].
  eexists. split; [apply (B2 i s _ _ S1 A4 R)|]. assert (LR : length row = length te) by (apply A3; eapply nth_error_In; eauto). apply row_two_best; [apply keeping_whole|auto|].
  intros j c C. specialize (H' j 0%Z). rewrite nth_error_repeat_lt in H'. apply nth_error_Some_lt in C as CL. destruct (Nat.ltb_spec j (length te)); [|lia]. specialize (H' eq_refl). rewrite C in H'. injection H' as ->. lia.
Qed.

(** ** merge_particle_result *)
Lemma translate_best_spec : forall i_end b, targets_below (length i_end) b -> translate_best i_end b = Some (renamed i_end b).
Proof.
  intros i_end [[t0|] p0 [t1|] p1] [A B]; unfold translate_best, translate_target, renamed; cbn [b_t0 b_t1 b_p0 b_p1 option_map] in *; repeat match goal with H : forall j, Some ?t = Some j -> _ |- _ => specialize (H t eq_refl); destruct (nth_error_lt_Some i_end t H) as [? ?]; clear H end;
    repeat match goal with H : nth_error i_end _ = Some _ |- _ => rewrite H, (nth_error_nth i_end _ 0 H); clear H end; reflexivity.
Qed.
Lemma merge_result_spec : forall all local i_origin i_end, length local = length i_origin -> NoDup i_origin -> (forall p, In p i_origin -> p < length all) ->
  (forall b, In b local -> targets_below (length i_end) b) ->
  exists all', merge_particle_result all local i_origin i_end = Some all' /\ length all' = length all /\
    (forall k p b, nth_error i_origin k = Some p -> nth_error local k = Some b -> nth_error all' p = Some (renamed i_end b)) /\
    (forall p, ~ In p i_origin -> nth_error all' p = nth_error all p).
Proof.
  intros all local i_origin i_end L ND B T. unfold merge_particle_result. rewrite (sequence_map _ (renamed i_end)) by (intros b I; apply translate_best_spec; auto). cbn [bind].
  destruct (stores_total i_origin all (map (renamed i_end) local)) as [all' E]; [rewrite map_length; auto|auto|]. exists all'. split; [auto|]. split; [eapply length_stores; eauto|]. split.
  - intros k p b K B'. eapply stores_nodup; eauto. rewrite nth_error_map, B'. auto.
  - intros p NP. eapply stores_other; eauto.
Qed.

(** ** keep_tracks_by_date *)
Lemma track_groups : forall argsort unsigned tracks, tracks <> [] -> (unsigned = false /\ sorts argsort) \/ nsorted tracks ->
  exists gs, iter_on argsort unsigned (map (fun t => inject_Z (Z.of_nat t)) tracks) None = (gs, true) /\
    (forall k, k < length tracks -> exists rows lo hi, In (rows, lo, hi) gs /\ In k (rows_list rows)) /\
    (forall rows lo hi, In (rows, lo, hi) gs -> exists t, forall k, In k (rows_list rows) <-> nth_error tracks k = Some t).
Proof.
  intros argsort unsigned tracks NE H. set (x := map (fun t => inject_Z (Z.of_nat t)) tracks).
  assert (NX : x <> []) by (unfold x; destruct tracks; [congruence|discriminate]).
  assert (G : exists gs, iter_on argsort unsigned x None = (gs, true) /\ (forall k, In k (concat (map (fun g => fst (fst g)) (map view gs))) <-> k < length x) /\
     (forall rows lo hi, In (rows, lo, hi) (map view gs) -> rows <> [] /\ (hi == lo + 1)%Q /\ forall k, In k rows <-> exists v, nth_error x k = Some v /\ (lo <= v /\ v < lo + 1)%Q)).
  { destruct H as [[-> AS]|NS].
    - destruct (iter_on_default argsort x AS NX) as (gs & E & _ & A & B & _). exists gs. auto.
    - destruct (default_bins_spec x NX) as (bins & E & I & L & IN & b0 & _ & STEP).
      assert (QS : qsorted x). { intros i j a b LT A B. unfold x in A, B. rewrite nth_error_map in A, B. destruct (nth_error tracks i) as [ta|] eqn:TA; [|discriminate]. destruct (nth_error tracks j) as [tb|] eqn:TB; [|discriminate]. injection A as <-. injection B as <-. apply inject_Z_le_iff. pose proof (NS i j ta tb LT TA TB). lia. }
      destruct (iter_on_sorted argsort unsigned x bins NX QS I L IN) as (gs & E' & (V1 & V2 & V3 & V4) & _). exists gs. split; [rewrite <- E'; unfold iter_on; rewrite E; reflexivity|]. split.
      + intros k. rewrite V2. split; [intros (v & Hv & _); eapply nth_error_Some_lt; eauto|]. intros Hk. destruct (nth_error_lt_Some x k Hk) as [v Hv]. exists v. split; [auto|]. apply IN. eapply nth_error_In; eauto.
      + intros rows lo hi R. destruct (V3 rows lo hi R) as (N & (j & Hlo & Hhi) & K). split; [exact N|]. assert (HE : (hi == lo + 1)%Q). { rewrite (STEP _ _ Hlo), (STEP _ _ Hhi), (Nat2Z.inj_succ j), <- Z.add_1_r, inject_Z_plus. change (inject_Z 1) with 1%Q. lra. }
        split; [exact HE|]. intros k. rewrite K. split; intros (v & Hv & B1 & B2); exists v; (split; [auto|]); split; lra. }
  destruct G as (gs & E & A & B). exists gs. split; [exact E|]. split.
  - intros k K. assert (I : In k (concat (map (fun g => fst (fst g)) (map view gs)))) by (apply A; unfold x; rewrite map_length; auto). apply in_concat in I as (rows & I & IK). rewrite map_map in I. apply in_map_iff in I as ([[r lo] hi] & <- & I). exists r, lo, hi. auto.
  - intros rows lo hi I. destruct (B (rows_list rows) lo hi) as (N & HE & K). { change (rows_list rows, lo, hi) with (view (rows, lo, hi)). apply in_map. auto. }
    destruct (rows_list rows) as [|k0 l] eqn:RL; [congruence|]. rewrite <- RL in *. destruct (proj1 (K k0)) as (v & V & B1 & B2); [rewrite RL; left; auto|]. unfold x in V. rewrite nth_error_map in V. destruct (nth_error tracks k0) as [t|] eqn:T; [|discriminate]. injection V as <-. exists t. intros k. rewrite K. split.
    + intros (v & V & C1 & C2). unfold x in V. rewrite nth_error_map in V. destruct (nth_error tracks k) as [t'|] eqn:T'; [|discriminate]. injection V as <-. f_equal.
      assert (inject_Z (Z.of_nat t') < inject_Z (Z.of_nat t + 1))%Q as D1 by (rewrite inject_Z_plus; change (inject_Z 1) with 1%Q; lra). assert (inject_Z (Z.of_nat t) < inject_Z (Z.of_nat t' + 1))%Q as D2 by (rewrite inject_Z_plus; change (inject_Z 1) with 1%Q; lra). apply (proj1 (inject_Z_lt_iff _ _)) in D1. apply (proj1 (inject_Z_lt_iff _ _)) in D2. lia.
    + intros T'. exists (inject_Z (Z.of_nat t)). split; [unfold x; rewrite nth_error_map, T'; auto|auto].
Qed.

Lemma mark_tracks_spec : forall tracks time date nb_days gs mask, length time = length tracks -> length mask = length tracks ->
  (forall rows lo hi, In (rows, lo, hi) gs -> exists t, forall k, In k (rows_list rows) <-> nth_error tracks k = Some t) ->
  exists m, mark_tracks time date nb_days gs mask = Some m /\ length m = length tracks /\
    forall k, nth_error m k = Some true <-> nth_error mask k = Some true \/
      exists rows lo hi t, In (rows, lo, hi) gs /\ In k (rows_list rows) /\ nth_error tracks k = Some t /\ lives tracks time t date /\ lives tracks time t (date + nb_days)%Q.
Proof.
  intros tracks time date nb_days. induction gs as [|[[rows lo] hi] gs IH]; intros mask LT LM H.
  - exists mask. split; [reflexivity|]. split; [auto|]. intros k. split; [auto|]. intros [A|(? & ? & ? & ? & [] & _)]. auto.
  - cbn [mark_tracks]. destruct (H rows lo hi (or_introl eq_refl)) as (t & T). assert (BK : forall k, In k (rows_list rows) -> k < length tracks) by (intros k I; apply T in I; eapply nth_error_Some_lt; eauto).
    destruct (gather_total time (rows_list rows)) as [ts G]; [intros i I; rewrite LT; auto|]. rewrite G. cbn [bind]. pose proof (proj1 (gather_Some _ _ _) G) as [LG NG].
    assert (EX : forall d, existsb (Qeq_bool d) ts = true <-> lives tracks time t d).
    { intros d. rewrite existsb_exists. split.
      - intros (v & I & V). apply Qeq_bool_iff in V. apply In_nth_error in I as (k & K). destruct (nth_error_lt_Some (rows_list rows) k) as [i I]; [rewrite <- LG; eapply nth_error_Some_lt; eauto|]. destruct (NG k i I) as (a & A1 & A2). rewrite K in A2. injection A2 as <-. exists i, v. split; [apply T; eapply nth_error_In; eauto|]. split; [auto|]. symmetry. auto.
      - intros (a & v & A & B & C). apply T in A. apply In_nth_error in A as (k & K). destruct (NG k a K) as (v' & V1 & V2). rewrite B in V1. injection V1 as <-. exists v. split; [eapply nth_error_In; eauto|]. apply Qeq_bool_iff. symmetry. auto. }
    assert (H' : forall rows lo hi, In (rows, lo, hi) gs -> exists t, forall k, In k (rows_list rows) <-> nth_error tracks k = Some t) by (intros r l h I; apply (H r l h); right; auto).
    destruct (existsb (Qeq_bool date) ts && existsb (Qeq_bool (date + nb_days)) ts) eqn:E.
    + apply andb_prop in E as [E1 E2]. apply EX in E1, E2. destruct (stores_total (rows_list rows) mask (repeat true (length (rows_list rows)))) as [m1 M1]; [rewrite repeat_length; auto|intros i I; rewrite LM; auto|]. rewrite M1. cbn [bind]. destruct (stores_repeat _ _ _ _ M1) as (LM1 & TM & FM).
      destruct (IH m1 LT ltac:(lia) H') as (m & EM & L & N). exists m. split; [auto|]. split; [auto|]. intros k. rewrite N. split.
      * intros [A|(r & l & h & t' & I & R)]; [|right; exists r, l, h, t'; split; [right; auto|auto]]. destruct (in_dec Nat.eq_dec k (rows_list rows)) as [I|I]; [|rewrite FM in A by auto; auto]. right. exists rows, lo, hi, t. split; [left; auto|]. split; [auto|]. split; [apply T; auto|auto].
      * intros [A|(r & l & h & t' & [X|I] & R)].
        -- left. destruct (in_dec Nat.eq_dec k (rows_list rows)) as [I|I]; [auto|rewrite FM by auto; auto].
        -- injection X as <- <- <-. left. apply TM. apply R.
        -- right. exists r, l, h, t'. auto.
    + destruct (IH mask LT LM H') as (m & EM & L & N). exists m. split; [auto|]. split; [auto|]. intros k. rewrite N. split; (intros [A|(r & l & h & t' & I & R)]; [auto|]).
      * right. exists r, l, h, t'. split; [right; auto|auto].
      * destruct I as [X|I]; [|right; exists r, l, h, t'; auto]. injection X as <- <- <-. exfalso. destruct R as (R1 & R2 & R3 & R4). apply T in R1. rewrite R1 in R2. injection R2 as <-. apply EX in R3, R4. rewrite R3, R4 in E. discriminate.
Qed.
Lemma keep_tracks_spec : forall argsort unsigned tracks time date nb_days, tracks <> [] -> length time = length tracks -> (unsigned = false /\ sorts argsort) \/ nsorted tracks ->
  exists m, keep_tracks_by_date argsort unsigned tracks time date nb_days = Some m /\ length m = length tracks /\
    forall k, nth_error m k = Some true <-> exists t, nth_error tracks k = Some t /\ lives tracks time t date /\ lives tracks time t (date + nb_days)%Q.
Proof.
  intros argsort unsigned tracks time date nb_days NE LT H. destruct (track_groups argsort unsigned tracks NE H) as (gs & E & A & B). unfold keep_tracks_by_date. rewrite E.
  destruct (mark_tracks_spec tracks time date nb_days gs (repeat false (length tracks)) LT (repeat_length _ _) B) as (m & M & L & N). exists m. split; [auto|]. split; [auto|]. intros k. rewrite N. split.
  - intros [X|(rows & lo & hi & t & _ & _ & X)]; [|eauto]. rewrite nth_error_repeat_lt in X. destruct (k <? length tracks); discriminate.
  - intros (t & T & X). right. destruct (A k) as (rows & lo & hi & I & K); [eapply nth_error_Some_lt; eauto|]. exists rows, lo, hi, t. auto.
Qed.

(** ** particle_candidate_atlas *)
Lemma nth_zrange : forall a b k, nth_error (zrange a b) k = if (k <? Z.to_nat (b - a))%nat then Some (a + Z.of_nat k)%Z else None.
Proof. intros. unfold zrange. rewrite nth_error_map, nth_error_seq. destruct (k <? _); auto. Qed.
Lemma In_zrange : forall a b t, In t (zrange a b) <-> (a <= t < b)%Z.
Proof.
  intros a b t. unfold zrange. rewrite in_map_iff. split.
  - intros (k & <- & I). apply in_seq in I. lia.
  - intros H. exists (Z.to_nat (t - a)). split; [lia|]. apply in_seq. lia.
Qed.
Lemma NoDup_zrange : forall a b, NoDup (zrange a b).
Proof. intros. unfold zrange. apply FinFun.Injective_map_NoDup; [intros x y E; lia|apply seq_NoDup]. Qed.

Section Atlas.
Variables (ds : list Z) (ord : list nat) (step : Z -> list nat -> list nat -> option (list best2)) (dt t_start t_end : Z) (first last : list nat).
Hypothesis W : forall t, (t_start <= t <= t_end)%Z -> exists a b, pyget first (t - t_start) = Some a /\ pyget last (t - t_start) = Some b /\
  NoDup (slice ord a b) /\ forall p, In p (slice ord a b) <-> nth_error ds p = Some t.
Hypothesis ST : forall t i0 i1, i0 <> [] -> i1 <> [] -> exists local, step t i0 i1 = Some local /\ length local = length i0 /\ forall b, In b local -> targets_below (length i1) b.

Lemma atlas_loop_spec : forall times all, length all = length ds -> NoDup times ->
  (forall t, In t times -> (t_start <= t <= t_end)%Z /\ (t_start <= t + dt <= t_end)%Z) ->
  exists all', atlas_loop ord step t_start dt first last times all = Some all' /\ length all' = length ds /\
    forall p d, nth_error ds p = Some d ->
      (In d times -> (exists q, nth_error ds q = Some (d + dt)%Z) -> exists b, nth_error all' p = Some b /\ receives ds step dt d p b) /\
      (~ In d times \/ (forall q, nth_error ds q <> Some (d + dt)%Z) -> nth_error all' p = nth_error all p).
Proof.
  induction times as [|t times IH]; intros all LA ND R.
  - exists all. split; [reflexivity|]. split; [auto|]. intros p d D. split; [intros []|auto].
  - inversion ND as [|? ? NI ND']; subst. destruct (R t (or_introl eq_refl)) as [R1 R2]. destruct (W t R1) as (a0 & b0 & P1 & P2 & N0 & I0). destruct (W (t + dt)%Z R2) as (a1 & b1 & P3 & P4 & _ & I1).
    cbn [atlas_loop]. rewrite P1. cbn [bind]. rewrite P2. cbn [bind]. rewrite P3. cbn [bind]. rewrite P4. cbn [bind].
    assert (R' : forall t, In t times -> (t_start <= t <= t_end)%Z /\ (t_start <= t + dt <= t_end)%Z) by (intros x X; apply R; right; auto).
    assert (SKIP : slice ord a0 b0 = [] \/ slice ord a1 b1 = [] -> exists all', atlas_loop ord step t_start dt first last times all = Some all' /\ length all' = length ds /\
      forall p d, nth_error ds p = Some d -> (In d (t :: times) -> (exists q, nth_error ds q = Some (d + dt)%Z) -> exists b, nth_error all' p = Some b /\ receives ds step dt d p b) /\
      (~ In d (t :: times) \/ (forall q, nth_error ds q <> Some (d + dt)%Z) -> nth_error all' p = nth_error all p)).
    { intros EM. destruct (IH all LA ND' R') as (all' & E & L & H). exists all'. split; [auto|]. split; [auto|]. intros p d D. destruct (H p d D) as [H1 H2]. split.
      - intros [<-|I] Q; [|auto]. exfalso. destruct EM as [EM|EM]; [apply I0 in D; rewrite EM in D; destruct D|destruct Q as [q Q]; apply I1 in Q; rewrite EM in Q; destruct Q].
      - intros [N|N]; apply H2; [left; simpl in N; tauto|auto]. }
    destruct (slice ord a0 b0) as [|x0 l0] eqn:S0; [destruct (slice ord a1 b1); apply SKIP; auto|]. destruct (slice ord a1 b1) as [|x1 l1] eqn:S1; [apply SKIP; auto|]. clear SKIP. rewrite <- S0, <- S1 in *.
    destruct (ST t (slice ord a0 b0) (slice ord a1 b1)) as (local & E1 & LL & TB); [rewrite S0; discriminate|rewrite S1; discriminate|]. rewrite E1. cbn [bind].
    destruct (merge_result_spec all local (slice ord a0 b0) (slice ord a1 b1) LL N0) as (all1 & E2 & L1 & M1 & M2); auto. { intros p I. apply I0 in I. rewrite LA. eapply nth_error_Some_lt; eauto. }
    rewrite E2. cbn [bind]. destruct (IH all1 ltac:(lia) ND' R') as (all' & E & L & H). exists all'. split; [auto|]. split; [auto|]. intros p d D. destruct (H p d D) as [H1 H2]. split.
    + intros [<-|I] Q; [|auto]. pose proof (proj2 (I0 p) D) as IP. apply In_nth_error in IP as (k & K). destruct (nth_error_lt_Some local k) as [b B]; [rewrite LL; eapply nth_error_Some_lt; eauto|].
      exists (renamed (slice ord a1 b1) b). split; [rewrite H2 by auto; apply (M1 k p b K B)|]. exists (slice ord a0 b0), (slice ord a1 b1), local, k, b. auto 10.
    + intros N. destruct (Z.eq_dec d t) as [->|NE].
      * destruct N as [N|N]; [exfalso; apply N; left; auto|]. exfalso. assert (In x1 (slice ord a1 b1)) as X by (rewrite S1; left; auto). apply I1 in X. eapply N; eauto.
      * rewrite H2 by (destruct N as [N|N]; [left; simpl in N; tauto|auto]). apply M2. rewrite I0. congruence.
Qed.
End Atlas.

Lemma nodup_slice : forall {A} (l : list A) a b, NoDup l -> NoDup (slice l a b).
Proof.
  intros A l a b N. apply NoDup_nth_error. intros i j L E. rewrite !nth_slice in E. assert (LS : length (slice l a b) <= b - a) by (unfold slice; rewrite firstn_length; lia).
  destruct (Nat.ltb_spec i (b - a)); [|lia]. destruct (Nat.ltb_spec j (b - a)).
  - apply (proj1 (NoDup_nth_error l) N) in E; [lia|]. destruct (nth_error_lt_Some _ i L) as [x X]. rewrite nth_slice in X. destruct (Nat.ltb_spec i (b - a)); [|discriminate]. eapply nth_error_Some_lt; eauto.
  - exfalso. destruct (nth_error_lt_Some _ i L) as [x X]. rewrite nth_slice in X. destruct (Nat.ltb_spec i (b - a)); [|discriminate]. congruence.
Qed.

Lemma trunc_inject : forall z, trunc (inject_Z z) = z.
Proof. intros z. unfold trunc. cbn [inject_Z Qnum Qden]. apply Z.quot_1_r. Qed.

Lemma atlas_spec : forall ds ord xs step dt lo hi, ds <> [] -> Permutation (seq 0 (length ds)) ord -> gather (map inject_Z ds) ord = Some xs -> qsorted xs ->
  (forall t i0 i1, i0 <> [] -> i1 <> [] -> exists local, step t i0 i1 = Some local /\ length local = length i0 /\ forall b, In b local -> targets_below (length i1) b) ->
  In lo ds -> (forall d, In d ds -> (lo <= d)%Z) -> In hi ds -> (forall d, In d ds -> (d <= hi)%Z) ->
  exists all, particle_candidate_atlas ord step (map inject_Z ds) dt = Some all /\ length all = length ds /\
    forall p d, nth_error ds p = Some d ->
      let used := if (0 <? dt)%Z then (lo <= d < hi - dt)%Z else (lo - dt <= d < hi)%Z in
      (used -> (exists q, nth_error ds q = Some (d + dt)%Z) -> exists b, nth_error all p = Some b /\ receives ds step dt d p b) /\
      (~ used \/ (forall q, nth_error ds q <> Some (d + dt)%Z) -> nth_error all p = Some no_target).
Proof.
  intros ds ord xs step dt lo hi NE P G S ST LI LM HI HM. destruct ds as [|d0 ds0] eqn:DS; [congruence|]. unfold particle_candidate_atlas. cbn [map]. change (inject_Z d0 :: map inject_Z ds0) with (map inject_Z (d0 :: ds0)). rewrite <- DS in *. clear NE.
  assert (MIN : trunc (qmin_from (inject_Z d0) (map inject_Z ds0)) = lo).
  { destruct (qmin_from_spec (map inject_Z ds0) (inject_Z d0)) as [A B]. change (inject_Z d0 :: map inject_Z ds0) with (map inject_Z (d0 :: ds0)) in A, B. rewrite <- DS in A, B. apply in_map_iff in A as (m & E & I). rewrite <- E in B |- *. rewrite trunc_inject. specialize (LM m I). specialize (B (inject_Z lo) (in_map _ _ _ LI)). apply (proj1 (inject_Z_le_iff _ _)) in B. lia. }
  assert (MAX : trunc (qmax_from (inject_Z d0) (map inject_Z ds0)) = hi).
  { destruct (qmax_from_spec (map inject_Z ds0) (inject_Z d0)) as [A B]. change (inject_Z d0 :: map inject_Z ds0) with (map inject_Z (d0 :: ds0)) in A, B. rewrite <- DS in A, B. apply in_map_iff in A as (m & E & I). rewrite <- E in B |- *. rewrite trunc_inject. specialize (HM m I). specialize (B (inject_Z hi) (in_map _ _ _ HI)). apply (proj1 (inject_Z_le_iff _ _)) in B. lia. }
  rewrite MIN, MAX, G. cbn [bind]. destruct (window_index xs (map inject_Z (zrange lo (hi + 1))) (1 # 2)) as [[first last] oob] eqn:WI.
  assert (QS : qsorted (map inject_Z (zrange lo (hi + 1)))). { intros i j a b L A B. rewrite nth_error_map, nth_zrange in A, B. destruct (i <? _) in A; [|discriminate]. destruct (j <? _) in B; [|discriminate]. injection A as <-. injection B as <-. apply inject_Z_le_iff. lia. }
  destruct (window_index_spec (map inject_Z ds) ord xs (map inject_Z (zrange lo (hi + 1))) (1 # 2) first last oob) as (LF & LL & WS); auto. { rewrite map_length. auto. } { lra. }
  assert (LH : (lo <= hi)%Z) by auto.
  assert (LZ : length (map inject_Z (zrange lo (hi + 1))) = Z.to_nat (hi + 1 - lo)) by (rewrite map_length; unfold zrange; rewrite map_length, seq_length; auto).
  assert (ND : NoDup ord) by (eapply Permutation_NoDup; [eauto|apply seq_NoDup]).
  assert (W : forall t, (lo <= t <= hi)%Z -> exists a b, pyget first (t - lo) = Some a /\ pyget last (t - lo) = Some b /\ NoDup (slice ord a b) /\ forall p, In p (slice ord a b) <-> nth_error ds p = Some t).
  { intros t T. destruct (nth_error_lt_Some first (Z.to_nat (t - lo)) ltac:(lia)) as [a A]. destruct (nth_error_lt_Some last (Z.to_nat (t - lo)) ltac:(lia)) as [b B]. exists a, b.
    split; [rewrite (pyget_nat first (t - lo) (Z.to_nat (t - lo))) by lia; auto|]. split; [rewrite (pyget_nat last (t - lo) (Z.to_nat (t - lo))) by lia; auto|]. split; [apply nodup_slice; auto|].
    assert (C : nth_error (map inject_Z (zrange lo (hi + 1))) (Z.to_nat (t - lo)) = Some (inject_Z t)). { rewrite nth_error_map, nth_zrange. destruct (Nat.ltb_spec (Z.to_nat (t - lo)) (Z.to_nat (hi + 1 - lo))); [|lia]. cbn. do 2 f_equal. lia. }
    destruct (WS _ _ _ _ C A B) as [_ K]. intros p. destruct (nth_error ds p) as [d|] eqn:D.
    - specialize (K p (inject_Z d)). rewrite nth_error_map, D in K. rewrite (K eq_refl). split.
      + intros [K1 K2]. f_equal. assert (inject_Z (d - t) < 1)%Q as X1 by (unfold Z.sub; rewrite inject_Z_plus, inject_Z_opp; lra). assert (-1 < inject_Z (d - t))%Q as X2 by (unfold Z.sub; rewrite inject_Z_plus, inject_Z_opp; lra). change 1%Q with (inject_Z 1) in X1. change (-1)%Q with (inject_Z (-1)) in X2. apply (proj1 (inject_Z_lt_iff _ _)) in X1. apply (proj1 (inject_Z_lt_iff _ _)) in X2. lia.
      + intros E. injection E as ->. split; lra.
    - split; [|discriminate]. intros I. apply nth_error_None in D. assert (In p ord). { apply In_nth_error in I as (k & K'). eapply nth_error_In with (n := a + k). rewrite nth_slice in K'. destruct (k <? b - a); [exact K'|discriminate]. }
      apply (Permutation_in _ (Permutation_sym P)) in H. apply in_seq in H. lia. }
  destruct (atlas_loop_spec ds ord step dt lo hi first last W ST (if (0 <? dt)%Z then zrange lo (hi - dt) else zrange (lo - dt) hi) (repeat no_target (length (map inject_Z ds)))) as (all & E & L & H).
  { rewrite repeat_length, map_length. auto. } { destruct (0 <? dt)%Z; apply NoDup_zrange. } { intros t I. destruct (Z.ltb_spec 0 dt); apply In_zrange in I; lia. }
  exists all. split; [exact E|]. split; [auto|]. intros p d D. destruct (H p d D) as [H1 H2]. cbv zeta.
  assert (EQ : In d (if (0 <? dt)%Z then zrange lo (hi - dt) else zrange (lo - dt) hi) <-> (if (0 <? dt)%Z then (lo <= d < hi - dt)%Z else (lo - dt <= d < hi)%Z)) by (destruct (0 <? dt)%Z; apply In_zrange).
  rewrite <- EQ. split; [auto|]. intros N. rewrite (H2 N), nth_error_repeat_lt, map_length. apply nth_error_Some_lt in D. destruct (Nat.ltb_spec p (length ds)); [auto|lia].
Qed.
