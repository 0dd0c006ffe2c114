(** The rows inserted by insert_virtual. *)
From Coq Require Import List Arith ZArith QArith Qround Bool Lia Lqa.
From Verif Require Import Base Spec Qaux Corr_model Corr_spec Corr_merge Corr_more TrackObs_model TrackObs_proofs Split_model Split_net Obs_model NetEvt_model NetEvt_props Net_links Grp_model Grp_spec Grp_proofs.
Import ListNotations.
Local Close Scope Q_scope.
Local Open Scope nat_scope.

Lemma trunc_floor : forall q, (0 <= q)%Q -> trunc q = Qfloor q.
Proof. intros [a b] L. unfold trunc, Qfloor. cbn [Qnum Qden]. unfold Qle in L. cbn [Qnum Qden] in L. apply Z.quot_div_nonneg; lia. Qed.
Lemma trunc_bounds : forall q, (0 <= q)%Q -> (inject_Z (trunc q) <= q)%Q /\ (q < inject_Z (trunc q) + 1)%Q.
Proof. intros q L. rewrite trunc_floor by auto. apply Qfloor_bounds. Qed.

(** Steps missing after one row. *)
Lemma steps_of : forall diff dt, (0 < dt)%Q -> (dt < diff)%Q -> exists m, (trunc (diff / dt) - 1)%Z = Z.of_nat m /\
  (inject_Z (Z.of_nat m + 1) * dt <= diff)%Q /\ (diff < inject_Z (Z.of_nat m + 2) * dt)%Q.
Proof.
  intros diff dt D L. assert (Q1 : (1 < diff / dt)%Q) by (apply Qlt_shift_div_l; lra). destruct (trunc_bounds (diff / dt)) as [A B]; [lra|].
  assert (P : (1 <= trunc (diff / dt))%Z). { apply Z.lt_succ_r. apply inject_Z_lt_iff. unfold Z.succ. rewrite inject_Z_plus. lra. }
  exists (Z.to_nat (trunc (diff / dt) - 1)). split; [lia|]. rewrite Z2Nat.id by lia. replace (trunc (diff / dt) - 1 + 1)%Z with (trunc (diff / dt)) by lia. replace (trunc (diff / dt) - 1 + 2)%Z with (trunc (diff / dt) + 1)%Z by lia. rewrite inject_Z_plus. change (inject_Z 1) with 1%Q.
  assert (E : (diff == diff / dt * dt)%Q) by (field; lra). split.
  - rewrite E at 2. apply Qmult_le_compat_r; lra.
  - rewrite E at 1. apply Qmult_lt_r; lra.
Qed.

Lemma gap_cons : forall f dt t tr ts trs i m, gap f dt ts trs i m -> gap f dt (t :: ts) (tr :: trs) (S i) m.
Proof. intros f dt t tr ts trs i m [(a & b & g & X)|[E X]]; [left; exists a, b, g; exact X|right; split; [auto|exact X]]. Qed.

Lemma nbr_step_spec : forall flag dt times tracks t0 tr0, (0 < dt)%Q -> length times = length tracks ->
  exists g, nbr_step flag 0 dt t0 tr0 times tracks = Some (map Z.of_nat g) /\ length g = S (length times) /\ nth_error g (length times) = Some 0 /\
    forall i m, nth_error g i = Some m -> gap flag dt (t0 :: times) (tr0 :: tracks) i m.
Proof.
  induction times as [|t1 times IH]; intros [|tr1 tracks] t0 tr0 D L; simpl in L; try discriminate.
  - exists [0]. split; [reflexivity|]. split; [reflexivity|]. split; [reflexivity|]. intros [|i] m E; [|destruct i; discriminate]. injection E as <-. right. split; [auto|]. intros; discriminate.
  - injection L as L. destruct (IH tracks t1 tr1 D L) as (g & E & LG & Z & G). cbn [nbr_step]. rewrite E. cbn [bind].
    assert (C : forall m, gap flag dt (t0 :: t1 :: times) (tr0 :: tr1 :: tracks) 0 m -> length (m :: g) = S (S (length times)) /\ nth_error (m :: g) (S (length times)) = Some 0 /\
        (forall i k, nth_error (m :: g) i = Some k -> gap flag dt (t0 :: t1 :: times) (tr0 :: tr1 :: tracks) i k)).
    { intros m H. split; [simpl; lia|]. split; [exact Z|]. intros [|i] k I; [injection I as <-; auto|]. apply gap_cons. auto. }
    destruct (flag && (tr1 =? 0)) eqn:F1; [|destruct (Nat.eqb_spec tr1 tr0) as [TE|TN]; cbn [negb]; [destruct (Qlt_bool dt (t1 - t0)) eqn:F2|]].
    + exists (0 :: g). split; [reflexivity|]. apply C. right. split; [auto|]. intros a b h A B C1 C2 H. injection C1 as <-. injection C2 as ->. apply andb_prop in F1 as [-> F1]. apply Nat.eqb_eq in F1. exfalso. apply H; auto.
    + destruct (Qeq_bool dt 0) eqn:Q0; [apply Qeq_bool_iff in Q0; lra|]. apply Qlt_bool_iff in F2. destruct (steps_of _ _ D F2) as (m & EM & M1 & M2). exists (m :: g). split; [cbn [map]; rewrite EM; auto|]. apply C. left. exists t0, t1, tr0. subst tr1. split; [auto|]. split; [auto|]. split; [auto|]. split; [auto|]. split; [|auto].
      intros ->. cbn [andb] in F1. apply Nat.eqb_neq in F1. auto.
    + exists (0 :: g). split; [reflexivity|]. apply C. right. split; [auto|]. apply Qlt_bool_false in F2. intros a b h A B _ _ _. injection A as <-. injection B as <-. auto.
    + exists (0 :: g). split; [reflexivity|]. apply C. right. split; [auto|]. intros a b h _ _ C1 C2 _. injection C1 as <-. injection C2 as ->. congruence.
Qed.

Lemma virtual_mask_spec : forall flag times tracks dt, times <> [] -> length tracks = length times ->
  (forall d, differences times <> [] -> np_median (differences times) = d -> d = dt) -> (0 < dt)%Q ->
  exists g, virtual_mask flag times tracks = Some (layout g) /\ length g = length times /\ nth_error g (length times - 1) = Some 0 /\
    forall i m, nth_error g i = Some m -> gap flag dt times tracks i m.
Proof.
  intros flag times tracks dt NE L D P. unfold virtual_mask. destruct times as [|t0 times]; [congruence|]. destruct tracks as [|tr0 tracks]; [discriminate|]. injection L as L.
  set (st := match differences (t0 :: times) with [] => None | d => Some (np_median d) end).
  assert (E : exists g, nbr_step flag 0 (match st with Some d => d | None => 1%Q end) t0 tr0 times tracks = Some (map Z.of_nat g) /\ length g = S (length times) /\ nth_error g (length times) = Some 0 /\
    forall i m, nth_error g i = Some m -> gap flag dt (t0 :: times) (tr0 :: tracks) i m).
  { destruct times as [|t1 times].
    - destruct tracks; [|discriminate]. cbn [nbr_step]. exists [0]. split; [reflexivity|]. split; [reflexivity|]. split; [reflexivity|]. intros [|i] m E; [|destruct i; discriminate]. injection E as <-. right. split; [auto|]. intros; discriminate.
    - assert (ST : st = Some dt). { unfold st. cbn [differences]. f_equal. eapply D; [|reflexivity]. cbn [differences]. discriminate. } rewrite ST. apply nbr_step_spec; auto. }
  destruct E as (g & E & LG & Z & G). unfold get_missing_indices. rewrite E. cbn [bind].
  assert (EX : existsb (fun z => (z <? 0)%Z) (map Z.of_nat g) = false). { destruct (existsb _ (map Z.of_nat g)) eqn:X; auto. apply existsb_exists in X as (z & I & X). apply in_map_iff in I as (m & <- & _). apply Z.ltb_lt in X. lia. }
  rewrite EX. cbn [bind]. rewrite map_length, map_map. rewrite (map_ext _ (fun x => x)) by apply Nat2Z.id. rewrite map_id.
  assert (LI : length (repeat_by (seq 1 (length g)) g) = sum_list g) by (apply length_repeat_by; rewrite seq_length; auto).
  rewrite LI. rewrite (corrected_layout g 1 0) by lia. change (where_from (1 - 1 + 0) (layout g)) with (where_ (layout g)).
  exists g. split; [|split; [auto|split; [cbn [length]; rewrite Nat.sub_succ, Nat.sub_0_r; auto|auto]]].
  replace (length (t0 :: times) + sum_list g) with (length (layout g)) by (rewrite length_layout, LG; reflexivity).
  assert (W : sum_list g = length (where_ (layout g))). { rewrite <- LI. change (where_ (layout g)) with (where_from (1 - 1 + 0) (layout g)). rewrite <- (corrected_layout g 1 0) by lia. rewrite map_length, combine_length, seq_length. lia. }
  rewrite W. apply stores_where.
Qed.

Lemma fill_fields_spec : forall g cols, (forall c, In c cols -> length c = length g) -> (forall m, nth_error g (length g - 1) = Some m -> m = 0) ->
  fill_fields (layout g) cols = Some (map (fun c => concat (filled_blocks g c)) cols).
Proof.
  intros g cols L Z. unfold fill_fields. apply sequence_map. intros c I. rewrite spread_layout by auto. cbn [bind]. apply fill_layout; auto.
Qed.

Lemma insert_virtual_spec : forall flag d dt, vd_time d <> [] -> length (vd_track d) = length (vd_time d) ->
  (forall c, In c (vd_fields d) -> length c = length (vd_time d)) -> (forall c, In c (vd_other d) -> length c = length (vd_time d)) ->
  (forall x, differences (vd_time d) <> [] -> np_median (differences (vd_time d)) = x -> x = dt) -> (0 < dt)%Q ->
  exists d' g, insert_virtual flag d = Some d' /\ length g = length (vd_time d) /\
    (forall i m, nth_error g i = Some m -> gap flag dt (vd_time d) (vd_track d) i m) /\
    (forall i m, nth_error g i = Some m -> nth_error (vd_virtual d') (moved g i) = Some false /\ forall k, 1 <= k <= m -> nth_error (vd_virtual d') (moved g i + k) = Some true) /\
    length (vd_virtual d') = length (vd_time d) + sum_list g /\
    inserted g (vd_track d) (vd_track d') (fun _ _ x => x = 0) /\
    inserted g (vd_time d) (vd_time d') (spaced g (vd_time d)) /\
    (length (vd_fields d') = length (vd_fields d) /\ forall f c c', nth_error (vd_fields d) f = Some c -> nth_error (vd_fields d') f = Some c' -> inserted g c c' (spaced g c)) /\
    (length (vd_other d') = length (vd_other d) /\ forall f c c', nth_error (vd_other d) f = Some c -> nth_error (vd_other d') f = Some c' -> inserted g c c' (fun _ _ x => x = 0%Z)).
Proof.
  intros flag d dt NE LT LF LO D P. destruct (virtual_mask_spec flag (vd_time d) (vd_track d) dt NE LT D P) as (g & E & LG & Z & G).
  assert (Z' : forall m, nth_error g (length g - 1) = Some m -> m = 0) by (intros m M; rewrite LG in M; congruence).
  unfold insert_virtual. rewrite E. cbn [bind]. rewrite spread_layout by lia. cbn [bind]. rewrite fill_fields_spec; [|intros c [<-|[]]; auto|auto]. cbn [bind map]. rewrite fill_fields_spec; [|intros c I; rewrite LF; auto|auto]. cbn [bind].
  rewrite (sequence_map _ (fun c => concat (expand_blocks 0%Z g c))) by (intros c I; apply spread_layout; rewrite LO; auto). cbn [bind].
  eexists. exists g. split; [reflexivity|]. split; [auto|]. split; [auto|]. cbn [vd_virtual vd_track vd_time vd_fields vd_other].
  split; [apply layout_inserted|]. split; [rewrite length_layout; lia|]. split; [apply spread_inserted; lia|]. split; [apply filled_inserted; auto|]. split; (split; [rewrite map_length; auto|]).
  - intros f c c' C C'. rewrite nth_error_map, C in C'. injection C' as <-. apply filled_inserted; auto. rewrite LG. apply LF. eapply nth_error_In; eauto.
  - intros f c c' C C'. rewrite nth_error_map, C in C'. injection C' as <-. apply spread_inserted; auto. rewrite LG. apply LO. eapply nth_error_In; eauto.
Qed.

(** ** Links of a network *)
Lemma moved_S : forall g i m, nth_error g i = Some m -> moved g (S i) = moved g i + m + 1.
Proof.
  unfold moved, block. induction g as [|a g IH]; intros [|i] m E; simpl in E; try discriminate.
  - injection E as ->. simpl. lia.
  - specialize (IH i m E). cbn [firstn sum_list] in *. lia.
Qed.
Lemma insert_links_spec : forall flag time track next previous dt n, time <> [] -> length track = length time -> length next = n -> length previous = n -> length time = n ->
  (forall x, differences time <> [] -> np_median (differences time) = x -> x = dt) -> (0 < dt)%Q ->
  exists next' previous' g, insert_links flag time track next previous = Some (next', previous') /\ length g = n /\
    (forall i m, nth_error g i = Some m -> gap flag dt time track i m) /\
    (forall i, nth_error g i = Some 0 -> nth_error next' (moved g i) = nth_error next i /\ nth_error previous' (moved g (S i)) = nth_error previous (S i)) /\
    (forall i m, nth_error g i = Some m -> 0 < m -> forall k, k <= m -> nth_error next' (moved g i + k) = Some (Z.of_nat (moved g i + k + 1)) /\
        nth_error previous' (moved g i + k + 1) = Some (Z.of_nat (moved g i + k))) /\
    nth_error previous' 0 = nth_error previous 0.
Proof.
  intros flag time track next previous dt n NE LT LN LP LL D P. destruct (virtual_mask_spec flag time track dt NE LT D P) as (g & E & LG & Z & G).
  assert (N0 : 0 < n) by (destruct time; [congruence|simpl in LL; lia]).
  unfold insert_links. rewrite E. cbn [bind]. rewrite !spread_layout by lia. cbn [bind]. pose proof (spread_inserted 0%Z g next ltac:(lia)) as [S1 S2]. pose proof (spread_inserted 0%Z g previous ltac:(lia)) as [S3 S4].
  set (nx := concat (expand_blocks 0%Z g next)) in *. set (pv := concat (expand_blocks 0%Z g previous)) in *.
  assert (LM : length (layout g) = n + sum_list g) by (rewrite length_layout; lia).
  assert (M0 : moved g 0 = 0) by reflexivity.
  assert (LAST : moved g (n - 1) = n + sum_list g - 1).
  { rewrite LL in Z. pose proof (moved_S g (n - 1) 0 Z) as M. replace (S (n - 1)) with n in M by lia. unfold moved at 1 in M. unfold block in M. rewrite <- LL, <- LG in M. rewrite firstn_all in M. rewrite LL in *. rewrite LG in M. lia. }
  destruct (C77_fix_links (layout g) nx pv (n + sum_list g)) as (nx' & pv' & F & L1 & L2 & N1 & N2 & P1 & P2); auto; try lia.
  { intros X. destruct (nth_error_lt_Some g 0 ltac:(lia)) as [m M]. destruct (layout_inserted g 0 m M) as [Y _]. rewrite M0 in Y. congruence. }
  { intros X. rewrite LL in Z. destruct (layout_inserted g (n - 1) 0 Z) as [Y _]. rewrite LAST in Y. congruence. }
  exists nx', pv', g. split; [exact F|]. split; [lia|]. split; [auto|].
  assert (NB : forall i, i < n -> nth_error (layout g) (moved g i) = Some false). { intros i I. destruct (nth_error_lt_Some g i ltac:(lia)) as [m M]. apply (layout_inserted g i m M). }
  assert (EN : forall i, n <= i -> moved g i = i + sum_list g). { intros i I. unfold moved, block. rewrite firstn_all2 by lia. auto. }
  split; [|split].
  - intros i M. assert (I : i < n) by (apply nth_error_Some_lt in M; lia). destruct (nth_error_lt_Some next i ltac:(lia)) as [a A]. destruct (S2 i 0 a M A) as [S2' _]. pose proof (moved_S g i 0 M) as MS. split.
    + rewrite N2; [congruence|rewrite NB by auto; discriminate|]. replace (moved g i + 1) with (moved g (S i)) by lia. destruct (Nat.eq_dec (S i) n) as [X|X]; [|rewrite NB by lia; discriminate]. rewrite (EN (S i)) by lia. replace (S i + sum_list g) with (length (layout g)) by lia. rewrite (proj2 (nth_error_None _ _)) by lia. discriminate.
    + destruct (Nat.eq_dec (S i) n) as [X|X].
      * rewrite (EN (S i)) by lia. rewrite (proj2 (nth_error_None pv' _)) by lia. symmetry. apply nth_error_None. lia.
      * destruct (nth_error_lt_Some previous (S i) ltac:(lia)) as [b B]. destruct (nth_error_lt_Some g (S i) ltac:(lia)) as [m' M']. destruct (S4 (S i) m' b M' B) as [S4' _]. rewrite P2; [congruence|rewrite NB by lia; discriminate|]. right. rewrite MS. replace (moved g i + 0 + 1 - 1) with (moved g i) by lia. rewrite NB by lia. discriminate.
  - intros i m M MP k K. destruct (layout_inserted g i m M) as [Y1 Y2]. split.
    + rewrite N1; [f_equal; lia|]. destruct (Nat.eq_dec k 0) as [->|NK]; [right; replace (moved g i + 0 + 1) with (moved g i + 1) by lia; apply Y2; lia|left; apply Y2; lia].
    + rewrite P1; [f_equal; lia|]. destruct (Nat.eq_dec k m) as [->|NK]; [right; split; [lia|]; replace (moved g i + m + 1 - 1) with (moved g i + m) by lia; apply Y2; lia|left; replace (moved g i + k + 1) with (moved g i + (k + 1)) by lia; apply Y2; lia].
  - destruct (nth_error_lt_Some previous 0 ltac:(lia)) as [b B]. destruct (nth_error_lt_Some g 0 ltac:(lia)) as [m' M']. destruct (S4 0 m' b M' B) as [S4' _]. rewrite M0 in S4'. rewrite P2; [congruence| |auto]. specialize (NB 0 N0). rewrite M0 in NB. rewrite NB. discriminate.
Qed.
