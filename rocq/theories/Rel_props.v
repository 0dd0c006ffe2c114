(** C138: relatives of the segments of an event. *)
From Coq Require Import List Arith ZArith Bool Lia Permutation.
From Verif Require Import Base Generic_model Generic_proofs Corr_model Obs_model Net_model Net_spec Net_sort Net_links Net_props NetSeg_model NetSeg_spec NetSeg_proofs NetSeg_rel NetSeg_props NetTab_model NetTab_proofs Subset_props Rel_model.
From Verif Require TrackObs_spec.
Import ListNotations.
Local Open Scope nat_scope.

(** ** Specification *)
(** The links of a row lead to rows of its network. *)
Definition closed (rows : list nrow) : Prop :=
  forall i j r q, nth_error rows i = Some r -> nth_error rows j = Some q -> nxt r = Z.of_nat j \/ prv r = Z.of_nat j -> track r = track q.

(** ** Proofs *)
Lemma sorted_tracks : forall rows, segment_sorted rows -> TrackObs_spec.nsorted (map track rows).
Proof.
  intros rows H i j a b IJ A B. rewrite nth_error_map in A, B. destruct (nth_error rows i) as [x|] eqn:X; [|discriminate A]. destruct (nth_error rows j) as [y|] eqn:Y; [|discriminate B]. cbn in A, B. injection A as <-. injection B as <-.
  pose proof (H i j x y IJ X Y). lia.
Qed.
Lemma network_spec : forall rows r, segment_sorted rows -> links_ok rows -> In r rows ->
  exists a b nw, network rows (track r) = Some nw /\ a <= b /\ b <= length rows /\ rows_moved (seq a (b - a)) rows nw /\ forall k, a <= k < b <-> exists q, nth_error rows k = Some q /\ track q = track r.
Proof.
  intros rows r SS LK I. destruct (tables_spec (map track rows)) as ([[f l] ref] & E & lo & -> & LL & _ & _ & _ & RG & TB); [destruct rows; [destruct I|discriminate]|apply sorted_tracks; exact SS|].
  unfold network. rewrite map_map in E. rewrite E. cbn [bind]. pose proof (RG (track r) (in_map track rows r I)) as R. destruct (TB (track r - lo) ltac:(lia)) as (a & b & A & B & AB & BL & J). rewrite map_length in BL.
  rewrite !pyget_in by lia. replace (Z.to_nat (Z.of_nat (track r) - Z.of_nat lo)) with (track r - lo) by lia. rewrite A, B. cbn [bind].
  destruct (C38_extract_with_slice rows a b LK AB BL) as (nw & EN & M & _). exists a, b, nw. repeat (split; [assumption|]). intros k. rewrite J, nth_error_map. replace (lo + (track r - lo)) with (track r) by lia. split.
  - destruct (nth_error rows k) as [q|]; [|discriminate]. cbn. intros X. apply Some_inj in X. eauto.
  - intros (q & -> & X). cbn. congruence.
Qed.
Lemma seq_nth_error : forall a n i j, nth_error (seq a n) i = Some j <-> i < n /\ j = a + i.
Proof.
  intros a n i j. split.
  - intros H. pose proof (nth_error_Some_lt _ _ _ H) as L. rewrite seq_length in L. split; [exact L|]. apply (nth_error_nth _ _ 0) in H. rewrite seq_nth in H by exact L. lia.
  - intros [L ->]. rewrite (nth_error_nth' _ 0) by (rewrite seq_length; exact L). rewrite seq_nth by exact L. reflexivity.
Qed.

Section One.
Variables (rows nw : list nrow) (a b t : nat).
Hypothesis M : rows_moved (seq a (b - a)) rows nw.
Hypothesis T : forall k, a <= k < b <-> exists q, nth_error rows k = Some q /\ track q = t.
Hypothesis CL : closed rows.

Lemma nw_length : length nw = b - a.
Proof. destruct M as [L _]. rewrite seq_length in L. exact L. Qed.
Lemma row_of : forall i, i < b - a -> exists r r', nth_error rows (a + i) = Some r /\ nth_error nw i = Some r' /\ track r = t /\ track r' = t /\ segment r = segment r' /\
  (forall j, nxt r' = Z.of_nat j <-> j < b - a /\ nxt r = Z.of_nat (a + j)) /\ (forall j, prv r' = Z.of_nat j <-> j < b - a /\ prv r = Z.of_nat (a + j)).
Proof.
  intros i L. destruct M as [_ H]. destruct (H i (a + i)) as (r & r' & R & R' & (S1 & S2 & _) & N & P); [apply seq_nth_error; auto|]. destruct (proj1 (T (a + i)) ltac:(lia)) as (q & Q & TQ). rewrite R in Q. apply Some_inj in Q. subst q.
  exists r, r'. split; [exact R|]. split; [exact R'|]. split; [exact TQ|]. split; [congruence|]. split; [exact S2|].
  assert (X : forall old new, link_moved (seq a (b - a)) old new -> forall j, new = Z.of_nat j <-> j < b - a /\ old = Z.of_nat (a + j)).
  { clear. intros old new [(k & j0 & K & -> & ->)|[-> NO]] j.
    - apply seq_nth_error in K as [K ->]. split; [intros E; apply Nat2Z.inj in E; subst k; auto|intros [_ E]; lia].
    - split; [lia|]. intros [J E]. exfalso. apply (NO (a + j)); [apply in_seq; lia|exact E]. }
  split; apply X; assumption.
Qed.
Lemma same_of : forall i j, same_segment nw i j <-> i < b - a /\ j < b - a /\ same_segment rows (a + i) (a + j).
Proof.
  intros i j. split.
  - intros (x & y & X & Y & TX & SX). pose proof (nth_error_Some_lt _ _ _ X) as IL. pose proof (nth_error_Some_lt _ _ _ Y) as JL. rewrite nw_length in IL, JL. split; [exact IL|]. split; [exact JL|].
    destruct (row_of i IL) as (r & r' & R & R' & TR & _ & SR & _). destruct (row_of j JL) as (q & q' & Q & Q' & TQ & _ & SQ & _). rewrite X in R'. rewrite Y in Q'. apply Some_inj in R', Q'. subst r' q'. exists r, q. repeat (split; [assumption|]). split; congruence.
  - intros (IL & JL & x & y & X & Y & TX & SX). destruct (row_of i IL) as (r & r' & R & R' & TR & TR' & SR & _). destruct (row_of j JL) as (q & q' & Q & Q' & TQ & TQ' & SQ & _). rewrite X in R. rewrite Y in Q. apply Some_inj in R, Q. subst r q.
    exists r', q'. repeat (split; [assumption|]). split; congruence.
Qed.
Lemma inside_same : forall i k, i < b - a -> same_segment rows (a + i) k \/ same_segment rows k (a + i) -> exists j, k = a + j /\ j < b - a.
Proof.
  intros i k L H. destruct (row_of i L) as (r & _ & R & _ & TR & _). assert (X : a <= k < b).
  { apply T. destruct H as [(x & y & X & Y & TX & _)|(y & x & Y & X & TX & _)]; rewrite R in X; apply Some_inj in X; subst x; exists y; split; congruence. }
  exists (k - a). lia.
Qed.
Lemma first_of_ : forall i, i < b - a -> (first_row nw i <-> first_row rows (a + i)).
Proof.
  intros i L. split.
  - intros H k K. destruct (inside_same i k L (or_introl K)) as (j & -> & J). pose proof (H j (proj2 (same_of i j) (conj L (conj J K)))). lia.
  - intros H k K. apply same_of in K as (_ & J & K). pose proof (H (a + k) K). lia.
Qed.
Lemma last_of_ : forall i, i < b - a -> (last_row nw i <-> last_row rows (a + i)).
Proof.
  intros i L. split.
  - intros H k K. destruct (inside_same i k L (or_introl K)) as (j & -> & J). pose proof (H j (proj2 (same_of i j) (conj L (conj J K)))). lia.
  - intros H k K. apply same_of in K as (_ & J & K). pose proof (H (a + k) K). lia.
Qed.
Lemma event_of : forall i j, i < b - a -> j < b - a -> (event nw i j <-> event rows (a + i) (a + j)).
Proof.
  intros i j I J. destruct (row_of i I) as (r & r' & R & R' & _ & _ & _ & NX & _). destruct (row_of j J) as (q & q' & Q & Q' & _ & _ & _ & _ & PV). unfold event. split.
  - intros [(x & X & L & E)|(x & X & L & E)].
    + left. exists r. rewrite R' in X. apply Some_inj in X. subst x. split; [exact R|]. split; [apply last_of_; assumption|]. apply NX. exact E.
    + right. exists q. rewrite Q' in X. apply Some_inj in X. subst x. split; [exact Q|]. split; [apply first_of_; assumption|]. apply PV. exact E.
  - intros [(x & X & L & E)|(x & X & L & E)].
    + left. exists r'. rewrite R in X. apply Some_inj in X. subst x. split; [exact R'|]. split; [apply last_of_; assumption|]. apply NX. auto.
    + right. exists q'. rewrite Q in X. apply Some_inj in X. subst x. split; [exact Q'|]. split; [apply first_of_; assumption|]. apply PV. auto.
Qed.
Lemma nw_bounds : forall i j, same_segment nw i j -> i < b - a /\ j < b - a.
Proof. intros i j H. apply same_of in H. tauto. Qed.
(** Events of the rows stay in the network. *)
Lemma inside_event : forall LK : links_ok rows, forall i y q, i < b - a -> nth_error rows y = Some q -> event rows (a + i) y \/ event rows y (a + i) -> exists j, y = a + j /\ j < b - a.
Proof.
  intros LK i y q I Y H. destruct (row_of i I) as (r & _ & R & _ & TR & _). assert (X : a <= y < b).
  { apply T. exists q. split; [exact Y|]. destruct H as [[(x & X & _ & E)|(x & X & _ & E)]|[(x & X & _ & E)|(x & X & _ & E)]].
    - rewrite R in X. apply Some_inj in X. subst x. rewrite <- (CL _ _ _ _ R Y (or_introl E)). exact TR.
    - rewrite Y in X. apply Some_inj in X. subst x. rewrite (CL _ _ _ _ Y R (or_intror E)). exact TR.
    - rewrite Y in X. apply Some_inj in X. subst x. rewrite (CL _ _ _ _ Y R (or_introl E)). exact TR.
    - rewrite R in X. apply Some_inj in X. subst x. rewrite <- (CL _ _ _ _ R Y (or_intror E)). exact TR. }
  exists (y - a). lia.
Qed.
Lemma relative_of : forall LK : links_ok rows, forall e i l, i < b - a -> (relative rows e (a + i) l <-> exists j, l = a + j /\ relative nw e i j).
Proof.
  intros LK. assert (F : forall e i0 l, relative rows e i0 l -> forall i, i0 = a + i -> i < b - a -> exists j, l = a + j /\ relative nw e i j).
  { intros e i0 l H. induction H as [e i0 l S|e i0 m l TC H IH]; intros i -> I.
    - destruct (inside_same i l I (or_introl S)) as (j & -> & J). exists j. split; [reflexivity|]. apply relative_same. apply same_of. auto.
    - destruct TC as (x & y & SX & SY & EV). destruct (inside_same i x I (or_introl SX)) as (x' & -> & X'). pose proof SY as (qm & qy & QM & QY & _). destruct (inside_event LK x' y qy X' QY EV) as (y' & -> & Y').
      destruct (inside_same y' m Y' (or_intror SY)) as (m' & -> & M'). destruct (IH m' eq_refl M') as (j & -> & HJ). exists j. split; [reflexivity|].
      apply relative_step with m'; [|exact HJ]. exists x', y'. split; [apply same_of; auto|]. split; [apply same_of; auto|]. destruct EV as [EV|EV]; [left|right]; apply event_of; assumption. }
  assert (G : forall e i j, relative nw e i j -> relative rows e (a + i) (a + j)).
  { intros e i j H. induction H as [e i j S|e i m j TC H IH]; [apply relative_same; apply same_of in S; tauto|]. apply relative_step with (a + m); [|exact IH].
    destruct TC as (x & y & SX & SY & EV). pose proof (nw_bounds _ _ SX) as [_ X']. pose proof (nw_bounds _ _ SY) as [_ Y']. apply same_of in SX, SY. exists (a + x), (a + y). split; [tauto|]. split; [tauto|]. destruct EV as [EV|EV]; [left|right]; apply event_of; assumption. }
  intros e i l I. split; [intros H; exact (F e (a + i) l H i eq_refl I)|]. intros (j & -> & H). exact (G e i j H).
Qed.
Lemma nw_sorted : segment_sorted rows -> segment_sorted nw.
Proof.
  intros SS i j x y IJ X Y. pose proof (nth_error_Some_lt _ _ _ X) as IL. pose proof (nth_error_Some_lt _ _ _ Y) as JL. rewrite nw_length in IL, JL.
  destruct (row_of i IL) as (r & r' & R & R' & TR & TR' & SR & _). destruct (row_of j JL) as (q & q' & Q & Q' & TQ & TQ' & SQ & _). rewrite X in R'. rewrite Y in Q'. apply Some_inj in R', Q'. subst r' q'.
  pose proof (SS (a + i) (a + j) r q ltac:(lia) R Q) as [H|[_ H]]; [lia|]. right. split; [congruence|]. rewrite <- SR, <- SQ. exact H.
Qed.
Lemma first_where_of : forall r k, nth_error rows k = Some r -> track r = t -> exists i, first_where (segment r) nw = Some i /\ i < b - a /\ same_segment rows k (a + i).
Proof.
  intros r k K TR. assert (KI : a <= k < b) by (apply T; eauto). destruct (row_of (k - a) ltac:(lia)) as (r0 & r' & R & R' & _ & _ & SR & _). replace (a + (k - a)) with k in R by lia. rewrite K in R. apply Some_inj in R. subst r0.
  assert (X : forall l i x, nth_error l i = Some x -> segment x = segment r -> exists j y, first_where (segment r) l = Some j /\ nth_error l j = Some y /\ segment y = segment r).
  { clear. induction l as [|c l IH]; intros [|i] x X E; try discriminate X; cbn [first_where].
    - injection X as ->. rewrite E, Nat.eqb_refl. exists 0, x. auto.
    - destruct (Nat.eqb_spec (segment c) (segment r)) as [Ec|_]; [exists 0, c; auto|]. destruct (IH i x X E) as (j & y & -> & Y & EY). exists (S j), y. auto. }
  destruct (X nw (k - a) r' R' ltac:(congruence)) as (i & y & F & Y & SY). exists i. split; [exact F|]. pose proof (nth_error_Some_lt _ _ _ Y) as IL. rewrite nw_length in IL. split; [exact IL|].
  destruct (row_of i IL) as (q & q' & Q & Q' & TQ & _ & SQ & _). rewrite Y in Q'. apply Some_inj in Q'. subst q'. exists r, q. repeat (split; [assumption|]). split; congruence.
Qed.
End One.

Lemma same_trans_rel : forall rows e i j l, same_segment rows i j -> (relative rows e i l <-> relative rows e j l).
Proof.
  intros rows. assert (F : forall e i l, relative rows e i l -> forall j, same_segment rows i j -> relative rows e j l).
  { intros e i l H j (x & y & X & Y & TX & SX). destruct H as [e i l (x' & z & X' & Z & TZ & SZ)|e i m l (p & q & (x' & w & X' & W & TW & SW) & SQ & EV) H]; rewrite X in X'; apply Some_inj in X'; subst x'.
    - apply relative_same. exists y, z. repeat (split; [assumption|]). split; congruence.
    - apply relative_step with m; [|exact H]. exists p, q. split; [exists y, w; repeat (split; [assumption|]); split; congruence|auto]. }
  intros e i j l S. split; intros H; [exact (F e i l H j S)|]. apply (F e j l H i). destruct S as (x & y & X & Y & TX & SX). exists y, x. auto.
Qed.
Lemma seq_map_nth : forall a n ix, (forall k, In k ix -> k < n) -> map (fun k => nth k (seq a n) 0) ix = map (fun k => a + k) ix.
Proof. intros a n ix H. apply map_ext_in. intros k K. apply seq_nth. apply H. exact K. Qed.
Lemma incr_shift : forall a ix, incr ix -> incr (map (fun k => a + k) ix).
Proof.
  intros a ix H. induction H as [|x l F H IH]; [constructor|]. cbn [map]. constructor; [|exact IH]. intros y Y. apply in_map_iff in Y as (z & <- & Z). pose proof (F z Z). lia.
Qed.

(** The rows of the network at bounded distance of one of the two segments, with
    their links. *)
Theorem C138_relatives : forall rows obs stopped order r, segment_sorted rows -> links_ok rows -> closed rows -> nth_error rows obs = Some r ->
  (forall s, stopped = Some s -> exists q, nth_error rows s = Some q /\ track q = track r) -> (Z.of_nat order < 65535)%Z ->
  exists ix new, find_segments_relative rows obs stopped order = Some new /\ incr ix /\ rows_moved ix rows new /\
    forall k, In k ix <-> relative rows order obs k \/ exists s, stopped = Some s /\ relative rows order s k.
Proof.
  intros rows obs stopped order r SS LK CL O ST OF. destruct (network_spec rows r SS LK (nth_error_In _ _ O)) as (a & b & nw & EN & AB & BL & M & T).
  assert (LN : links_ok nw) by (eapply moved_links_ok; exact M). pose proof (nw_sorted rows nw a b (track r) M T SS) as SN. pose proof (nw_length rows nw a b M) as LE.
  destruct (first_where_of rows nw a b (track r) M T r obs O eq_refl) as (i & FI & IL & SI).
  assert (NE : nw <> []) by (intros ->; cbn in LE; lia).
  unfold find_segments_relative. rewrite O. cbn [bind]. rewrite EN. cbn [bind]. rewrite FI. cbn [bind].
  assert (X : forall obs_, (forall j, In j obs_ -> j < b - a) -> exists ix new, relatives nw obs_ order = Some new /\ incr ix /\ rows_moved ix rows new /\ forall k, In k ix <-> exists j, In j obs_ /\ relative rows order (a + j) k).
  { intros obs_ B. destruct (C40_relatives nw obs_ order NE SN LN) as (ix & new & E & IC & MV & IX); [intros j J; rewrite LE; apply B; exact J|exact OF|].
    assert (BX : forall k, In k ix -> k < b - a). { intros k K. apply In_nth_error in K as [p K]. destruct MV as [_ MV]. destruct (MV p k K) as (x & _ & X & _). apply nth_error_Some_lt in X. lia. }
    exists (map (fun k => a + k) ix), new. split; [exact E|]. split; [apply incr_shift; exact IC|]. split.
    - rewrite <- (seq_map_nth a (b - a) ix BX). apply (moved_twice _ _ rows nw new); [apply seq_NoDup|exact M|exact MV].
    - intros k. rewrite in_map_iff. split.
      + intros (k' & <- & K'). apply IX in K' as (j & J & RJ). exists j. split; [exact J|]. apply (relative_of rows nw a b (track r) M T CL LK); [apply B; exact J|]. eauto.
      + intros (j & J & RJ). apply (relative_of rows nw a b (track r) M T CL LK) in RJ as (k' & -> & RJ); [|apply B; exact J]. exists k'. split; [reflexivity|]. apply IX. eauto. }
  destruct stopped as [s|].
  - destruct (ST s eq_refl) as (q & Q & TQ). destruct (first_where_of rows nw a b (track r) M T q s Q TQ) as (j & FJ & JL & SJ). rewrite Q. cbn [bind]. rewrite FJ. cbn [bind].
    destruct (X [i; j]) as (ix & new & E & IC & MV & IX); [intros x [<-|[<-|[]]]; assumption|]. exists ix, new. split; [exact E|]. split; [exact IC|]. split; [exact MV|]. intros k. rewrite IX. split.
    + intros (x & [<-|[<-|[]]] & RX); [left; apply (same_trans_rel _ _ _ _ _ SI); exact RX|right; exists s; split; [reflexivity|]; apply (same_trans_rel _ _ _ _ _ SJ); exact RX].
    + intros [RX|(s' & ES & RX)]; [exists i; split; [left; reflexivity|]; apply (same_trans_rel _ _ _ _ _ SI); exact RX|]. apply Some_inj in ES. subst s'. exists j. split; [right; left; reflexivity|]. apply (same_trans_rel _ _ _ _ _ SJ). exact RX.
  - destruct (X [i]) as (ix & new & E & IC & MV & IX); [intros x [<-|[]]; assumption|]. exists ix, new. split; [exact E|]. split; [exact IC|]. split; [exact MV|]. intros k. rewrite IX. split.
    + intros (x & [<-|[]] & RX). left. apply (same_trans_rel _ _ _ _ _ SI). exact RX.
    + intros [RX|(s' & ES & _)]; [|discriminate ES]. exists i. split; [left; reflexivity|]. apply (same_trans_rel _ _ _ _ _ SI). exact RX.
Qed.
Print Assumptions C138_relatives.
(** A case: two networks, an event in the second one. *)
Definition ex_rows : list nrow :=
  [Row 1 1 0 1 (-1) []; Row 1 1 1 (-1) 0 []; Row 4 1 0 3 (-1) []; Row 4 1 1 (-1) 2 []; Row 4 2 2 5 3 []; Row 4 2 3 (-1) 4 []; Row 4 3 3 (-1) 5 []; Row 4 7 9 (-1) (-1) []]%Z.
Example C138_case : segment_sorted ex_rows /\ links_ok ex_rows /\ closed ex_rows /\
  option_map (map segment) (find_segments_relative ex_rows 4 (Some 3) 1) = Some [1; 1; 2; 2; 3] /\ option_map (map segment) (find_segments_relative ex_rows 3 None 1) = Some [1; 1; 2; 2].
Proof.
  split; [apply sorted_checked; vm_compute; reflexivity|]. split; [apply links_checked; vm_compute; reflexivity|]. split; [|split; vm_compute; reflexivity].
  intros i j r q R Q H. do 8 (destruct i as [|i]; [cbn in R; injection R as <-; cbn in H; do 8 (destruct j as [|j]; [cbn in Q; injection Q as <-; cbn in *; lia|]); destruct j; discriminate Q|]). destruct i; discriminate R.
Qed.
(** An observation stopped in another network: the segment of the same number in
    the network of the first observation is used instead. *)
Theorem C138_other_network_refuted : exists s q r new, nth_error ex_rows s = Some q /\ nth_error ex_rows 7 = Some r /\ track q <> track r /\
  find_segments_relative ex_rows 7 (Some s) 0 = Some new /\ (forall x, In x new -> track x = track r) /\ exists x, In x new /\ segment x = segment q /\ segment x <> segment r.
Proof.
  exists 0. do 3 eexists. split; [reflexivity|]. split; [reflexivity|]. split; [discriminate|]. split; [vm_compute; reflexivity|]. split; [intros x [<-|[<-|[<-|[]]]]; reflexivity|]. eexists. split; [left; reflexivity|]. split; [reflexivity|discriminate].
Qed.
Print Assumptions C138_other_network_refuted.
