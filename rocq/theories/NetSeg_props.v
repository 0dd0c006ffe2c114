(** Properties C40 to C42: relatives, dissociation and dead ends. *)
From Coq Require Import List Arith ZArith Bool Lia Permutation.
From Verif Require Import Base Sort Generic_model Corr_model Corr_more Solver_proofs Obs_model Net_model Net_spec Net_sort Net_links Net_dfs Net_reach Net_props
  NetSeg_model NetSeg_spec NetSeg_proofs NetSeg_rel NetSeg_order NetSeg_tag NetSeg_dead.
Import ListNotations.

(** A network with a chain of four segments and a lonely one: 2 splits from 1,
    2 merges into 3, 4 splits from 3; 5 is alone. *)
Definition example_segs : list nrow :=
  [Row 1 1 0 1 (-1) [10]; Row 1 1 1 (-1) 0 [11];
   Row 1 2 1 3 0 [20]; Row 1 2 2 5 2 [21];
   Row 1 3 0 5 (-1) [30]; Row 1 3 3 6 4 [31]; Row 1 3 4 (-1) 5 [32];
   Row 1 4 4 (-1) 5 [40];
   Row 1 5 9 (-1) (-1) [50]]%Z.
Example example_segs_valid : example_segs <> [] /\ segment_sorted example_segs /\ links_ok example_segs.
Proof.
  split; [discriminate|]. split; [apply sorted_checked; vm_compute; reflexivity|apply links_checked; vm_compute; reflexivity].
Qed.

(** ** C40: relatives are the segments at bounded distance *)
Theorem C40_relatives : forall rows i_obs order, rows <> [] -> segment_sorted rows -> links_ok rows -> (forall i, In i i_obs -> i < length rows) ->
  (Z.of_nat order < 65535)%Z ->
  exists ix new, relatives rows i_obs order = Some new /\ incr ix /\ rows_moved ix rows new /\
    forall k, In k ix <-> exists i, In i i_obs /\ relative rows order i k.
Proof.
  intros rows i_obs order NE SS LK B OF. destruct (relatives_spec rows i_obs order NE SS LK B) as (m & E & L & N); [unfold far; lia|].
  destruct (extract_spec rows m LK L) as (new & X & M). exists (where_ m), new. unfold relatives. rewrite E. cbn [bind].
  split; [auto|]. split; [apply incr_where|]. split; [auto|]. intros k. rewrite In_where, N. split; [tauto|].
  intros (i & I & R). split; [eapply relative_lt; eauto|eauto].
Qed.
Print Assumptions C40_relatives.
Example C40_example : (example_segs <> [] /\ segment_sorted example_segs /\ links_ok example_segs) /\
  relatives_mask example_segs [1] 0 = Some [true; true; false; false; false; false; false; false; false] /\
  relatives_mask example_segs [1] 1 = Some [true; true; true; true; false; false; false; false; false] /\
  relatives_mask example_segs [1] 2 = Some [true; true; true; true; true; true; true; false; false] /\
  relatives_mask example_segs [1] 3 = Some [true; true; true; true; true; true; true; true; false].
Proof. split; [exact example_segs_valid|]. repeat split; vm_compute; reflexivity. Qed.
(** At order 65535, the initial value of the distances, all is selected. *)
Theorem C40_order_limit_refuted : exists rows m, rows <> [] /\ segment_sorted rows /\ links_ok rows /\
  relatives_mask rows [0] (N.to_nat 65535) = Some m /\ nth_error m 1 = Some true /\ forall e, ~ relative rows e 0 1.
Proof.
  set (rows := [Row 1 1 0 (-1) (-1) []; Row 1 2 0 (-1) (-1) []]%Z). exists rows, [true; true].
  split; [discriminate|]. split; [apply sorted_checked; vm_compute; reflexivity|]. split; [apply links_checked; vm_compute; reflexivity|].
  split; [vm_compute; reflexivity|]. split; [reflexivity|].
  assert (NEV : forall i j, ~ event rows i j).
  { assert (NL : forall k r, nth_error rows k = Some r -> nxt r = (-1)%Z /\ prv r = (-1)%Z).
    { intros [|[|k]] r H; [injection H as <-; auto|injection H as <-; auto|destruct k; discriminate]. }
    intros i j [(r & H & _ & E)|(r & H & _ & E)]; apply NL in H as [N1 N2]; lia. }
  assert (SAMES : forall e i j, relative rows e i j -> same_segment rows i j).
  { intros e i j R. destruct R as [e i j S|e i j l (x & y & _ & _ & [T|T]) _]; [auto|exfalso; eapply NEV; eauto|exfalso; eapply NEV; eauto]. }
  intros e R. apply SAMES in R as (p & q & P & Q & _ & E). injection P as <-. injection Q as <-. discriminate.
Qed.
Print Assumptions C40_order_limit_refuted.

(** The relative order of a segment is the least order at which it is a
    relative, -1 when there is none, in any order of iteration over sets. *)
Theorem C40_relative_order : forall enum rows i, (forall l x, In x (enum l) <-> In x l) -> segment_sorted rows -> links_ok rows -> i < length rows ->
  (forall a b, In a rows -> In b rows -> track a = track b) ->
  exists d, obs_relative_order enum rows i = Some d /\ length d = length rows /\
    forall k z, nth_error d k = Some z ->
      (z = (-1)%Z /\ forall e, ~ relative rows e i k) \/
      exists e, z = Z.of_nat e /\ relative rows e i k /\ forall f, relative rows f i k -> e <= f.
Proof. exact obs_relative_order_spec. Qed.
Print Assumptions C40_relative_order.
Example C40_relative_order_example : (forall a b, In a example_segs -> In b example_segs -> track a = track b) /\
  obs_relative_order (fun l => l) example_segs 4 = Some [2; 2; 1; 1; 0; 0; 0; 1; -1]%Z /\
  obs_relative_order (@rev nat) example_segs 4 = Some [2; 2; 1; 1; 0; 0; 0; 1; -1]%Z.
Proof.
  split; [|split; vm_compute; reflexivity]. assert (T : forall a, In a example_segs -> track a = 1).
  { intros a H. simpl in H. repeat (destruct H as [<-|H]; [reflexivity|]). destruct H. }
  intros a b A B. rewrite (T a A), (T b B). auto.
Qed.

(** ** C41: dissociation gives one network per connected component *)
Theorem C41_dissociate : forall enum rows r0, (forall l x, In x (enum l) <-> In x l) -> segment_sorted rows -> links_ok rows -> nth_error rows 0 = Some r0 ->
  exists ix t new, dissociate_network enum rows = Some (ix, t, new) /\ Permutation ix (seq 0 (length rows)) /\ length new = length rows /\
    (forall p q a b, p < q -> nth_error new p = Some a -> nth_error new q = Some b -> ordered [0; 1; 2] a b) /\
    (forall k i, nth_error ix k = Some i -> exists r r', nth_error rows i = Some r /\ nth_error new k = Some r' /\
       segment r' = segment r /\ time r' = time r /\ rest r' = rest r /\ link_moved ix (nxt r) (nxt r') /\ link_moved ix (prv r) (prv r')) /\
    (forall k l i j a b, nth_error ix k = Some i -> nth_error ix l = Some j -> nth_error new k = Some a -> nth_error new l = Some b ->
       (track a = track b <-> exists e, relative rows e i j)) /\
    exists nb, forall t, (exists a, In a new /\ track a = t) <-> (if track r0 =? 0 then t < nb else 1 <= t <= nb).
Proof. exact dissociate_spec. Qed.
Print Assumptions C41_dissociate.
Example C41_example : (segment_sorted example_segs /\ links_ok example_segs) /\
  option_map (fun x => map (fun r => (track r, segment r)) (snd x)) (dissociate_network (@rev nat) example_segs) =
    Some [(1, 1); (1, 1); (1, 2); (1, 2); (1, 3); (1, 3); (1, 3); (1, 4); (2, 5)].
Proof. split; [apply example_segs_valid|vm_compute; reflexivity]. Qed.

(** When events stay inside networks, segments stay what they were: two
    observations are in one segment after the dissociation when they were
    before. *)
Theorem C41_segments_kept : forall enum rows r0, (forall l x, In x (enum l) <-> In x l) -> segment_sorted rows -> links_ok rows -> nth_error rows 0 = Some r0 ->
  (forall i j a b, event rows i j -> nth_error rows i = Some a -> nth_error rows j = Some b -> track a = track b) ->
  exists ix t new, dissociate_network enum rows = Some (ix, t, new) /\
    forall k l i j, nth_error ix k = Some i -> nth_error ix l = Some j -> (same_segment new k l <-> same_segment rows i j).
Proof.
  intros enum rows r0 EN SS LK H0 EV. destruct (dissociate_spec enum rows r0 EN SS LK H0) as (ix & t & new & E & P & L & _ & MV & TR & _).
  exists ix, t, new. split; [auto|].
  assert (TK : forall e i j, relative rows e i j -> forall a b, nth_error rows i = Some a -> nth_error rows j = Some b -> track a = track b).
  { intros e i j R. induction R as [e i j (p & q & P1 & Q1 & E1 & _)|e i j l (x & y & (p & q & P1 & Q1 & E1 & _) & (p' & q' & P2 & Q2 & E2 & _) & T) R IH]; intros a b A B.
    - congruence.
    - rewrite A in P1. apply Some_inj in P1. subst p. rewrite <- (IH p' b P2 B). rewrite E1, E2.
      destruct T as [T|T]; [apply (EV x y q q' T Q1 Q2)|symmetry; apply (EV y x q' q T Q2 Q1)]. }
  intros k l i j Hk Hl. destruct (MV k i Hk) as (r & r' & R & R' & S1 & _). destruct (MV l j Hl) as (s & s' & Sx & S' & S2 & _). split.
  - intros (a & b & A & B & T & G). rewrite A in R'. rewrite B in S'. apply Some_inj in R', S'. subst a b.
    exists r, s. split; [auto|]. split; [auto|]. split; [|congruence].
    destruct (proj1 (TR k l i j r' s' Hk Hl A B) T) as [e RE]. eapply TK; eauto.
  - intros (a & b & A & B & T & G). rewrite A in R. rewrite B in Sx. apply Some_inj in R, Sx. subst a b.
    exists r', s'. split; [auto|]. split; [auto|]. split; [|congruence]. apply (TR k l i j r' s' Hk Hl R' S'). exists 0. apply relative_same. exists r, s. auto.
Qed.
Print Assumptions C41_segments_kept.
Example C41_segments_example : forall i j a b, event example_segs i j -> nth_error example_segs i = Some a -> nth_error example_segs j = Some b -> track a = track b.
Proof. intros i j a b _ A B. apply (proj1 C40_relative_order_example); eapply nth_error_In; eauto. Qed.

(** ** C42: removal of dead ends *)
Theorem C42_remove_dead_end : forall recursive nobs ndays mask rows, rows <> [] -> segment_sorted rows -> links_ok rows ->
  match mask with Some k => length k = length rows | None => True end ->
  exists new, remove_dead_end recursive nobs ndays mask rows = Some new /\ passes recursive nobs ndays mask rows new.
Proof. exact remove_dead_end_spec. Qed.
Print Assumptions C42_remove_dead_end.
(** With two rows and two days at least: segment 1 is long, segment 2 stands
    between 1 and 3, segment 4 is a dead end, segment 5 is protected. *)
Example C42_example : (example_segs <> [] /\ segment_sorted example_segs /\ links_ok example_segs) /\
  remove_dead_end 0 2 2 (Some [false; false; false; false; false; false; false; false; true]) example_segs = Some
  [Row 0 0 4 (-1) (-1) [40]; Row 1 1 0 2 (-1) [10]; Row 1 1 1 (-1) 1 [11]; Row 1 2 1 4 1 [20]; Row 1 2 2 6 3 [21];
   Row 1 3 0 6 (-1) [30]; Row 1 3 3 7 5 [31]; Row 1 3 4 (-1) 6 [32]; Row 1 5 9 (-1) (-1) [50]]%Z.
Proof. split; [exact example_segs_valid|vm_compute; reflexivity]. Qed.

(** In one pass no link of the result leads to a removed observation. *)
Theorem C42_no_link_to_removed : forall nobs ndays mask rows new, rows <> [] -> segment_sorted rows -> links_ok rows ->
  match mask with Some k => length k = length rows | None => True end ->
  remove_dead_end 0 nobs ndays mask rows = Some new ->
  exists ix, Permutation ix (seq 0 (length rows)) /\ forall k l i r, nth_error ix k = Some i -> dead_end rows nobs ndays mask i ->
    nth_error new l = Some r -> nxt r <> Z.of_nat k /\ prv r <> Z.of_nat k.
Proof.
  intros nobs ndays mask rows new NE SS LK LM E. destruct (remove_dead_end_spec 0 nobs ndays mask rows NE SS LK LM) as (new' & E' & PS).
  rewrite E in E'. apply Some_inj in E'. subst new'. cbn [passes] in PS. destruct PS as (removed & ix & mid & LR & RD & (P & LN & _ & TR) & ->).
  exists ix. split; [auto|]. intros k l i r Hk DE Hl.
  assert (IX : length ix = length rows) by (rewrite (Permutation_length P), seq_length; auto).
  assert (I : i < length rows) by (apply nth_error_In, (Permutation_in _ P), in_seq in Hk; lia).
  apply (RD i I) in DE.
  destruct (nth_error_lt_Some ix l) as [j Hj]; [apply nth_error_Some_lt in Hl; lia|].
  destruct (TR l j Hj) as (q & q' & Q & Q' & T1 & T2). rewrite Hl in Q'. apply Some_inj in Q'. subst q'.
  destruct (nth_error_lt_Some removed j) as [x X]; [apply nth_error_Some_lt in Q; lia|]. destruct x.
  - rewrite (T1 X). simpl. split; lia.
  - destruct (T2 X) as [_ T].
    assert (G : forall o z, (o = nxt q /\ z = nxt r) \/ (o = prv q /\ z = prv r) -> z <> Z.of_nat k).
    { intros o z H. destruct (T o z H) as [(l' & j' & L' & _ & RF & ->)|[-> _]]; [|lia].
      intros EQ. apply Nat2Z.inj in EQ. subst l'. rewrite Hk in L'. apply Some_inj in L'. subst j'. congruence. }
    split; eapply G; eauto.
Qed.
Print Assumptions C42_no_link_to_removed.
Example C42_no_link_example : exists new, remove_dead_end 0 2 2 None example_segs = Some new.
Proof. eexists. vm_compute. reflexivity. Qed.

(** With a second pass the mask no longer protects: the only segment is kept
    by one pass and removed by two. *)
Theorem C42_mask_lost_refuted : exists rows mask, rows <> [] /\ segment_sorted rows /\ links_ok rows /\
  remove_dead_end 0 2 2 (Some mask) rows = Some rows /\ (forall i, i < length rows -> protected rows (Some mask) i) /\
  exists new, remove_dead_end 1 2 2 (Some mask) rows = Some new /\ forall r, In r new -> track r = 0.
Proof.
  exists [Row 1 1 0 (-1) (-1) [7]]%Z, [true]. split; [discriminate|]. split; [apply sorted_checked; vm_compute; reflexivity|]. split; [apply links_checked; vm_compute; reflexivity|].
  split; [vm_compute; reflexivity|]. split.
  - intros [|i] H; simpl in H; [|lia]. exists 0. split; [|reflexivity]. exists (Row 1 1 0 (-1) (-1) [7])%Z, (Row 1 1 0 (-1) (-1) [7])%Z. repeat split.
  - eexists. split; [vm_compute; reflexivity|]. intros r [<-|[]]. reflexivity.
Qed.
Print Assumptions C42_mask_lost_refuted.
