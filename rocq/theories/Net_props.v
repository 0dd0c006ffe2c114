(** Properties C37 to C39: sort of a network, extraction, search of links. *)
From Coq Require Import List Arith ZArith Bool Lia Permutation.
From Verif Require Import Base Sort Generic_model Corr_model Corr_more Solver_proofs Obs_model Net_model Net_spec Net_sort Net_links Net_dfs Net_reach.
Import ListNotations.

(** Checks for the examples. *)
Definition sorted_check (rows : list nrow) : bool :=
  forallb (fun i => forallb (fun j => match nth_error rows i, nth_error rows j with
    | Some a, Some b => negb (i <? j) || (track a <? track b) || ((track a =? track b) && (segment a <=? segment b))
    | _, _ => true end) (seq 0 (length rows))) (seq 0 (length rows)).
Lemma sorted_checked : forall rows, sorted_check rows = true -> segment_sorted rows.
Proof.
  intros rows H i j a b L A B. unfold sorted_check in H. rewrite forallb_forall in H.
  pose proof (nth_error_Some_lt _ _ _ A). pose proof (nth_error_Some_lt _ _ _ B).
  assert (I : In i (seq 0 (length rows))) by (apply in_seq; lia). specialize (H i I). rewrite forallb_forall in H.
  assert (J : In j (seq 0 (length rows))) by (apply in_seq; lia). specialize (H j J). rewrite A, B in H.
  apply orb_true_iff in H as [H|H]; [apply orb_true_iff in H as [H|H]|].
  - apply negb_true_iff, Nat.ltb_ge in H. lia.
  - apply Nat.ltb_lt in H. auto.
  - apply andb_true_iff in H as [X Y]. apply Nat.eqb_eq in X. apply Nat.leb_le in Y. auto.
Qed.
Definition link_check (n : nat) (z : Z) : bool := (z =? -1)%Z || ((0 <=? z)%Z && (z <? Z.of_nat n)%Z).
Definition links_check (rows : list nrow) : bool := forallb (fun r => link_check (length rows) (nxt r) && link_check (length rows) (prv r)) rows.
Lemma links_checked : forall rows, links_check rows = true -> links_ok rows.
Proof.
  intros rows H r I. unfold links_check in H. rewrite forallb_forall in H. specialize (H r I). apply andb_true_iff in H as [X Y].
  assert (C : forall z, link_check (length rows) z = true -> link_ok (length rows) z).
  { intros z E. unfold link_check in E. apply orb_true_iff in E as [E|E]; [left; apply Z.eqb_eq; auto|right].
    apply andb_true_iff in E as [E1 E2]. apply Z.leb_le in E1. apply Z.ltb_lt in E2. auto. }
  auto.
Qed.

(** A network with three segments: segment 2 splits from segment 1 at row 0,
    segment 1 merges into segment 2 at row 6, and segment 3 is alone. *)
Definition example_net : list nrow :=
  [Row 1 1 0 1 (-1) [10]; Row 1 1 1 2 0 [11]; Row 1 1 2 3 1 [12]; Row 1 1 3 6 2 [13];
   Row 1 2 2 5 0 [20]; Row 1 2 3 6 4 [21]; Row 1 2 4 7 5 [22]; Row 1 2 5 (-1) 6 [23];
   Row 1 3 7 9 (-1) [30]; Row 1 3 8 (-1) 8 [31]]%Z.
Example example_net_valid : example_net <> [] /\ segment_sorted example_net /\ links_ok example_net.
Proof.
  split; [discriminate|]. split; [apply sorted_checked; vm_compute; reflexivity|apply links_checked; vm_compute; reflexivity].
Qed.

(** ** C37: sorting a network preserves its links *)
Theorem C37_sort : forall order rows, links_ok rows -> (forall f, In f order -> f < 3) ->
  exists ix t rows', sort order rows = Some (ix, t, rows') /\ Permutation ix (seq 0 (length rows)) /\ rows_moved ix rows rows' /\
    (forall p q a b, p < q -> nth_error rows' p = Some a -> nth_error rows' q = Some b -> ordered order a b) /\
    (forall z, link_ok (length rows) z -> exists z', pyget t z = Some z' /\ link_moved ix z z') /\
    links_ok rows'.
Proof.
  intros order rows LK B. destruct (sort_spec order rows LK B) as (ix & t & rows' & E & P & T & M & O).
  exists ix, t, rows'. split; [auto|]. split; [auto|]. split; [auto|]. split; [auto|].
  assert (ND : NoDup ix) by (apply (Permutation_NoDup (Permutation_sym P)), seq_NoDup).
  assert (IB : forall i, In i ix -> i < length rows) by (intros i H; apply (Permutation_in _ P) in H; apply in_seq in H; lia).
  split.
  - destruct (translate_spec (length rows) ix ND IB) as (t' & T' & S). rewrite T in T'. apply Some_inj in T'. subst t'. auto.
  - eapply moved_links_ok; eauto.
Qed.
Print Assumptions C37_sort.
(** Sorted by time only: rows of the two segments alternate and the links
    follow them. *)
Example C37_example : links_ok example_net /\ option_map snd (sort [2] example_net) = Some
  [Row 1 1 0 1 (-1) [10]; Row 1 1 1 2 0 [11]; Row 1 1 2 4 1 [12]; Row 1 2 2 5 0 [20]; Row 1 1 3 6 2 [13]; Row 1 2 3 6 3 [21];
   Row 1 2 4 7 5 [22]; Row 1 2 5 (-1) 6 [23]; Row 1 3 7 9 (-1) [30]; Row 1 3 8 (-1) 8 [31]]%Z.
Proof. split; [apply example_net_valid|vm_compute; reflexivity]. Qed.
(** Rows equal on the keys are put in the order of their other fields and do
    not keep their order. *)
Theorem C37_not_stable_refuted : exists rows, option_map (fun x => fst (fst x)) (sort [0] rows) = Some [1; 0] /\
  forall a b, In a rows -> In b rows -> track a = track b.
Proof.
  exists [Row 1 2 0 (-1) (-1) []; Row 1 1 0 (-1) (-1) []]%Z. split; [vm_compute; reflexivity|].
  intros a b [<-|[<-|[]]] [<-|[<-|[]]]; reflexivity.
Qed.
Print Assumptions C37_not_stable_refuted.

(** The conversion of the result of split_network into a network is a
    reordering of the same kind. *)
Lemma list_max_perm : forall ix n, Permutation ix (seq 0 n) -> ix <> [] -> list_max ix + 2 = n + 1.
Proof.
  intros ix n P NE. assert (N : 0 < n). { destruct n; [|lia]. apply Permutation_sym, Permutation_nil in P. congruence. }
  assert (A : list_max ix <= n - 1). { apply list_max_le, Forall_forall. intros x H. apply (Permutation_in _ P), in_seq in H. lia. }
  assert (B : n - 1 <= list_max ix).
  { assert (I : In (n - 1) ix) by (apply (Permutation_in _ (Permutation_sym P)), in_seq; lia).
    pose proof (proj1 (list_max_le ix (list_max ix)) (le_n _)) as F. rewrite Forall_forall in F. apply F; auto. }
  lia.
Qed.
Lemma gather_perm_total : forall {A} (l : list A) ix, Permutation ix (seq 0 (length l)) ->
  exists r, gather l ix = Some r /\ length r = length ix /\ forall k i, nth_error ix k = Some i -> exists a, nth_error l i = Some a /\ nth_error r k = Some a.
Proof.
  intros A l ix P. destruct (gather_total l ix) as [r G]; [intros i H; apply (Permutation_in _ P), in_seq in H; lia|].
  exists r. split; [auto|]. apply gather_Some. auto.
Qed.
Lemma nth_comb2 : forall {A B} (l : list A) (m : list B) k a b, nth_error l k = Some a -> nth_error m k = Some b -> nth_error (combine l m) k = Some (a, b).
Proof.
  induction l as [|x l IH]; intros [|y m] [|k] a b H1 H2; try discriminate; cbn [nth_error combine] in *.
  - apply Some_inj in H1, H2. subst. auto.
  - auto.
Qed.
Theorem C37_from_split_network : forall index_order data segs next previous,
  data <> [] -> Permutation index_order (seq 0 (length data)) -> length segs = length data -> length next = length data -> length previous = length data ->
  (forall z, In z next \/ In z previous -> link_ok (length data) z) ->
  exists rows, from_split_network index_order data segs next previous = Some rows /\ length rows = length data /\
    forall k i, nth_error index_order k = Some i -> exists r d s n p, nth_error rows k = Some r /\ nth_error data i = Some d /\ nth_error segs i = Some s /\
      nth_error next i = Some n /\ nth_error previous i = Some p /\ d = (track r, time r, rest r) /\ segment r = s /\
      link_moved index_order n (nxt r) /\ link_moved index_order p (prv r).
Proof.
  intros ix data segs next previous NE P LS LN LP LK.
  assert (LIX : length ix = length data) by (rewrite (Permutation_length P), seq_length; auto).
  assert (NI : ix <> []) by (destruct ix; [destruct data; [congruence|discriminate]|discriminate]).
  unfold from_split_network. destruct ix as [|i0 ix0] eqn:EIX; [congruence|]. rewrite <- EIX in *. clear EIX i0 ix0.
  destruct (gather_perm_total data ix) as (d & GD & LD & DN); [auto|]. rewrite GD. cbn [bind].
  destruct (gather_perm_total segs ix) as (s & GS & LS' & SN); [rewrite LS; auto|]. rewrite GS. cbn [bind].
  destruct (gather_perm_total next ix) as (n & GN & LN' & NN); [rewrite LN; auto|]. rewrite GN. cbn [bind].
  destruct (gather_perm_total previous ix) as (p & GP & LP' & PN); [rewrite LP; auto|]. rewrite GP. cbn [bind].
  assert (ND : NoDup ix) by (apply (Permutation_NoDup (Permutation_sym P)), seq_NoDup).
  assert (IB : forall i, In i ix -> i < length data) by (intros i H; apply (Permutation_in _ P) in H; apply in_seq in H; lia).
  destruct (translate_spec (length data) ix ND IB) as (t & T & TS). unfold translate_table in T.
  rewrite (list_max_perm ix (length data) P NI). rewrite T. cbn [bind].
  destruct (take_all t n (link_moved ix)) as (n' & TN & LTN & TNN).
  { intros z H. apply TS. apply LK. left. apply In_nth_error in H as [k Hk]. destruct (nth_error_lt_Some ix k) as [i Hi]; [apply nth_error_Some_lt in Hk; lia|].
    destruct (NN k i Hi) as (a & A1 & A2). rewrite Hk in A2. apply Some_inj in A2. subst. eapply nth_error_In; eauto. }
  destruct (take_all t p (link_moved ix)) as (p' & TP & LTP & TPN).
  { intros z H. apply TS. apply LK. right. apply In_nth_error in H as [k Hk]. destruct (nth_error_lt_Some ix k) as [i Hi]; [apply nth_error_Some_lt in Hk; lia|].
    destruct (PN k i Hi) as (a & A1 & A2). rewrite Hk in A2. apply Some_inj in A2. subst. eapply nth_error_In; eauto. }
  rewrite TN. cbn [bind]. rewrite TP. cbn [bind]. eexists. split; [reflexivity|]. split.
  { rewrite map_length, !combine_length. lia. }
  intros k i Hk. destruct (DN k i Hk) as ([[tr tm] rs] & D1 & D2). destruct (SN k i Hk) as (sg & S1 & S2).
  destruct (NN k i Hk) as (a & N1 & N2). destruct (PN k i Hk) as (b & P1 & P2).
  destruct (TNN k a N2) as (a' & A1 & A2). destruct (TPN k b P2) as (b' & B1 & B2).
  exists (Row tr sg tm a' b' rs), (tr, tm, rs), sg, a, b. split; [|auto 10].
  rewrite nth_error_map, (nth_comb2 _ _ k (tr, tm, rs, sg, a') b'); [reflexivity| |auto]. apply nth_comb2; auto. apply nth_comb2; auto.
Qed.
Print Assumptions C37_from_split_network.
Example C37_from_split_example :
  Permutation [1; 0; 2] (seq 0 3) /\
  from_split_network [1; 0; 2] [(1, 5%Z, [7%Z]); (1, 4%Z, [8%Z]); (1, 6%Z, [9%Z])] [1; 1; 2] [-1; 0; -1]%Z [1; -1; 0]%Z =
    Some [Row 1 1 4 1 (-1) [8]; Row 1 1 5 (-1) 0 [7]; Row 1 2 6 (-1) 1 [9]]%Z.
Proof. split; [apply perm_swap|vm_compute; reflexivity]. Qed.

(** ** C38: extraction never leaves a dangling link *)
Theorem C38_extract_with_mask : forall rows mask, links_ok rows -> length mask = length rows ->
  exists ix new, extract_with_mask rows mask = Some new /\ incr ix /\ (forall i, In i ix <-> nth_error mask i = Some true) /\
    rows_moved ix rows new /\ links_ok new.
Proof.
  intros rows mask LK L. destruct (extract_spec rows mask LK L) as (new & E & M). exists (where_ mask), new.
  split; [auto|]. split; [apply incr_where|]. split; [apply In_where|]. split; [auto|]. eapply moved_links_ok; eauto.
Qed.
Print Assumptions C38_extract_with_mask.
(** The rows 0 and 2 to 6 of the network: the links 0-1 and 1-2 are lost, 6-7 too. *)
Example C38_mask_example : links_ok example_net /\
  extract_with_mask example_net [true; false; true; true; true; true; true; false; false; false] =
  Some [Row 1 1 0 (-1) (-1) [10]; Row 1 1 2 2 (-1) [12]; Row 1 1 3 5 1 [13]; Row 1 2 2 4 0 [20]; Row 1 2 3 5 3 [21]; Row 1 2 4 (-1) 4 [22]]%Z.
Proof. split; [apply example_net_valid|vm_compute; reflexivity]. Qed.

Theorem C38_extract_with_slice : forall rows a b, links_ok rows -> a <= b -> b <= length rows ->
  exists new, extract_with_slice rows a b = Some new /\ rows_moved (seq a (b - a)) rows new /\ links_ok new.
Proof.
  intros rows a b LK AB BL. destruct (extract_slice_spec rows a b LK AB BL) as (new & E & M). exists new. split; [auto|]. split; [auto|]. eapply moved_links_ok; eauto.
Qed.
Print Assumptions C38_extract_with_slice.
Example C38_slice_example : links_ok example_net /\
  extract_with_slice example_net 3 7 = Some [Row 1 1 3 3 (-1) [13]; Row 1 2 2 2 (-1) [20]; Row 1 2 3 3 1 [21]; Row 1 2 4 (-1) 2 [22]]%Z.
Proof. split; [apply example_net_valid|vm_compute; reflexivity]. Qed.

(** ** C39: following water selects exactly the reachable observations *)
Theorem C39_find_link : forall forward rows i_obs, rows <> [] -> segment_sorted rows -> links_ok rows -> (forall i, In i i_obs -> i < length rows) ->
  exists ix new, find_link forward (negb forward) rows i_obs = Some new /\ incr ix /\ rows_moved ix rows new /\
    forall k, In k ix <-> exists i, In i i_obs /\ if forward then reach (flows rows) i k else reach (flows rows) k i.
Proof.
  intros fw rows i_obs NE SS LK B. destruct (link_mask_spec fw rows i_obs NE SS LK B) as (m & E & L & N).
  destruct (extract_spec rows m LK L) as (new & X & M). exists (where_ m), new. unfold find_link. rewrite E. cbn [bind].
  split; [auto|]. split; [apply incr_where|]. split; [auto|]. intros k. rewrite In_where. apply N.
Qed.
Print Assumptions C39_find_link.
(** From row 2 forward: the rest of segment 1, then segment 2 from the merging
    on; backward from row 5: segment 2 back to its start, then row 0. *)
Example C39_example : (example_net <> [] /\ segment_sorted example_net /\ links_ok example_net) /\
  link_mask true false example_net [2] = Some [false; false; true; true; false; false; true; true; false; false] /\
  link_mask false true example_net [5] = Some [true; false; false; false; true; true; false; false; false; false].
Proof. split; [exact example_net_valid|]. split; vm_compute; reflexivity. Qed.

(** Both directions from one observation, when time grows along the links. *)
Theorem C39_both_from_one : forall rows i, rows <> [] -> segment_sorted rows -> links_ok rows -> i < length rows ->
  (forall x y a b, flows rows x y -> nth_error rows x = Some a -> nth_error rows y = Some b -> (time a < time b)%Z) ->
  exists ix new, find_link true true rows [i] = Some new /\ incr ix /\ rows_moved ix rows new /\
    forall k, In k ix <-> reach (flows rows) i k \/ reach (flows rows) k i.
Proof.
  intros rows i NE SS LK B TI. destruct (link_mask_both rows i NE SS LK B TI) as (m & E & L & N).
  destruct (extract_spec rows m LK L) as (new & X & M). exists (where_ m), new. unfold find_link. rewrite E. cbn [bind].
  split; [auto|]. split; [apply incr_where|]. split; [auto|]. intros k. rewrite In_where. apply N.
Qed.
Print Assumptions C39_both_from_one.
Lemma flow_times : forall rows, forallb (fun i => match nth_error rows i with None => true | Some a =>
    (match nth_error rows (S i) with Some b => negb ((track a =? track b) && (segment a =? segment b)) || (time a <? time b)%Z | None => true end) &&
    (match (if (nxt a <? 0)%Z then None else nth_error rows (Z.to_nat (nxt a))) with Some b => (time a <? time b)%Z | None => true end) &&
    (match (if (prv a <? 0)%Z then None else nth_error rows (Z.to_nat (prv a))) with Some b => (time b <? time a)%Z | None => true end) end) (seq 0 (length rows)) = true ->
  forall x y a b, flows rows x y -> nth_error rows x = Some a -> nth_error rows y = Some b -> (time a < time b)%Z.
Proof.
  intros rows H x y a b F A B. rewrite forallb_forall in H.
  assert (HX := H x). assert (HY := H y). clear H. pose proof (nth_error_Some_lt _ _ _ A). pose proof (nth_error_Some_lt _ _ _ B).
  rewrite A in HX. rewrite B in HY. specialize (HX (proj2 (in_seq _ _ _) (conj (Nat.le_0_l _) H))). specialize (HY (proj2 (in_seq _ _ _) (conj (Nat.le_0_l _) H0))).
  apply andb_true_iff in HX as [HX _]. apply andb_true_iff in HX as [H1 H2]. apply andb_true_iff in HY as [_ H3].
  destruct F as [i (p & q & P & Q & E1 & E2)|i j r R _ E|i j r R _ E].
  - rewrite A in P. rewrite B in Q. apply Some_inj in P, Q. subst p q. rewrite B in H1. rewrite E1, E2, !Nat.eqb_refl in H1. simpl in H1. apply Z.ltb_lt; auto.
  - rewrite A in R. apply Some_inj in R. subst r. rewrite E in H2. destruct (Z.ltb_spec (Z.of_nat j) 0); [lia|]. rewrite Nat2Z.id, B in H2. apply Z.ltb_lt; auto.
  - rewrite B in R. apply Some_inj in R. subst r. rewrite E in H3. destruct (Z.ltb_spec (Z.of_nat i) 0); [lia|]. rewrite Nat2Z.id, A in H3. apply Z.ltb_lt; auto.
Qed.
Example C39_both_example :
  (forall x y a b, flows example_net x y -> nth_error example_net x = Some a -> nth_error example_net y = Some b -> (time a < time b)%Z) /\
  link_mask true true example_net [5] = Some [true; false; false; false; true; true; true; true; false; false].
Proof. split; [apply flow_times; vm_compute; reflexivity|vm_compute; reflexivity]. Qed.

(** From several observations at once the two searches share their marks and
    the backward one misses observations: row 1 leads to row 4. *)
Theorem C39_both_from_several_refuted : exists rows i_obs m k i, rows <> [] /\ segment_sorted rows /\ links_ok rows /\
  (forall x y a b, flows rows x y -> nth_error rows x = Some a -> nth_error rows y = Some b -> (time a < time b)%Z) /\
  In i i_obs /\ reach (flows rows) k i /\ link_mask true true rows i_obs = Some m /\ nth_error m k = Some false.
Proof.
  set (rows := [Row 1 1 0 2 (-1) []; Row 1 2 0 2 (-1) []; Row 1 2 1 3 1 []; Row 1 2 2 (-1) 2 []; Row 1 3 3 (-1) 3 []]%Z).
  exists rows, [0; 4], [true; false; true; true; true], 1, 4.
  split; [discriminate|]. split; [apply sorted_checked; vm_compute; reflexivity|]. split; [apply links_checked; vm_compute; reflexivity|].
  split; [apply flow_times; vm_compute; reflexivity|]. split; [simpl; auto|]. split; [|split; vm_compute; reflexivity].
  apply (reach_step _ 1 2 4). { apply flow_next. exists (Row 1 2 0 2 (-1) [])%Z, (Row 1 2 1 3 1 [])%Z. repeat split. }
  apply (reach_step _ 2 3 4). { apply flow_next. exists (Row 1 2 1 3 1 [])%Z, (Row 1 2 2 (-1) 2 [])%Z. repeat split. }
  apply (reach_step _ 3 4 4); [|constructor]. apply (flow_split _ 3 4 (Row 1 3 3 (-1) 3 [])%Z); [reflexivity| |reflexivity].
  intros k (a & b & A & B & E1 & E2). destruct (le_lt_dec 4 k) as [?|K]; [auto|]. exfalso. injection A as <-.
  destruct k as [|[|[|[|k]]]]; [| | | |lia]; injection B as <-; discriminate.
Qed.
Print Assumptions C39_both_from_several_refuted.
