(** Properties C01, C02, C11, C67, C68: association of the eddies of two dates. *)
From Coq Require Import List Arith Bool QArith Lia Lqa.
From Verif Require Import Base Qaux Spec Solver_model Solver_proofs.
Import ListNotations.
Local Close Scope Q_scope.
Local Open Scope nat_scope.

(** Link between the vocabulary of [Spec] and the one of the proofs. *)
Lemma cell_allowed : forall cost i j c, cell cost i j c <-> allowed cost i j c.
Proof.
  intros. unfold cell, allowed, get. split.
  - intros (r & A & B). now rewrite A.
  - destruct (nth_error cost i) as [r|]; [|discriminate]. eauto.
Qed.
Lemma rect_shaped : forall {A} n m (M : mat A), rect n m M <-> shaped n m M.
Proof. intros. unfold rect, shaped. now rewrite Forall_forall. Qed.
Lemma row_minimum_cheapest : forall cost i j, row_minimum cost i j <-> cheapest cost i j.
Proof.
  intros. unfold row_minimum, cheapest. split; intros (c & A & B); exists c;
    (split; [now apply cell_allowed|]; intros; apply B; now apply cell_allowed).
Qed.
Lemma distinct_costs_allowed : forall cost, distinct_costs cost ->
  forall i j i' j' c c', allowed cost i j c -> allowed cost i' j' c' -> (c == c')%Q -> i = i' /\ j = j'.
Proof. intros cost H i j i' j' c c' A B E. eapply H; eauto; now apply cell_allowed. Qed.

(** C01. For every cost matrix of [n] rows and [m] columns the tracker returns
    links; each row and each column is used at most once, each link is an
    unmasked cell, and every unmasked cell has one of its ends linked. *)
Theorem C01_association_one_to_one : forall n m (cost : list (list (option Q))),
  rect n m cost ->
  exists links, tracking m cost = Some links /\
    NoDup (map fst links) /\ NoDup (map snd links) /\
    (forall i j, In (i, j) links -> exists c, cell cost i j c) /\
    (forall i j c, cell cost i j c -> In i (map fst links) \/ In j (map snd links)).
Proof.
  intros n m cost SH. apply rect_shaped in SH.
  destruct (tracking_spec n m cost SH) as (links & E & N1 & N2 & _ & _ & (G1 & _ & _ & G4)).
  exists links. split; auto. split; auto. split; auto. split.
  - intros i j H. destruct (G1 i j H) as [c A]. exists c. now apply cell_allowed.
  - intros i j c A. apply cell_allowed in A.
    destruct (G4 i j c A) as [H|(i' & j' & c' & H & _ & [->| ->] & _)].
    + left. exact (in_map fst _ _ H).
    + left. exact (in_map fst _ _ H).
    + right. exact (in_map snd _ _ H).
Qed.
Print Assumptions C01_association_one_to_one.

(** A 3 x 4 matrix with conflicts on both sides and a tie. *)
Definition cost_example : list (list (option Q)) :=
  [[Some 1; Some 2; None; None]; [Some 1; None; None; None]; [None; Some (1 # 2); Some 3; None]]%Q.
Example C01_case : rect 3 4 cost_example /\ tracking 4 cost_example = Some [(0, 0); (2, 1)].
Proof.
  split; [|reflexivity]. split; [reflexivity|]. intros row [<-|[<-|[<-|[]]]]; reflexivity.
Qed.

(** C02. Every unmasked cell that is not returned shares a row or a column with
    a returned cell that does not cost more.  [tracking] returns [None] when
    the iteration cap of the solver is reached, so [Some] also says it is not. *)
Theorem C02_association_greedy : forall n m (cost : list (list (option Q))),
  rect n m cost ->
  exists links, tracking m cost = Some links /\
    forall i j c, cell cost i j c -> ~ In (i, j) links ->
    exists i' j' c', In (i', j') links /\ cell cost i' j' c' /\ (i' = i \/ j' = j) /\ (c' <= c)%Q.
Proof.
  intros n m cost SH. apply rect_shaped in SH.
  destruct (tracking_spec n m cost SH) as (links & E & _ & _ & _ & _ & (_ & _ & _ & G4)).
  exists links. split; auto. intros i j c A N. apply cell_allowed in A.
  destruct (G4 i j c A) as [H|(i' & j' & c' & H & X & Y & Z)]; [contradiction|].
  exists i', j', c'. repeat split; auto. now apply cell_allowed.
Qed.
Print Assumptions C02_association_greedy.

(** C67. When no two costs are equal, the links do not depend on the order in
    which the eddies of either date are given... *)
Theorem C67_order_independent : forall n m (cost1 cost2 : list (list (option Q))) (f f' g g' : nat -> nat),
  rect n m cost1 -> rect n m cost2 -> reordering n f f' -> reordering m g g' ->
  (forall i j, i < n -> j < m ->
     forall c, cell cost2 i j c <-> cell cost1 (f i) (g j) c) ->
  distinct_costs cost1 ->
  exists l1 l2, tracking m cost1 = Some l1 /\ tracking m cost2 = Some l2 /\
    forall i j, i < n -> j < m -> (In (i, j) l2 <-> In (f i, g j) l1).
Proof.
  intros n m cost1 cost2 f f' g g' S1 S2 Hf Hg HC DC.
  apply rect_shaped in S1. apply rect_shaped in S2.
  apply (tracking_reorder n m cost1 cost2 f f' g g'); auto; [|now apply distinct_costs_allowed].
  intros i j Hi Hj.
  destruct (shaped_get _ _ _ i j S2 Hi Hj) as [v2 E2].
  destruct (shaped_get _ _ _ (f i) (g j) S1) as [v1 E1]; [apply Hf; auto|apply Hg; auto|].
  rewrite E1, E2. f_equal. specialize (HC i j Hi Hj).
  destruct v2 as [c|].
  - assert (A : cell cost1 (f i) (g j) c) by (apply HC, cell_allowed, E2).
    apply cell_allowed in A. unfold allowed in A. congruence.
  - destruct v1 as [c|]; auto.
    assert (A : cell cost2 i j c) by (apply HC, cell_allowed, E1).
    apply cell_allowed in A. unfold allowed in A. congruence.
Qed.
Print Assumptions C67_order_independent.

(** ... nor on which of the two dates is taken first. *)
Theorem C67_symmetric : forall n m (cost1 cost2 : list (list (option Q))),
  rect n m cost1 -> rect m n cost2 ->
  (forall i j c, cell cost2 j i c <-> cell cost1 i j c) ->
  distinct_costs cost1 ->
  exists l1 l2, tracking m cost1 = Some l1 /\ tracking n cost2 = Some l2 /\
    forall i j, In (j, i) l2 <-> In (i, j) l1.
Proof.
  intros n m cost1 cost2 S1 S2 HC DC. apply rect_shaped in S1. apply rect_shaped in S2.
  apply tracking_transpose; auto; [|now apply distinct_costs_allowed].
  intros i j Hi Hj.
  destruct (shaped_get _ _ _ j i S2 Hj Hi) as [v2 E2].
  destruct (shaped_get _ _ _ i j S1 Hi Hj) as [v1 E1].
  rewrite E1, E2. f_equal.
  destruct v2 as [c|].
  - assert (A : cell cost1 i j c) by (apply HC, cell_allowed, E2).
    apply cell_allowed in A. unfold allowed in A. congruence.
  - destruct v1 as [c|]; auto.
    assert (A : cell cost2 j i c) by (apply HC, cell_allowed, E1).
    apply cell_allowed in A. unfold allowed in A. congruence.
Qed.
Print Assumptions C67_symmetric.

(** With equal costs the order matters: the statement needs distinct costs. *)
Theorem C67_ties_depend_on_order_refuted :
  tracking 1 [[Some 1%Q]; [Some 1%Q]] = Some [(0, 0)] /\
  tracking 2 [[Some 1%Q; Some 1%Q]] = Some [(0, 0)] /\
  tracking 2 [[Some 1; Some 1]; [Some 1; None]]%Q = Some [(0, 0)] /\
  tracking 2 [[Some 1; Some 1]; [None; Some 1]]%Q = Some [(0, 0); (1, 1)].
Proof. repeat split; reflexivity. Qed.
Print Assumptions C67_ties_depend_on_order_refuted.

Example C67_case :
  tracking 2 [[Some 1; Some 2]; [Some 3; Some 9]]%Q = Some [(0, 0); (1, 1)] /\
  tracking 2 [[Some 9; Some 3]; [Some 2; Some 1]]%Q = Some [(0, 0); (1, 1)].
Proof. split; reflexivity. Qed.

(** C11. Reference tracker.  A link is returned exactly when it is the cheapest
    of its origin and, among the origins having the same cheapest arrival, its
    origin has the greatest amplitude (the first one on ties). *)
Theorem C11_chelton_links : forall n m (amplitude : list Q) (cost : list (list (option Q))),
  rect n m cost -> length amplitude = n -> 0 < n -> 0 < m ->
  exists links, chelton_tracking amplitude m cost = Some links /\
    NoDup (map fst links) /\ NoDup (map snd links) /\
    forall i j, In (i, j) links <->
      row_minimum cost i j /\
      exists a, nth_error amplitude i = Some a /\
        forall i' a', row_minimum cost i' j -> nth_error amplitude i' = Some a' ->
          (a' <= a)%Q /\ (i' < i -> (a' < a)%Q).
Proof.
  intros n m amplitude cost SH L Pn Pm. apply rect_shaped in SH.
  destruct (chelton_tracking_spec n m amplitude cost SH L Pn Pm) as (links & E & N1 & N2 & _ & H).
  exists links. split; auto. split; auto. split; auto.
  intros i j. rewrite H, row_minimum_cheapest.
  split; intros (A & a & B & D); (split; auto); exists a; (split; auto);
    intros i' a' Ci' Ha'; apply D; auto; now apply row_minimum_cheapest.
Qed.
Print Assumptions C11_chelton_links.

Example C11_case :
  chelton_tracking [3; 7; 7; 1]%Q 3
    [[Some 1; Some 2; None]; [Some 5; None; None]; [Some 1; None; Some 4]; [None; Some 2; Some 2]]%Q
  = Some [(1, 0); (3, 1)].
Proof. reflexivity. Qed.

(** C68. Overlap tracker: [cand] lists the candidate pairs with their overlap. *)
Theorem C68_overlap_links : forall cmin n m (cand : list (nat * nat * Q)),
  NoDup (map fst cand) -> (forall i j c, In (i, j, c) cand -> i < n /\ j < m) ->
  exists links, area_tracking cmin n m cand = Some links /\
    NoDup (map fst links) /\ NoDup (map snd links) /\
    (forall i j, In (i, j) links -> exists c, In (i, j, c) cand /\ (cmin < c)%Q) /\
    (forall i j c, In (i, j, c) cand -> (cmin < c)%Q ->
       In (i, j) links \/
       exists i' j' c', In (i', j') links /\ In (i', j', c') cand /\ (i' = i \/ j' = j) /\ (c <= c')%Q).
Proof. exact area_tracking_spec. Qed.
Print Assumptions C68_overlap_links.

Example C68_case :
  area_tracking (1 # 5) 2 3 [(0, 0, (1 # 2)%Q); (0, 1, (3 # 4)%Q); (1, 1, (9 # 10)%Q); (1, 2, (1 # 10)%Q)]
  = Some [(0, 0); (1, 1)].
Proof. reflexivity. Qed.
