(** C65: families of eddies of two datasets. *)
From Coq Require Import List Arith ZArith QArith Bool Lia Lqa.
From Verif Require Import Base Qaux Atl_model Atl_spec Atl_proofs Atl_more.
Import ListNotations.
Local Close Scope Q_scope.
Local Open Scope nat_scope.

(** Every family of both datasets, for links between existing eddies. *)
Theorem C65_families : forall n1 n2 links invalid low high,
  (forall a b s, In (a, b, s) links -> a < n1 /\ b < n2) ->
  exists g1 g2, get_group n1 n2 links invalid low high = Some (g1, g2) /\
    families links invalid n1 low high g1 /\ families (map swap links) invalid n2 low high g2.
Proof. exact groups_spec. Qed.
Print Assumptions C65_families.

(** The seven families split each dataset, the one of multiple matches being the union of the last three. *)
Theorem C65_partition : forall n1 n2 links invalid low high,
  (forall a b s, In (a, b, s) links -> a < n1 /\ b < n2) -> (low <= high)%Q ->
  exists g1 g2, get_group n1 n2 links invalid low high = Some (g1, g2) /\
    (forall a, a < n1 -> in_one g1 a) /\ (forall b, b < n2 -> in_one g2 b) /\
    (forall g, In g [g1; g2] -> forall x, In x (multi_match g) <-> In x (parent g) \/ In x (twin g) \/ In x (complex g)).
Proof.
  intros n1 n2 links invalid low high B L. destruct (groups_spec n1 n2 links invalid low high B) as (g1 & g2 & E & F1 & F2). exists g1, g2. split; [exact E|]. split; [|split].
  - exact (partition _ _ _ _ _ _ L F1).
  - exact (partition _ _ _ _ _ _ L F2).
  - intros g [<-|[<-|[]]]; [exact (multi_cases _ _ _ _ _ _ F1)|exact (multi_cases _ _ _ _ _ _ F2)].
Qed.
Print Assumptions C65_partition.

(** The families of single matches of both datasets are aligned: row by row, the ends of a link which is the only one of both. *)
Theorem C65_pairs : forall n1 n2 links invalid low high g1 g2, get_group n1 n2 links invalid low high = Some (g1, g2) ->
  forall f, In f [g_low; g_intermediate; g_high] ->
  length (f g1) = length (f g2) /\
  forall i a b, nth_error (f g1) i = Some a -> nth_error (f g2) i = Some b -> exists s, alone links invalid a b s.
Proof. exact pairs. Qed.
Print Assumptions C65_pairs.

(** Exchanging the datasets exchanges the families. *)
Theorem C65_symmetric : forall n1 n2 links invalid low high g1 g2,
  get_group n1 n2 links invalid low high = Some (g1, g2) -> get_group n2 n1 (map swap links) invalid low high = Some (g2, g1).
Proof. exact get_group_swap. Qed.
Print Assumptions C65_symmetric.

(** Eleven links between eight and ten eddies: single matches of each kind, a link too weak, a parent of each side and a complex case. *)
Definition lk : list link := [(0, 0, (1#20)%Q); (1, 2, (3#10)%Q); (2, 1, (9#10)%Q); (3, 3, (1#100)%Q); (4, 4, (1#2)%Q); (4, 5, (1#3)%Q); (5, 6, (1#2)%Q); (6, 6, (1#4)%Q); (7, 7, (1#2)%Q); (7, 8, (1#2)%Q); (8, 8, (1#2)%Q)].
Example C65_ex : get_group 10 10 lk 2 10 60 = Some (
  {| nomatch := [3; 9]; g_low := [0]; g_intermediate := [1]; g_high := [2]; multi_match := [4; 5; 6; 7; 8]; parent := [4]; twin := [5; 6]; complex := [7; 8] |},
  {| nomatch := [3; 9]; g_low := [0]; g_intermediate := [2]; g_high := [1]; multi_match := [4; 5; 6; 7; 8]; parent := [6]; twin := [4; 5]; complex := [7; 8] |}).
Proof. vm_compute. reflexivity. Qed.
Example C65_ex_hyp : (forall a b s, In (a, b, s) lk -> a < 10 /\ b < 10) /\ (10 <= 60)%Q.
Proof. split; [|discriminate]. intros a b s I. unfold lk in I. repeat (destruct I as [E|I]; [injection E as <- <- <-; lia|]). destruct I. Qed.
Example C65_ex_pair : In g_high [g_low; g_intermediate; g_high] /\ exists g1 g2, get_group 10 10 lk 2 10 60 = Some (g1, g2) /\ nth_error (g_high g1) 0 = Some 2 /\ nth_error (g_high g2) 0 = Some 1.
Proof. split; [right; right; left; reflexivity|]. eexists. eexists. split; [exact C65_ex|]. split; reflexivity. Qed.

(** With [low] above [high], which is not checked, an eddy is in two families. *)
Theorem C65_thresholds_refuted : exists n1 n2 links invalid low high g1 g2,
  (forall a b s, In (a, b, s) links -> a < n1 /\ b < n2) /\ get_group n1 n2 links invalid low high = Some (g1, g2) /\
  In 0 (g_low g1) /\ In 0 (g_high g1).
Proof.
  exists 1, 1, [(0, 0, (1#2)%Q)], 2%Q, 60%Q, 10%Q. eexists. eexists. split; [intros a b s [E|[]]; injection E as <- <- <-; lia|]. split; [vm_compute; reflexivity|]. split; left; reflexivity.
Qed.
Print Assumptions C65_thresholds_refuted.
