(** Vocabulary of the properties on selections and iterations; nothing here is
    taken from the code. *)
From Coq Require Import List Arith ZArith QArith Permutation.
Import ListNotations.

(** Strictly increasing edges. *)
Definition increasing (l : list Q) : Prop :=
  forall i j a b, (i < j)%nat -> nth_error l i = Some a -> nth_error l j = Some b -> a < b.
(** Number of edges not greater than [v]. *)
Definition edges_below (l : list Q) (v : Q) : nat := length (filter (fun b => Qle_bool b v) l).
(** [f l] lists the indices of [l] by non decreasing value. *)
Definition sorts (f : list Z -> list nat) : Prop :=
  forall l, Permutation (f l) (seq 0 (length l)) /\
    forall p q i j a b, (p < q)%nat -> nth_error (f l) p = Some i -> nth_error (f l) q = Some j ->
      nth_error l i = Some a -> nth_error l j = Some b -> (a <= b)%Z.
(** Value [v] is inside the bins: between the first and the last edge. *)
Definition inside (bins : list Q) (v : Q) : Prop :=
  exists b0 bl, nth_error bins 0 = Some b0 /\ nth_error bins (length bins - 1) = Some bl /\ b0 <= v /\ v < bl.

(** The groups ([rows], [lower], [upper]) visit each value of [x] which is
    inside the bins exactly once, in the group of its bin, and no other; empty
    bins are skipped and bins come in increasing order. *)
Definition visits_bins (bins x : list Q) (groups : list (list nat * Q * Q)) : Prop :=
  NoDup (concat (map (fun g => fst (fst g)) groups)) /\
  (forall k, In k (concat (map (fun g => fst (fst g)) groups)) <-> exists v, nth_error x k = Some v /\ inside bins v) /\
  (forall rows lo hi, In (rows, lo, hi) groups ->
     rows <> [] /\ (exists j, nth_error bins j = Some lo /\ nth_error bins (S j) = Some hi) /\
     forall k, In k rows <-> exists v, nth_error x k = Some v /\ lo <= v /\ v < hi) /\
  increasing (map (fun g => snd (fst g)) groups).
