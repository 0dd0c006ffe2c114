(** Vocabulary of the properties on groups of observations; nothing here is
    taken from the code. *)
From Coq Require Import List Arith.
From Verif Require Import Base.
Import ListNotations.

(** Files hold [nb_obs] observations each; number of observation [k] of file
    [i] when the files are put end to end. *)
Definition position (nb_obs : list nat) (i k : nat) : nat := sum_list (firstn i nb_obs) + k.

(** The interactions given by a list of comparisons (file, file, indices in
    the first, indices in the second), as pairs of observation numbers. *)
Definition interactions (nb_obs : list nat) (results : list (nat * nat * list nat * list nat)) : list (nat * nat) :=
  flat_map (fun r => let '(i, j, ii, ij) := r in
    combine (map (position nb_obs i) ii) (map (position nb_obs j) ij)) results.

(** Comparisons of existing observations, index lists of the same length. *)
Definition valid_results (nb_obs : list nat) (results : list (nat * nat * list nat * list nat)) : Prop :=
  forall i j ii ij, In (i, j, ii, ij) results ->
    length ii = length ij /\
    (exists n, nth_error nb_obs i = Some n /\ forall k, In k ii -> k < n) /\
    (exists n, nth_error nb_obs j = Some n /\ forall k, In k ij -> k < n).

(** Rows sorted by second identifier, then by the first one. *)
Definition pairs_sorted (id1 id2 : list nat) : Prop :=
  forall i j a b a' b', i < j -> nth_error id1 i = Some a -> nth_error id2 i = Some b ->
    nth_error id1 j = Some a' -> nth_error id2 j = Some b' -> b < b' \/ (b = b' /\ a <= a').
