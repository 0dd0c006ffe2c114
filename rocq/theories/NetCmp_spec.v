(** Vocabulary of the properties on the comparison of atlases. *)
From Coq Require Import List Arith ZArith Permutation.
From Verif Require Import NetCmp_model.
Import ListNotations.

(** Lexicographic order on (time, longitude, latitude). *)
Definition pos_le (a b : pos) : Prop :=
  match a, b with (t0, x0, y0), (t1, x1, y1) => (t0 < t1 \/ t0 = t1 /\ (x0 < x1 \/ x0 = x1 /\ y0 <= y1))%Z end.
(** [f l] lists the indices of [l] by non decreasing position. *)
Definition sorts_pos (f : list pos -> list nat) : Prop :=
  forall l, Permutation (f l) (seq 0 (length l)) /\
    forall p q i j a b, p < q -> nth_error (f l) p = Some i -> nth_error (f l) q = Some j ->
      nth_error l i = Some a -> nth_error l j = Some b -> pos_le a b.
(** Two items hold the same positions, in any order, with the same number of
    times each. *)
Definition same_content (a b : list pos) : Prop := Permutation a b.
