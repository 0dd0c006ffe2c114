(** Small specification vocabulary shared by the property files.  Nothing here
    is taken from the code. *)
From Coq Require Import List Arith ZArith Bool QArith.
Import ListNotations.

(** [l] is non decreasing. *)
Definition zsorted (l : list Z) : Prop :=
  forall i j a b, (i < j)%nat -> nth_error l i = Some a -> nth_error l j = Some b -> (a <= b)%Z.
Definition qsorted (l : list Q) : Prop :=
  forall i j a b, (i < j)%nat -> nth_error l i = Some a -> nth_error l j = Some b -> a <= b.

(** Squared distance between two points. *)
Definition dist2 (a b : Q * Q) : Q :=
  ((fst a - fst b) * (fst a - fst b) + (snd a - snd b) * (snd a - snd b))%Q.

(** Matrices as lists of rows: [n] rows of [m] cells. *)
Definition rect {A} (n m : nat) (M : list (list A)) : Prop :=
  length M = n /\ forall row, In row M -> length row = m.
(** Cell [(i, j)] of a masked matrix is not masked and holds [c]. *)
Definition cell {A} (M : list (list (option A))) (i j : nat) (c : A) : Prop :=
  exists row, nth_error M i = Some row /\ nth_error row j = Some (Some c).
(** No two cells hold the same cost. *)
Definition distinct_costs (M : list (list (option Q))) : Prop :=
  forall i j i' j' c c', cell M i j c -> cell M i' j' c' -> c == c' -> i = i' /\ j = j'.
(** [(i, j)] is the cheapest cell of its row, the first one on ties. *)
Definition row_minimum (M : list (list (option Q))) (i j : nat) : Prop :=
  exists c, cell M i j c /\
    forall j' c', cell M i j' c' -> c <= c' /\ ((j' < j)%nat -> c < c').
(** [f] and [f'] are inverse reorderings of [0 .. n-1]. *)
Definition reordering (n : nat) (f f' : nat -> nat) : Prop :=
  forall i, (i < n)%nat -> (f i < n)%nat /\ (f' i < n)%nat /\ f' (f i) = i /\ f (f' i) = i.
