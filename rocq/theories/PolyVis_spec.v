(** Vocabulary of the simplification of contours. *)
From Coq Require Import List Arith ZArith QArith Qabs.
From Verif Require Import Base Poly_model Poly_spec.
Import ListNotations.
Local Close Scope Q_scope.
Local Open Scope nat_scope.

(** [y] comes just after [x] in the closed list [l]. *)
Definition follows (l : list nat) (x y : nat) : Prop :=
  exists i, nth_error l i = Some x /\ nth_error l ((i + 1) mod length l) = Some y.
(** Area of the triangle of three vertices of [poly]. *)
Definition corner (poly : list point) (x y z : nat) : Q :=
  let p := nth x poly (0, 0)%Q in let q := nth y poly (0, 0)%Q in let r := nth z poly (0, 0)%Q in (Qabs (orient p q r) / 2)%Q.
(** [v] has the smallest corner of the contour made of the vertices [l]. *)
Definition smallest (poly : list point) (l : list nat) (v : nat) : Prop :=
  forall x z x' w z', follows l x v -> follows l v z -> follows l x' w -> follows l w z' -> (corner poly x v z <= corner poly x' w z')%Q.
(** Removal, one after the other, of a vertex with the smallest corner. *)
Inductive shrinks (poly : list point) : list nat -> list nat -> Prop :=
| shrinks_done : forall l, shrinks poly l l
| shrinks_more : forall l1 v l2 l', smallest poly (l1 ++ v :: l2) v -> shrinks poly (l1 ++ l2) l' -> shrinks poly (l1 ++ v :: l2) l'.
