(** What is expected of the contours kept and of the search of the nearest one.  A contour
    is a list of vertices. *)
From Coq Require Import List Arith ZArith QArith Qabs Bool.
From Verif Require Import Qaux.
Import ListNotations.
Local Close Scope Q_scope.
Local Open Scope nat_scope.

(** The squared distance between the ends of a contour. *)
Definition ends (p : list (Q * Q)) (d2 : Q) : Prop :=
  exists a z, nth_error p 0 = Some a /\ nth_error p (length p - 1) = Some z /\ (d2 == (fst a - fst z) * (fst a - fst z) + (snd a - snd z) * (snd a - snd z))%Q.
(** [q] is [p] with, when its ends are less than a hundredth of degree away, its last
    vertex put on the first. *)
Definition tidied (p q : list (Q * Q)) : Prop :=
  length q = length p /\ (forall j, j < length p - 1 -> nth_error q j = nth_error p j) /\
  exists d2, ends p d2 /\ nth_error q (length p - 1) = nth_error p (if Qle_bool d2 ((1 # 100) * (1 # 100)) then (if Qeq_bool d2 0 then length p - 1 else 0) else length p - 1).
(** All the vertices on the same meridian, or on the same parallel, but for 1e-8 degree. *)
Definition flat (q : list (Q * Q)) : Prop :=
  (forall v w, In v q -> In w q -> (Qabs (fst v - fst w) < 1 # 100000000)%Q) \/ (forall v w, In v q -> In w q -> (Qabs (snd v - snd w) < 1 # 100000000)%Q).
(** The contour is refused, or kept as [q]. *)
Definition refused (keep_unclose : bool) (p : list (Q * Q)) : Prop :=
  length p < 4 \/ (keep_unclose = false /\ exists d2, ends p d2 /\ ((1 # 100) * (1 # 100) < d2)%Q) \/ (exists q, tidied p q /\ flat q).
Inductive keeps (keep_unclose : bool) : list (list (Q * Q)) -> list (list (Q * Q)) -> Prop :=
| keeps_nil : keeps keep_unclose [] []
| keeps_drop : forall p ps qs, refused keep_unclose p -> keeps keep_unclose ps qs -> keeps keep_unclose (p :: ps) qs
| keeps_cons : forall p q ps qs, ~ refused keep_unclose p -> tidied p q -> keeps keep_unclose ps qs -> keeps keep_unclose (p :: ps) (q :: qs).

(** The point is in the box around the contour, at some turn. *)
Definition box_holds (x y : Q) (p : list (Q * Q)) : Prop :=
  exists x' a b c d, Qcong 360 x' x /\ In a p /\ In b p /\ In c p /\ In d p /\ (fst a <= x' <= fst b)%Q /\ (snd c <= y <= snd d)%Q.
(** The squared distance to a vertex, the shorter way round. *)
Definition gap2 (x y : Q) (v : Q * Q) (d2 : Q) : Prop :=
  exists e, Qcong 360 e (fst v - x) /\ (-(180) <= e <= 180)%Q /\ (d2 == e * e + (snd v - y) * (snd v - y))%Q.
(** [d2] is the smallest distance from the point to the contours of [ps] whose box holds it; no contour
    before number [i] is as near. *)
Definition nearest_of (x y : Q) (ps : list (list (Q * Q))) (i : nat) (d2 : Q) : Prop :=
  (exists p v, nth_error ps i = Some p /\ box_holds x y p /\ In v p /\ gap2 x y v d2) /\
  (forall j p v e, nth_error ps j = Some p -> box_holds x y p -> In v p -> gap2 x y v e -> (d2 <= e)%Q /\ (j < i -> (d2 < e)%Q)).
