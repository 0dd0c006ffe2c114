(** What is expected of contours put together across the seam of a grid. *)
From Coq Require Import List Arith ZArith QArith Qabs Bool.
From Verif Require Import Base.
Import ListNotations.
Local Close Scope Q_scope.
Local Open Scope nat_scope.

Definition start (p : list (Q * Q)) : Q * Q := hd (0, 0)%Q p.
Definition stop (p : list (Q * Q)) : Q * Q := last p (0, 0)%Q.
(** Two points at the same place, but for rounding. *)
Definition touching (a b : Q * Q) : Prop := (Qabs (fst a - fst b) < 1 # 5000000000)%Q /\ (Qabs (snd a - snd b) < 1 # 5000000000)%Q.
(** The path begins and ends on the meridian [x]. *)
Definition on_meridian (x : Q) (p : list (Q * Q)) : Prop :=
  (Qabs (fst (start p) - x) < 1 # 10000000000)%Q /\ (Qabs (fst (stop p) - x) < 1 # 10000000000)%Q.
(** The path one turn to the west. *)
Definition turned (p : list (Q * Q)) : list (Q * Q) := map (fun v => (fst v - 360, snd v)%Q) p.
(** [q] goes through the paths [segs], one after the other, each where it is or one turn to the
    west, and starts where the one before stops. *)
Inductive through : list (list (Q * Q)) -> list (Q * Q) -> Prop :=
| through_one : forall s, s <> [] -> through [s] s
| through_more : forall segs q s s' t, through segs q -> s <> [] -> s' = s \/ s' = turned s -> touching (stop q) (start s') -> t = s' \/ t = tl s' ->
    through (segs ++ [s]) (q ++ t).
(** [q] is a closed contour made of the paths [segs]: its last vertex is put on its first, which it touches. *)
Definition loop_of (segs : list (list (Q * Q))) (q : list (Q * Q)) : Prop :=
  2 <= length segs /\ exists q0, through segs q0 /\ touching (stop q0) (start q0) /\ q = upd q0 (length q0 - 1) (start q0).
(** The two ends of a path of the first meridian and those of a path of the last are at the same latitudes. *)
Definition meets (l r : list (Q * Q)) : Prop :=
  (Qabs (snd (start l) - snd (stop r)) < 1 # 10000000000)%Q /\ (Qabs (snd (stop l) - snd (start r)) < 1 # 10000000000)%Q.
