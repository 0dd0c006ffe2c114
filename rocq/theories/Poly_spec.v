(** Vocabulary of the properties on contours. *)
From Coq Require Import List Arith ZArith QArith Qabs.
From Verif Require Import Base Qaux Poly_model.
Import ListNotations.
Local Close Scope Q_scope.
Local Open Scope nat_scope.

(** Edges of a contour, the last vertex being joined to the first one. *)
Definition edges (poly : list point) : list (point * point) :=
  match poly with [] => [] | a :: r => combine poly (r ++ [a]) end.
(** Twice the signed area of the triangle [a], [b], [p]: positive when [p] is on
    the left of the line from [a] to [b]. *)
Definition orient (a b p : point) : Q := ((fst b - fst a) * (snd p - snd a) - (fst p - fst a) * (snd b - snd a))%Q.
Definition on_segment (a b p : point) : Prop :=
  exists t, (0 <= t <= 1)%Q /\ (fst p == fst a + t * (fst b - fst a))%Q /\ (snd p == snd a + t * (snd b - snd a))%Q.
Definition same (p q : point) : Prop := (fst p == fst q)%Q /\ (snd p == snd q)%Q.
(** [p] is strictly inside the triangle, which turns left (1) or right (-1), or
    is not inside (0). *)
Definition inside_triangle (a b c p : point) (s : Z) : Prop :=
  (s = 1%Z /\ (0 < orient a b p)%Q /\ (0 < orient b c p)%Q /\ (0 < orient c a p)%Q) \/
  (s = (-1)%Z /\ (orient a b p < 0)%Q /\ (orient b c p < 0)%Q /\ (orient c a p < 0)%Q) \/
  (s = 0%Z /\ ~ ((0 < orient a b p)%Q /\ (0 < orient b c p)%Q /\ (0 < orient c a p)%Q) /\ ~ ((orient a b p < 0)%Q /\ (orient b c p < 0)%Q /\ (orient c a p < 0)%Q)).

(** Strictly outside the bounding box of the vertices. *)
Definition outside_box (poly : list point) (pt : point) : Prop :=
  (forall v, In v poly -> (fst pt < fst v)%Q) \/ (forall v, In v poly -> (fst v < fst pt)%Q) \/
  (forall v, In v poly -> (snd pt < snd v)%Q) \/ (forall v, In v poly -> (snd v < snd pt)%Q).

(** Sum of the products of the shoelace formula over the edges. *)
Definition qsum (l : list Q) : Q := fold_right Qplus 0%Q l.
Definition shoelace (poly : list point) : Q := qsum (map (fun e => fst (fst e) * snd (snd e) - fst (snd e) * snd (fst e))%Q (edges poly)).

(** Inside a contour: winding number not zero. *)
Definition inside (poly : list point) (p : point) : Prop := winding_number_poly p poly <> 0%Z.

(** Order of meshed particles: by longitude, then by latitude. *)
Definition before (p q : point) : Prop := (fst p < fst q)%Q \/ ((fst p == fst q)%Q /\ (snd p < snd q)%Q).

(** The same, the contours being taken one after the other. *)
Definition before_in (p q : point * nat) : Prop := snd p < snd q \/ (snd p = snd q /\ before (fst p) (fst q)).

Definition qn (j : nat) : Q := inject_Z (Z.of_nat j).

(** Orientation of the turn at the vertex which follows vertex [i]. *)
Definition turn (l : list point) (i : nat) : Q :=
  let n := length l in let o := (0, 0)%Q in orient (nth i l o) (nth ((i + 1) mod n) l o) (nth ((i + 2) mod n) l o).

(** The boxes (x min, x max, y min, y max) have a common point, modulo whole turns of longitude. *)
Definition boxes_meet (b0 b1 : Q * Q * Q * Q) : Prop :=
  let '(x0, x0', y0, y0') := b0 in let '(x1, x1', y1, y1') := b1 in
  (exists k, x0 <= x1' + 360 * inject_Z k /\ x1 + 360 * inject_Z k <= x0')%Q /\ (y0 <= y1' /\ y1 <= y0')%Q.

(** Ratio of the areas of each mode. *)
Definition raw_score (mode : overlap_mode) (i a0 a1 : Q) : Q :=
  match mode with Union => i / (a0 + a1 - i) | MinimalArea => i / (if Qle_bool a0 a1 then a0 else a1) | P1Area => i / a1 end.

(** A point after [k] turns of longitude. *)
Definition shift (k : Z) (p : point) : point := ((fst p + 360 * inject_Z k)%Q, snd p).

(** A point is in a contour, modulo whole turns of longitude. *)
Definition contains (c : list point) (p : point) : Prop := exists k, inside c (shift k p).

(** First contour which contains a point. *)
Definition first_containing (cs : list (list point)) (p : point) (r : option nat) : Prop :=
  match r with
  | Some n => (exists c, nth_error cs n = Some c /\ contains c p) /\ forall m c, m < n -> nth_error cs m = Some c -> ~ contains c p
  | None => forall m c, nth_error cs m = Some c -> ~ contains c p
  end.

(** Two different points at least, less than 180 degrees wide, no latitude below -90. *)
Definition good_contour (c : list point) : Prop :=
  (exists p q, In p c /\ In q c /\ ~ same p q) /\ (forall p q, In p c -> In q c -> (fst p - fst q < 180)%Q) /\ (forall p, In p c -> (-90 <= snd p)%Q).
