(** Centred differences of a field, dataset/grid.py lines 1673-1703
    (RegularGridDataset.compute_finite_difference), with the steps of the grid, lines 1228-1229.

    A value is [None] when it is nan. Real numbers in place of floats (a division by 0 gives
    inf or nan in numpy: the theorems are about places where the divisor is not 0 or leave the
    quotient as it is). A field is the list of its columns, one for each longitude, each one a
    list along the latitudes. *)
From Coq Require Import List Arith Bool ZArith Reals.
Import ListNotations.
From Verif Require Import Base Corr_model Sph_model.
Local Open Scope R_scope.

(** Bound of a slice of numpy on [n] elements: negative ones count from the end, all are
    brought back between 0 and [n]. *)
Definition bound (n : nat) (z : Z) : nat :=
  if (z <? 0)%Z then Z.to_nat (Z.max 0 (z + Z.of_nat n)) else Z.to_nat (Z.min z (Z.of_nat n)).
(** [l[a:]] and [l[:b]]. *)
Definition from {A} (l : list A) (a : Z) : list A := slice l (bound (length l) a) (length l).
Definition upto {A} (l : list A) (b : Z) : list A := slice l 0 (bound (length l) b).
(** [l[a:b] = v] with bounds already brought back: same length, or one element repeated. *)
Definition put {A} (l : list A) (a b : nat) (v : list A) : option (list A) :=
  if (length v =? b - a)%nat then Some (firstn a l ++ v ++ skipn (a + (b - a)) l)
  else match v with [x] => Some (firstn a l ++ repeat x (b - a) ++ skipn (a + (b - a)) l) | _ => None end.
Definition put_from {A} (l : list A) (a : Z) (v : list A) := put l (bound (length l) a) (length l) v.
Definition put_upto {A} (l : list A) (b : Z) (v : list A) := put l 0 (bound (length l) b) v.
(** [l[a:] = nan], [l[:b] = nan]. *)
Definition nan_from {A} (nan : A) (l : list A) (a : Z) : list A :=
  let a := bound (length l) a in firstn a l ++ repeat nan (length l - a).
Definition nan_upto {A} (nan : A) (l : list A) (b : Z) : list A :=
  let b := bound (length l) b in repeat nan b ++ skipn b l.

(** Lines 1680-1695 along one axis: the two shifted copies ([wrap] only in longitude). *)
Definition shifted {A} (nan : A) (wrap : bool) (schema : Z) (data : list A) : option (list A * list A) :=
  let! data1 := put_upto data (- schema) (from data schema) in
  let! data2 := put_from data schema (upto data (- schema)) in
  if wrap then
    let! data1 := put_from data1 (- schema) (upto data schema) in
    let! data2 := put_upto data2 schema (from data (- schema)) in
    Some (data1, data2)
  else Some (nan_from nan data1 (- schema), nan_upto nan data2 schema).

(** Mean of the differences of the coordinates, lines 1228-1229. *)
Fixpoint diffs (l : list R) : list R :=
  match l with x :: ((y :: _) as r) => (y - x) :: diffs r | _ => [] end.
Definition mean_step (l : list R) : R := fold_right Rplus 0 (diffs l) / INR (length (diffs l)).

(** Line 1698. *)
Definition degree : R := RE * 2 * PI / 360.
(** Difference of two values over a distance, nan if one of them is nan. *)
Definition quotient (d : R) (a b : option R) : option R :=
  match a, b with Some a, Some b => Some ((a - b) / d) | _, _ => None end.
Fixpoint zip3 {A B C D} (f : A -> B -> C -> D) (l : list A) (m : list B) (n : list C) : list D :=
  match l, m, n with a :: l, b :: m, c :: n => f a b c :: zip3 f l m n | _, _, _ => [] end.

(** compute_finite_difference, lines 1673-1703. The guard of lines 1674-1675 never stops a
    whole number ([not isinstance(schema, int) and schema < 1]): it is no part of the model,
    where [schema] is a whole number. [x_c] and [y_c] are the coordinates of the grid. *)
Definition compute_finite_difference (x_c y_c : list R) (data : list (list (option R))) (schema : Z) (wrap vertical : bool)
    : option (list (list (option R))) :=
  if vertical then
    let d := degree * (mean_step y_c * 2 * IZR schema) in
    sequence (map (fun c => let! p := shifted None false schema c in Some (zip3 quotient (map (fun _ => d) c) (fst p) (snd p))) data)
  else
    let d := map (fun y => degree * (mean_step x_c * cos (y * D2R) * 2 * IZR schema)) y_c in
    let! p := shifted (repeat None (length y_c)) wrap schema data in
    Some (zip3 (fun _ a b => zip3 quotient d a b) data (fst p) (snd p)).
