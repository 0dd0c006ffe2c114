(** * Boxes of the low pass filter of a curvilinear grid, dataset/grid.py lines
    1144-1173 (UnRegularGridDataset._low_filter): before the filter, the values of
    the nodes are averaged in the boxes of a regular grid.

    The filter itself (bessel_low_filter, line 1174) and the interpolation at the
    nodes (lines 1176-1185) are not modelled.  Numbers are rationals. *)
From Coq Require Import List Arith Bool ZArith QArith Qround.
From Verif Require Import Base Qaux.
Import ListNotations.
Local Close Scope Q_scope.
Local Open Scope nat_scope.

(** numpy arange with a step. *)
Definition arange (a b s : Q) : list Q := map (fun i => a + inject_Z (Z.of_nat i) * s)%Q (seq 0 (Z.to_nat (Qceiling ((b - a) / s)))).

(** A node: its position and its value, [None] when masked. *)
Definition node := (Q * Q * option Q)%type.
(** bounds, lines 1104-1106, of one coordinate. *)
Fixpoint lowest (a : Q) (l : list Q) : Q := match l with [] => a | b :: l' => lowest (if Qle_bool a b then a else b) l' end.
Fixpoint highest (a : Q) (l : list Q) : Q := match l with [] => a | b :: l' => highest (if Qle_bool b a then a else b) l' end.

(** Lines 1148-1152; [step] is [w_cut / 111.0 / factor]. *)
Definition regrid_step (w_cut factor : Q) : Q := (w_cut / 111 / factor)%Q.
Definition edges (x_min x_max y_min y_max step : Q) : list Q * list Q :=
  (arange x_min (x_max + step)%Q step, arange y_min (if Qle_bool 89 (y_max + step)%Q then 89 else y_max + step)%Q step).

(** numpy histogram2d, for one coordinate: searchsorted(edges, v, "right"), one
    less on the last edge; outside of the edges the sample is left out. *)
Definition bin (e : list Q) (v : Q) : option nat :=
  let n := length (filter (fun a => Qle_bool a v) e) in
  let n := if Qeq_bool v (last e 0%Q) then n - 1 else n in
  if (1 <=? n) && (n <? length e) then Some (n - 1) else None.
(** The samples of a box. *)
Definition in_box (e : list Q * list Q) (i j : nat) (s : Q * Q * Q) : bool :=
  match bin (fst e) (fst (fst s)), bin (snd e) (snd (fst s)) with Some a, Some b => (a =? i) && (b =? j) | _, _ => false end.
(** Line 1157: nodes which are not masked. *)
Fixpoint valid (l : list node) : list (Q * Q * Q) :=
  match l with
  | [] => []
  | (p, Some z) :: l' => (p, z) :: valid l'
  | (_, None) :: l' => valid l'
  end.
(** Lines 1159-1164: nb_value, sum_value and their quotient, masked without sample. *)
Definition nb_value (e : list Q * list Q) (l : list (Q * Q * Q)) (i j : nat) : nat := length (filter (in_box e i j) l).
Definition sum_value (e : list Q * list Q) (l : list (Q * Q * Q)) (i j : nat) : Q := Qsum (map snd (filter (in_box e i j) l)).
Definition z_box (e : list Q * list Q) (l : list (Q * Q * Q)) (i j : nat) : option Q :=
  match nb_value e l i j with O => None | n => Some (sum_value e l i j / inject_Z (Z.of_nat n))%Q end.

(** Lines 1145-1173: first corner of each column, of each row, and the values. *)
Definition regrid (w_cut factor : Q) (l : list node) : option (list Q * list Q * list (list (option Q))) :=
  match l with
  | [] => None
  | n :: l' =>
      let xs := map (fun n => fst (fst n)) l' in
      let ys := map (fun n => snd (fst n)) l' in
      let x := fst (fst n) in
      let y := snd (fst n) in
      let e := edges (lowest x xs) (highest x xs) (lowest y ys) (highest y ys) (regrid_step w_cut factor) in
      Some (removelast (fst e), removelast (snd e),
            map (fun i => map (fun j => z_box e (valid l) i j) (seq 0 (length (snd e) - 1))) (seq 0 (length (fst e) - 1)))
  end.
