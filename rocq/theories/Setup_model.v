(** Model of the coordinates of a regular grid, src/py_eddy_tracker/dataset/grid.py:
    setup_coordinates (lines 444-473 and 1216-1230), is_circular (lines 1330-1336),
    normalize_x_indice (lines 1290-1291). *)
From Coq Require Import List Arith ZArith QArith Qabs Bool.
From Verif Require Import Base Qaux Grid_model.
Import ListNotations.
Local Close Scope Q_scope.
Local Open Scope nat_scope.

(** Lines 460-473, [is_centered] false: [c[:-1] += d2; c[-1] += d2[-1]]. *)
Fixpoint add_half (c d : list Q) : list Q :=
  match c, d with
  | x :: c', y :: d' => (x + y / 2)%Q :: add_half c' d'
  | _, _ => c
  end.
Definition bounds_to_c (b : list Q) : option (list Q) :=
  let d := diffs b in
  let c := add_half b d in
  let! e := pyget c (-1) in
  let! de := pyget d (-1) in
  pystore c (-1) (e + de / 2)%Q.

Record axis := { a_c : list Q; a_bounds : list Q; a_step : Q }.
(** Mean of the gaps between centres, lines 1229-1230. *)
Definition mean_gap (c : list Q) : Q := (fold_right Qplus 0 (diffs c) / inject_Z (Z.of_nat (length (diffs c))))%Q.
(** One axis; [None]: the exception of line 1226 or a read out of range. *)
Definition setup_axis (centered : bool) (v : list Q) : option axis :=
  let! cb := (if centered then let! b := c_to_bounds v in Some (v, b) else let! c := bounds_to_c v in Some (c, v)) in
  let '(c, b) := cb in
  if existsb (fun d => Qlt_bool d 0) (diffs b) then None
  else Some {| a_c := c; a_bounds := b; a_step := mean_gap c |}.

(** Lines 1330-1336. *)
Definition circular_bounds (b : list Q) : option bool :=
  let! first := pyget b 0 in
  let! last := pyget b (-1) in
  Some (Qlt_bool (Qabs (Qmod first 360 - Qmod last 360)) (1 # 10000)).
(** Lines 1290-1291. *)
Definition normalize_x_indice (x_size i : Z) : Z := (i mod x_size)%Z.
