(** Model of src/py_eddy_tracker/poly.py: contour of each particle. *)
From Coq Require Import List Arith ZArith QArith Qround Bool.
From Verif Require Import Base Qaux Corr_model Generic_model Poly_model.
Import ListNotations.
Local Close Scope Q_scope.
Local Open Scope nat_scope.

Definition nb_x : Z := 360.
Definition zrange (a b : Z) : list Z := map (fun k => (a + Z.of_nat k)%Z) (seq 0 (Z.to_nat (b - a))).

(** box_indexes, lines 897-900, with the step of one degree used by poly_indexs.
    A latitude below -90 has no box: the conversion to an unsigned integer is
    not modelled, the result is [None]. *)
Definition box_indexes (x y : Q) : option (Z * Z) :=
  if Qle_bool 0 (y + 90) then Some (Qfloor (Qmod x 360), Qfloor (y + 90)) else None.
(** box_index, lines 891-894. *)
Definition box_index (p : point) : option Z :=
  let! (i, j) := box_indexes (fst p) (snd p) in Some (i + nb_x * j)%Z.
(** group_obs, lines 881-888: the box of each particle and the order which
    sorts them; [argsort] is numpy's. *)
Definition group_obs (argsort : list Z -> list nat) (pts : list point) : option (list Z * list nat) :=
  let! i := sequence (map box_index pts) in Some (i, argsort i).

(** Tests of lines 946-957 on a particle: box of the contour, then contour. *)
Definition in_contour (b : Q * Q * Q * Q) (v : list point) (p : point) : bool :=
  let '(x_c_min, x_c_max, y_c_min, y_c_max) := b in
  let y := snd p in
  if Qlt_bool y_c_max y then false else
  if Qlt_bool y y_c_min then false else
  let x := (Qmod (fst p - x_c_min + 180) 360 + x_c_min - 180)%Q in
  if Qlt_bool x_c_max x then false else
  if Qlt_bool x x_c_min then false else
  negb (winding_number_poly (x, y) v =? 0)%Z.
(** Loop of lines 942-958 over the particles of a box. *)
Fixpoint try_points (pts : list point) (i_order : list nat) (test : point -> bool) (i_contour : Z) (js : list nat) (indexs : list Z) : option (list Z) :=
  match js with
  | [] => Some indexs
  | j :: js' =>
      let! i_p := nth_error i_order j in
      let! cur := nth_error indexs i_p in
      let! p := nth_error pts i_p in
      let! indexs' :=
        (if negb (cur =? -1)%Z then Some indexs
         else if test p then store indexs i_p i_contour else Some indexs) in
      try_points pts i_order test i_contour js' indexs'
  end.
(** Loops of lines 934-958 over the boxes [i_box], not yet shifted. *)
Fixpoint try_boxes (pts : list point) (i_order : list nat) (start_index end_index : list nat) (i_first : Z) (test : point -> bool) (i_contour : Z) (boxes : list Z) (indexs : list Z) : option (list Z) :=
  match boxes with
  | [] => Some indexs
  | k :: boxes' =>
      let i_box := (k - i_first)%Z in
      let! indexs' :=
        (if (i_box <? 0)%Z || (Z.of_nat (length end_index) <=? i_box)%Z then Some indexs
         else let! a := nth_error start_index (Z.to_nat i_box) in
              let! b := nth_error end_index (Z.to_nat i_box) in
              try_points pts i_order test i_contour (seq a (b - a)) indexs) in
      try_boxes pts i_order start_index end_index i_first test i_contour boxes' indexs'
  end.
(** Boxes of a contour, lines 929-940. *)
Definition boxes_of (b : Q * Q * Q * Q) : option (list Z) :=
  let '(x_c_min, x_c_max, y_c_min, y_c_max) := b in
  let! (i0, j0) := box_indexes x_c_min y_c_min in
  let! (i1, j1) := box_indexes x_c_max y_c_max in
  let i1 := if (i1 <? i0)%Z then (i1 + nb_x)%Z else i1 in
  Some (concat (map (fun i_x => map (fun i_y => (i_x mod nb_x + nb_x * i_y)%Z) (zrange j0 (j1 + 1))) (zrange i0 (i1 + 1)))).
(** poly_indexs, lines 903-959. *)
Fixpoint try_contours (pts : list point) (i_order : list nat) (start_index end_index : list nat) (i_first : Z) (i_contour : Z) (contours : list (list point)) (indexs : list Z) : option (list Z) :=
  match contours with
  | [] => Some indexs
  | c :: contours' =>
      let! v := reduce_size c in
      let! b := bbox v in
      let! boxes := boxes_of b in
      let! indexs' := try_boxes pts i_order start_index end_index i_first (in_contour b v) i_contour boxes indexs in
      try_contours pts i_order start_index end_index i_first (i_contour + 1) contours' indexs'
  end.
Definition poly_indexs (argsort : list Z -> list nat) (pts : list point) (contours : list (list point)) : option (list Z) :=
  let! (i, i_order) := group_obs argsort pts in
  let! s := gather i i_order in
  let! (start_index, end_index, i_first) := build_index s in
  try_contours pts i_order start_index end_index i_first 0 contours (repeat (-1)%Z (length pts)).
(** insidepoly, lines 962-972. *)
Definition insidepoly (argsort : list Z -> list nat) (pts : list point) (contours : list (list point)) : option (list bool) :=
  let! l := poly_indexs argsort pts contours in Some (map (fun i => negb (i =? -1)%Z) l).
