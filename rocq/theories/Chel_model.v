(** Links allowed by the reference tracker, and the tracking which follows.

    Simplifications: exact arithmetic on rationals instead of floats; the
    distance between two eddies is a parameter [dist], and the mask of the
    ground is a parameter [ground] of its pixels ([None]: out of the grid, an
    error). *)
From Coq Require Import List Arith ZArith Bool QArith Qabs.
From Verif Require Import Base Qaux Solver_model Corr_model Grid_model.
Import ListNotations.
Local Open Scope Q_scope.

(** The fields read by the tracker. *)
Record eddy := mk_eddy { e_lon : Q; e_lat : Q; e_amp : Q; e_rad : Q }.

(** observation.py, basic_formula_ellipse_major_axis, lines 1379-1399, for one
    latitude; [c0] is not used by the code. *)
Definition major_axis (cmin cmax lat1 lat2 : Q) (degrees : bool) (lat : Q) : Q :=
  let a := (cmin - cmax) / (lat1 - lat2) in
  let b := a * - lat1 + cmin in
  let l := Qabs lat in
  let v := cmin in
  let v := if Qlt_bool l lat2 then cmax else v in
  let m := Qlt_bool lat1 l || Qlt_bool l lat2 in
  let v := if m then v else a * l + b in
  if degrees then v else v * (1112 # 10).

(** observation.py, shifted_ellipsoid_degrees_mask2, lines 105-138: one cell. *)
Definition in_ellipse (minor major : Q) (lon0 lat0 lon1 lat1 : Q) : bool :=
  let c := major in
  let major := minor + (1 # 2) * (major - minor) in
  let f_right := lon0 in
  let f_left := f_right - (c - minor) in
  let x_c := (f_left + f_right) * (1 # 2) in
  let dy := Qabs (lat1 - lat0) in
  if Qlt_bool minor dy then false
  else
    let dx := Qabs (lon1 - x_c) in
    let dx := if Qlt_bool 180 dx then Qabs (Qmod (dx + 180) 360 - 180) else dx in
    if Qlt_bool major dx then false
    else Qlt_bool (dx * dx / (major * major) + dy * dy / (minor * minor)) 1.
Definition ellipse_mask (minor : Q) (major : list Q) (self other : list eddy) : mat bool :=
  map (fun p => map (fun o => in_ellipse minor (snd p) (e_lon (fst p)) (e_lat (fst p)) (e_lon o) (e_lat o)) other) (combine self major).

(** old_tracker_reference.py, check_ratio, lines 79-105.  A division by zero is
    an error (compiled code keeps this rule of python). *)
Definition ratio_ok (self other : Q) : option bool :=
  if Qeq_bool self 0 then None
  else let r := other / self in Some (negb (Qle_bool (5 # 2) r || Qle_bool r (2 # 5))).
Definition check_cell (b : bool) (e o : eddy) : option bool :=
  if b then
    let! a := ratio_ok (e_amp e) (e_amp o) in
    if a then ratio_ok (e_rad e) (e_rad o) else Some false
  else Some false.
Definition check_row (e : eddy) (row : list bool) (other : list eddy) : option (list bool) :=
  sequence (map (fun p => check_cell (fst p) e (snd p)) (combine row other)).
Definition check_ratio (mask : mat bool) (self other : list eddy) : option (mat bool) :=
  sequence (map (fun p => check_row (snd p) (fst p) other) (combine mask self)).

Section Chel.
Variables (x_ori y_ori x_step y_step : Q) (nb_x : Z) (ground : Z * Z -> option bool) (dist : eddy -> eddy -> Q).

(** [self.obs[i]] and [other.obs[j]] of the pairs, lines 38-40. *)
Definition way (self other : list eddy) (p : nat * nat) : option segment :=
  let! e := nth_error self (fst p) in
  let! o := nth_error other (snd p) in
  Some ((e_lon e, e_lat e), (e_lon o, e_lat o)).

(** [mask[i, j] = values], line 38. *)
Fixpoint put_cells (mask : mat bool) (l : list ((nat * nat) * bool)) : mat bool :=
  match l with
  | [] => mask
  | (i, j, v) :: l' => put_cells (set_cell mask i j v) l'
  end.

(** CheltonTracker.mask_function, lines 22-42. *)
Definition chelton_mask (self other : list eddy) : option (mat bool) :=
  let minor := 105 # 100 in
  let major := 15 # 10 in
  let y := map (fun e => major_axis minor major 23 5 true (e_lat e)) self in
  let mask := ellipse_mask minor y self other in
  let! mask := check_ratio mask self other in
  let closest := where2 mask in
  let! segs := sequence (map (way self other) closest) in
  let! clear := across_ground x_ori y_ori x_step y_step nb_x ground segs in
  Some (put_cells mask (combine closest clear)).

(** EddiesObservations.tracking, observation.py lines 1524-1546: masked costs
    (the cost is the distance, old_tracker_reference.py lines 17-20), then the
    association and the choice between the links to a same eddy. *)
Definition cost_matrix (mask : mat bool) (self other : list eddy) : mat (option Q) :=
  map (fun p : list bool * eddy => map (fun q : bool * eddy => if fst q then Some (dist (snd p) (snd q)) else None) (combine (fst p) other)) (combine mask self).
Definition chelton_links (self other : list eddy) : option (list (nat * nat)) :=
  let! mask := chelton_mask self other in
  chelton_tracking (map e_amp self) (length other) (cost_matrix mask self other).
End Chel.
