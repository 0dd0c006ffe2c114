(** Model of the distances and local coordinates on the sphere:
    [src/py_eddy_tracker/generic.py] distance_grid (lines 102-136), distance (lines
    140-157), coordinates_to_local (lines 503-528), local_to_coordinates (lines
    532-555), and [src/py_eddy_tracker/observations/observation.py] circle_contour
    (lines 468-491), on real numbers.

    Simplification: exact real numbers instead of floats. *)
From Coq Require Import List Arith Bool ZArith Reals.
Import ListNotations.
Local Open Scope R_scope.

(** numpy [arctan2(y, x)]. *)
Definition arctan2 (y x : R) : R :=
  if Rlt_dec 0 x then atan (y / x)
  else if Rlt_dec x 0 then (if Rlt_dec y 0 then atan (y / x) - PI else atan (y / x) + PI)
  else if Rlt_dec 0 y then PI / 2 else if Rlt_dec y 0 then - (PI / 2) else 0.
(** [x % m] of floats, [m] positive. *)
Definition rmod (x m : R) : R := x - m * IZR (Int_part (x / m)).

Definition D2R : R := PI / 180.
Definition RE : R := 6370997.

(** lines 152-156 *)
Definition a_val (dlon dlat lat0 lat1 : R) : R :=
  sin (dlon * (1 / 2) * D2R) ^ 2 * cos (lat0 * D2R) * cos (lat1 * D2R) + sin (dlat * (1 / 2) * D2R) ^ 2.
(** distance, lines 151-157, for one couple of points. *)
Definition distance (lon0 lat0 lon1 lat1 : R) : R :=
  let a := a_val (lon1 - lon0) (lat1 - lat0) lat0 lat1 in
  RE * 2 * arctan2 (sqrt a) (sqrt (1 - a)).

(** distance_grid, lines 120-135, for one couple of points; [None] is nan. *)
Definition distance_cell (lon0 lat0 lon1 lat1 : R) : option R :=
  let dlat := Rabs (lat1 - lat0) in
  if Rlt_dec 15 dlat then None
  else
    let dlon := Rabs (lon1 - lon0) in
    let dlon := if Rlt_dec 180 dlon then Rabs (rmod (dlon + 180) 360 - 180) else dlon in
    if Rlt_dec 20 dlon then None
    else
      let a := a_val dlon dlat lat0 lat1 in
      Some (RE / 1000 * 2 * arctan2 (sqrt a) (sqrt (1 - a))).
(** distance_grid, lines 114-136: one row per point of the first array. *)
Definition distance_grid (lon0 lat0 lon1 lat1 : list R) : list (list (option R)) :=
  map (fun p => map (fun q => distance_cell (fst p) (snd p) (fst q) (snd q)) (combine lon1 lat1)) (combine lon0 lat0).

(** coordinates_to_local, lines 514-528, for one point. *)
Definition coordinates_to_local (lon lat lon0 lat0 : R) : R * R :=
  let dlon := (lon - lon0) * D2R in
  let sin_dlat := sin ((lat - lat0) * (1 / 2) * D2R) in
  let sin_dlon := sin (dlon * (1 / 2)) in
  let cos_lat0 := cos (lat0 * D2R) in
  let cos_lat := cos (lat * D2R) in
  let a := sin_dlon ^ 2 * cos_lat0 * cos_lat + sin_dlat ^ 2 in
  let module := RE * 2 * arctan2 (sqrt a) (sqrt (1 - a)) in
  let azimuth := PI / 2 - arctan2 (cos_lat * sin dlon) (cos_lat0 * sin (lat * D2R) - sin (lat0 * D2R) * cos_lat * cos dlon) in
  (module * cos azimuth, module * sin azimuth).

(** local_to_coordinates, lines 543-555, for one point. *)
Definition local_to_coordinates (x y lon0 lat0 : R) : R * R :=
  let d := sqrt (x ^ 2 + y ^ 2) / RE in
  let a := - (arctan2 y x - PI / 2) in
  let lat := asin (sin (lat0 * D2R) * cos d + cos (lat0 * D2R) * sin d * cos a) in
  let lon := lon0 + arctan2 (sin a * sin d * cos (lat0 * D2R)) (cos d - sin (lat0 * D2R) * sin lat) / D2R in
  (lon, lat / D2R).

(** An observation with its contours. *)
Record obs := Obs { lon : R; lat : R; virtual : bool; radius_s : R; radius_e : R; contour_s : list (R * R); contour_e : list (R * R) }.
(** circle_contour, line 474: [radians(linspace(0, 360, n))]. *)
Definition angles (n : nat) : list R := map (fun i => INR i * (360 / INR (n - 1)) * D2R) (seq 0 n).
(** Lines 475 and 484-486: contour of one observation. *)
Definition circle (n : nat) (r x y : R) : list (R * R) :=
  map (fun t => local_to_coordinates (cos t * r) (sin t * r) x y) (angles n).
(** circle_contour, lines 474-491; [has_s], [has_e]: fields which exist. *)
Definition circle_contour (n : nat) (has_s has_e only_virtual : bool) (factor : R) (l : list obs) : list obs :=
  map (fun o =>
    if only_virtual && negb (virtual o) then o
    else Obs (lon o) (lat o) (virtual o) (radius_s o) (radius_e o)
      (if has_s then circle n (radius_s o * factor) (lon o) (lat o) else contour_s o)
      (if has_e then circle n (radius_e o * factor) (lon o) (lat o) else contour_e o)) l.
