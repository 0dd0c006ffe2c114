(** Model of the azimuth of tracks: [src/py_eddy_tracker/observations/tracking.py]
    get_azimuth (270-293), on real numbers.

    Simplification: exact real numbers instead of floats.  A row is its track number with its
    longitude and latitude. *)
From Coq Require Import List Arith Bool ZArith Reals.
Import ListNotations.
From Verif Require Import Base Corr_model TrackObs_model Iter_model Sph_model.
Local Open Scope R_scope.

(** [radians] and [degrees] of numpy. *)
Definition radians (x : R) : R := x * D2R.
Definition degrees (x : R) : R := x * (180 / PI).
(** lines 283-288, for one track. *)
Definition azimuth (lon0 lat0 lon1 lat1 : R) : R :=
  let lat0 := radians lat0 in
  let lon0 := radians lon0 in
  let lat1 := radians lat1 in
  let lon1 := radians lon1 in
  let dlon := lon1 - lon0 in
  let x := cos lat0 * sin lat1 - sin lat0 * cos lat1 * cos dlon in
  let y := sin dlon * cos lat1 in
  degrees (arctan2 y x) + 90.
(** get_azimuth, lines 270-293. *)
Definition get_azimuth (equatorward : bool) (d : ds (R * R)) : option (list R) :=
  let! td := compute_tables d in
  let q := filter (fun q => negb (snd q =? 0)%nat) (combine (fst (fst td)) (snd (fst td))) in
  let i0 := map fst q in
  let i1 := map (fun q => (fst q - 1 + Z.of_nat (snd q))%Z) q in
  let! p0 := sequence (map (pyget (rows d)) i0) in
  let! p1 := sequence (map (pyget (rows d)) i1) in
  Some (map (fun pq =>
    let '((_, (lon0, lat0)), (_, (lon1, lat1))) := pq in
    let a := azimuth lon0 lat0 lon1 lat1 in
    if equatorward then (if Rlt_dec (radians lat0) 0 then a * -1 else a) else a) (combine p0 p1)).
