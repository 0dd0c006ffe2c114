(** Model of the circles of a contour given in degrees:
    [src/py_eddy_tracker/dataset/grid.py] fit_circle_path (lines 138-146),
    _circle_from_equal_area (lines 150-163), _fit_circle_path (lines 167-183), on
    real numbers.

    Simplifications: exact real numbers; [None] is an exception or a result made of
    nan; [lstsq] of numpy is a parameter. *)
From Coq Require Import List Reals.
From Verif Require Import Base Corr_model Circ_model Sph_model.
Import ListNotations.
Local Open Scope R_scope.

(** Result: an edge reduced to one position (line 179: 0, -90, nan, nan), or a centre,
    a radius and an error ([None]: nan). *)
Inductive circle_of := Dot | Circle (lon lat radius : R) (err : option R).

(** [max() - min()]. *)
Definition extent (f : pt -> R) (l : list pt) : R := maxf f l + maxf (fun p => - f p) l.
(** lines 169-175 (and 152-158): [None] without vertex after the first one. *)
Definition to_local (l : list pt) : option (R * R * list pt) :=
  if (length (tl l) =? 0)%nat then None
  else
    let lon0 := mean fst (tl l) in
    let lat0 := mean snd (tl l) in
    Some (lon0, lat0, map (fun p => coordinates_to_local (fst p) (snd p) lon0 lat0) l).
Definition is_dot (l : list pt) : bool :=
  if Rlt_dec (extent fst l) (1 / 10000000) then if Rlt_dec (extent snd l) (1 / 10000000) then true else false else false.

Section Path.
Variable lstsq : list (R * R * R) -> list R -> R * R * R.
(** _fit_circle_path, lines 168-183. *)
Definition fit_circle_vertices (l : list pt) : option circle_of :=
  let! (lon0, lat0, c) := to_local l in
  if is_dot l then Some Dot
  else
    let! (centlon, centlat, radius, err) := fit_circle lstsq c in
    let '(centlon, centlat) := local_to_coordinates centlon centlat lon0 lat0 in
    let centlon := rmod (centlon - lon0 + 180) 360 + lon0 - 180 in
    Some (Circle centlon centlat radius (Some err)).
(** _circle_from_equal_area, lines 151-163. *)
Definition circle_from_equal_area (l : list pt) : option circle_of :=
  let! (lon0, lat0, c) := to_local l in
  if is_dot l then Some Dot else Some (Circle lon0 lat0 (sqrt (poly_area c / PI)) None).

(** A contour and the circles which were already computed, lines 139-145. *)
Record path := Path { vertices : list pt; params_fit : option circle_of; params_area : option circle_of }.
Inductive method := Fit | EqualArea | Other.
(** fit_circle_path, lines 139-146; [Other]: KeyError of line 146. *)
Definition fit_circle_path (p : path) (m : method) : option (circle_of * path) :=
  match m with
  | Fit => match params_fit p with
           | Some c => Some (c, p)
           | None => let! c := fit_circle_vertices (vertices p) in Some (c, Path (vertices p) (Some c) (params_area p))
           end
  | EqualArea => match params_area p with
           | Some c => Some (c, p)
           | None => let! c := circle_from_equal_area (vertices p) in Some (c, Path (vertices p) (params_fit p) (Some c))
           end
  | Other => None
  end.
End Path.
