(** Model of the search of the grid pixels inside a contour and of the counts and
    statistics made with them: poly.py, generic.py and observation.py.
    Coordinates are exact rationals. *)
From Coq Require Import List Arith ZArith QArith Bool.
From Verif Require Import Base Qaux Obs_model Grid_model Poly_model.
Import ListNotations.
Local Close Scope Q_scope.
Local Open Scope nat_scope.

(** nearest_grd_indice, generic.py lines 558-573: first bounds [x0], [y0] of the
    grid, [round] is to the nearest integer, half to even. *)
Definition nearest_grd_indice (x y x0 y0 xstep ystep : Q) : Z * Z :=
  (qround (Qmod (x - x0) 360 / xstep), qround ((y - y0) / ystep))%Q.

(** bbox_indice_regular, generic.py lines 576-600: (x_start, x_stop), (y_start,
    y_stop); [None] for an empty contour. *)
Definition bbox_indice_regular (vertices : list point) (x0 y0 xstep ystep : Q) (N : Z) (circular : bool) (x_size : Z)
  : option ((Z * Z) * (Z * Z)) :=
  let! b := bbox vertices in
  let '(lon_min, lon_max, lat_min, lat_max) := b in
  let '(i_x0, i_y0) := nearest_grd_indice lon_min lat_min x0 y0 xstep ystep in
  let '(i_x1, i_y1) := nearest_grd_indice lon_max lat_max x0 y0 xstep ystep in
  let slice_x := if circular then ((i_x0 - N) mod x_size, (i_x1 + N + 1) mod x_size)%Z
                 else (Z.max (i_x0 - N) 0, i_x1 + N + 1)%Z in
  Some (slice_x, (i_y0 - N, i_y1 + N + 1)%Z).

(** winding_number_grid_in_poly, poly.py lines 232-261: [where] reads the
    table line by line. *)
Definition winding_number_grid_in_poly (x_1d y_1d : list Q) (i_x0 i_x1 x_size i_y0 : Z) (xy_poly : list point) : list (Z * Z) :=
  flat_map (fun ix =>
    flat_map (fun jy =>
      if (winding_number_poly (snd ix, snd jy) xy_poly =? 0)%Z then [] else
      let i_x := (Z.of_nat (fst ix) + i_x0)%Z in
      [((if (i_x1 <? i_x0)%Z then i_x mod x_size else i_x)%Z, (Z.of_nat (fst jy) + i_y0)%Z)])
      (combine (seq 0 (length y_1d)) y_1d))
    (combine (seq 0 (length x_1d)) x_1d).

(** get_pixel_in_regular, poly.py lines 706-744. *)
Definition get_pixel_in_regular (vertices : list point) (x_c y_c : list Q) (x_start x_stop y_start y_stop : Z) : option (list (Z * Z)) :=
  let y := pyslice y_c (Some y_start) (Some y_stop) in
  let size := Z.of_nat (length x_c) in
  if (x_stop <? x_start)%Z then
    let! v := nth_error vertices 0 in
    let x_ref := fst v in
    let x_array := map (fun x => (Qmod (x - x_ref + 180) 360 + x_ref - 180)%Q)
                     (pyslice x_c (Some x_start) None ++ pyslice x_c None (Some x_stop)) in
    Some (winding_number_grid_in_poly x_array y x_start x_stop size y_start vertices)
  else Some (winding_number_grid_in_poly (pyslice x_c (Some x_start) (Some x_stop)) y x_start x_stop size y_start vertices).

(** A regular grid: first bounds, steps, centres, whether it wraps (dataset/grid.py
    lines 1259-1288). *)
Record rgrid := { g_x0 : Q; g_y0 : Q; g_xstep : Q; g_ystep : Q; g_N : Z; g_circular : bool; g_x : list Q; g_y : list Q }.

(** RegularGridDataset.get_pixels_in, lines 1271-1288, with bbox_indice, lines 1259-1269. *)
Definition get_pixels_in (g : rgrid) (vertices : list point) : option (list (Z * Z)) :=
  let! s := bbox_indice_regular vertices (g_x0 g) (g_y0 g) (g_xstep g) (g_ystep g) (g_N g) (g_circular g) (Z.of_nat (length (g_x g))) in
  let '((x_start, x_stop), (y_start, y_stop)) := s in
  get_pixel_in_regular vertices (g_x g) (g_y g) x_start x_stop y_start y_stop.

(** A table by columns; [grid[i, j]]. *)
Definition get2 {A} (grid : list (list A)) (p : Z * Z) : option A :=
  let! col := pyget grid (fst p) in pyget col (snd p).

(** grid_count_, observation.py lines 2449-2455: [grid[i_, j_] += 1]. *)
Definition add_one (grid : list (list Z)) (p : Z * Z) : option (list (list Z)) :=
  let! col := pyget grid (fst p) in
  let! v := pyget col (snd p) in
  let! col' := pystore col (snd p) (v + 1)%Z in
  pystore grid (fst p) col'.
Fixpoint grid_count_ (grid : list (list Z)) (ps : list (Z * Z)) : option (list (list Z)) :=
  match ps with [] => Some grid | p :: ps' => let! g := add_one grid p in grid_count_ g ps' end.

(** grid_count_pixel_in, observation.py lines 2458-2508: for each contour its
    points and its reference longitude.  The count of a pixel is taken unbounded (u4 in
    the code). *)
Fixpoint grid_count_pixel_in (g : rgrid) (grid : list (list Z)) (contours : list (list point * Q)) : option (list (list Z)) :=
  match contours with
  | [] => Some grid
  | (c, x_ref) :: contours' =>
      let moved := map (fun p => ((Qmod (fst p - x_ref) 360 + x_ref)%Q, snd p)) c in
      let! v := reduce_size moved in
      let! ps := get_pixels_in g v in
      let! grid' := grid_count_ grid ps in
      grid_count_pixel_in g grid' contours'
  end.

(** EddiesObservations.grid_count, lines 2245-2268, with center False: the
    reference is 180 degrees west of the eddy, brought in the turn of the grid; an eddy is
    its longitude and its contour. *)
Definition grid_count (g : rgrid) (eddies : list (Q * list point)) : option (list (list Z)) :=
  grid_count_pixel_in g (repeat (repeat 0%Z (length (g_y g))) (length (g_x g)))
    (map (fun e => (snd e, (Qmod (fst e - g_x0 g) 360 + g_x0 g - 180)%Q)) eddies).

(** grid_stat, observation.py lines 2563-2614, for one contour: the number of
    pixels, the mean of the values which are not masked ([None] inside is nan), the
    largest value, from [lowest] (-1e40 in the code) and without the mask. *)
Definition stat_count (ps : list (Z * Z)) : Q := inject_Z (Z.of_nat (length ps)).
Fixpoint stat_sum (grid : list (list Q)) (mask : list (list bool)) (ps : list (Z * Z)) (v_sum nb : Q) : option (Q * Q) :=
  match ps with
  | [] => Some (v_sum, nb)
  | p :: ps' =>
      let! m := get2 mask p in
      if m : bool then stat_sum grid mask ps' v_sum nb
      else let! v := get2 grid p in stat_sum grid mask ps' (v_sum + v)%Q (nb + 1)%Q
  end.
Definition stat_mean (grid : list (list Q)) (mask : list (list bool)) (ps : list (Z * Z)) : option (option Q) :=
  let! s := stat_sum grid mask ps 0 0 in
  Some (if Qeq_bool (snd s) 0 then None else Some (fst s / snd s)%Q).
Fixpoint stat_max (grid : list (list Q)) (ps : list (Z * Z)) (v_max : Q) : option Q :=
  match ps with
  | [] => Some v_max
  | p :: ps' => let! v := get2 grid p in stat_max grid ps' (if Qlt_bool v_max v then v else v_max)
  end.
Inductive stat_method := SCount | SMean | SMax | SMin.

(** EddiesObservations.interp_grid, lines 2374-2405, on the contours; grid_stat
    takes its own first bound and steps from the centres and a margin of one cell.  The lowest
    value has the opposite sign for the minimum. *)
Definition interp_contour (g : rgrid) (lowest : Q) (m : stat_method) (grid : list (list Q)) (mask : list (list bool)) (eddy : Q * list point) : option (option Q) :=
  let x_ref := (Qmod (fst eddy - g_x0 g) 360 + g_x0 g - 180)%Q in
  let v := map (fun p => ((Qmod (fst p - x_ref) 360 + x_ref)%Q, snd p)) (snd eddy) in
  let! cx0 := nth_error (g_x g) 0 in
  let! cx1 := nth_error (g_x g) 1 in
  let! cy0 := nth_error (g_y g) 0 in
  let! cy1 := nth_error (g_y g) 1 in
  let xstep := (cx1 - cx0)%Q in
  let ystep := (cy1 - cy0)%Q in
  let own := {| g_x0 := (cx0 - xstep / 2)%Q; g_y0 := (cy0 - ystep / 2)%Q; g_xstep := xstep; g_ystep := ystep; g_N := 1%Z;
                g_circular := g_circular g; g_x := g_x g; g_y := g_y g |} in
  let! ps := get_pixels_in own v in
  match m with
  | SCount => Some (Some (stat_count ps))
  | SMean => stat_mean grid mask ps
  | SMax => let! r := stat_max grid ps lowest in Some (Some r)
  | SMin => let! r := stat_max (map (map Qopp) grid) ps lowest in Some (Some (- r)%Q)
  end.
Fixpoint interp_contours (g : rgrid) (lowest : Q) (m : stat_method) (grid : list (list Q)) (mask : list (list bool)) (eddies : list (Q * list point)) : option (list (option Q)) :=
  match eddies with
  | [] => Some []
  | e :: eddies' =>
      let! r := interp_contour g lowest m grid mask e in
      let! rs := interp_contours g lowest m grid mask eddies' in
      Some (r :: rs)
  end.
