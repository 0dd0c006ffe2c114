(** Model of src/py_eddy_tracker/poly.py: contours.  A contour is the list of its
    points, coordinates are exact rationals. *)
From Coq Require Import List Arith ZArith QArith Qabs Qround Bool.
From Verif Require Import Base Qaux Corr_model Obs_model.
Import ListNotations.
Local Close Scope Q_scope.
Local Open Scope nat_scope.

Definition point : Type := Q * Q.

(** is_left, lines 16-47. *)
Definition is_left (p0 p1 pt : point) : bool :=
  Qlt_bool 0 ((fst p1 - fst p0) * (snd pt - snd p0) - (fst pt - fst p0) * (snd p1 - snd p0))%Q.

(** winding_number_poly, lines 197-229: [first] is the first vertex. *)
Fixpoint winding_loop (pt first : point) (poly : list point) (wn : Z) : Z :=
  match poly with
  | [] => wn
  | p :: poly' =>
      let next := match poly' with [] => first | q :: _ => q end in
      let wn' :=
        if Qle_bool (snd p) (snd pt) then
          if Qlt_bool (snd pt) (snd next) then if is_left p next pt then (wn + 1)%Z else wn else wn
        else
          if Qle_bool (snd next) (snd pt) then if negb (is_left p next pt) then (wn - 1)%Z else wn else wn in
      winding_loop pt first poly' wn'
  end.
Definition winding_number_poly (pt : point) (poly : list point) : Z :=
  match poly with [] => 0%Z | first :: _ => winding_loop pt first poly 0 end.

(** poly_contain_poly, lines 50-70.  An empty contour is an error. *)
Definition poly_contain_poly (poly_out poly_in : list point) : option bool :=
  match poly_out, poly_in with
  | (x_ref, _) :: _, (x0, _) :: _ =>
      let wrap := Qlt_bool 180 (Qabs (x0 - x_ref)) in
      Some (forallb (fun p =>
        let x := if wrap then (Qmod (fst p - x_ref + 180) 360 + x_ref - 180)%Q else fst p in
        negb (winding_number_poly (x, snd p) poly_out =? 0)%Z) poly_in)
  | _, _ => None
  end.

(** poly_area, lines 85-99.  Less than two points is an error. *)
Fixpoint area_loop (poly : list point) (is : list nat) (area : Q) : option Q :=
  match is with
  | [] => Some area
  | i :: is' =>
      let! p := nth_error poly i in
      let! n := nth_error poly (1 + i) in
      let! l := nth_error poly (i - 1) in
      area_loop poly is' (area + fst p * (snd n - snd l))%Q
  end.
Definition poly_area (poly : list point) : option Q :=
  let! p0 := pyget poly 0 in
  let! p1 := pyget poly 1 in
  let! l2 := pyget poly (-2) in
  let! a := area_loop poly (seq 1 (length poly - 1 - 1)) (fst p0 * (snd p1 - snd l2))%Q in
  Some (Qabs a * (1 # 2))%Q.

(** convex, lines 119-142.  [p0], [p1], [p2] hold the positions which are
    shifted. *)
Fixpoint convex_loop (ref : bool) (p1 p2 : point) (rest : list point) : bool :=
  match rest with
  | [] => true
  | p :: rest' => if Bool.eqb ref (is_left p1 p2 p) then convex_loop ref p2 p rest' else false
  end.
Definition convex (poly : list point) : option bool :=
  let! p0 := pyget poly (-2) in
  let! p1 := pyget poly (-1) in
  let! p2 := pyget poly 1 in
  Some (convex_loop (is_left p0 p1 p2) p1 p2 (skipn 2 poly)).

(** close_center, lines 264-289: the pairs, all of cost 1. *)
Definition close_center (l0 l1 : list point) (delta : Q) : list (nat * nat) :=
  concat (map (fun a => let '(i0, (x0, y0)) := a in
    concat (map (fun b => let '(i1, (x1, y1)) := b in
      let d_x := (x1 - x0)%Q in
      let d_x := if Qlt_bool 180 (Qabs d_x) then (Qmod (d_x + 180) 360 - 180)%Q else d_x in
      if Qlt_bool delta (Qabs d_x) then [] else
      if Qlt_bool delta (Qabs (y1 - y0)) then [] else [(i0, i1)]) (combine (seq 0 (length l1)) l1)))
    (combine (seq 0 (length l0)) l0)).

(** Bounding box; [None] for an empty contour.  qmin_from and qmax_from are in
    Obs_model. *)
Definition bbox (poly : list point) : option (Q * Q * Q * Q) :=
  match poly with
  | [] => None
  | (x, y) :: r =>
      Some (qmin_from x (map fst r), qmax_from x (map fst r), qmin_from y (map snd r), qmax_from y (map snd r))
  end.

(** bbox_intersection, lines 313-350. *)
Definition boxes_meet_code (b0 b1 : Q * Q * Q * Q) : bool :=
  let '(x_in_min, x_in_max, y_in_min, y_in_max) := b0 in
  let '(x1_min, x1_max, y1_min, y1_max) := b1 in
  if Qlt_bool y_in_max y1_min || Qlt_bool y1_max y_in_min then false else
  let wrap := Qlt_bool 180 (Qabs (x_in_min - x1_min)) in
  let ref := (x_in_min - 180)%Q in
  let x1_min_ := if wrap then (Qmod (x1_min - ref) 360 + ref)%Q else x1_min in
  let x1_max_ := if wrap then (Qmod (x1_max - ref) 360 + ref)%Q else x1_max in
  if Qlt_bool x_in_max x1_min_ || Qlt_bool x1_max_ x_in_min then false else true.
Definition bbox_intersection (l0 l1 : list (list point)) : option (list (nat * nat)) :=
  let! b0 := sequence (map bbox l0) in
  let! b1 := sequence (map bbox l1) in
  Some (concat (map (fun a => let '(i0, a0) := a in
    map fst (filter (fun b => boxes_meet_code a0 (snd b)) (map (fun b => ((i0, fst b), snd b)) (combine (seq 0 (length b1)) b1))))
    (combine (seq 0 (length b0)) b0))).

(** get_wrap_vertice, lines 390-407, for the second contour. *)
Definition get_wrap_vertice (p0 p1 : list point) : option (list point) :=
  match p0, p1 with
  | (x0, _) :: _, (x1, _) :: _ =>
      if Qlt_bool 180 (Qabs (x0 - x1))
      then let ref := (x0 - 180)%Q in Some (map (fun p => ((Qmod (fst p - ref) 360 + ref)%Q, snd p)) p1)
      else Some p1
  | _, _ => None
  end.

(** vertice_overlap, lines 437-500, for one pair.  The areas of the polygons and
    of their intersection come from the library Polygon. *)
Inductive overlap_mode := Union | MinimalArea | P1Area.
Definition overlap_score (mode : overlap_mode) (hybrid : bool) (min_overlap : Q) (intersection a0 a1 : Q) : Q :=
  if Qeq_bool intersection 0 then 0%Q else
  let small := if Qle_bool a0 a1 then a0 else a1 in
  let cost :=
    match mode with
    | MinimalArea => (intersection / small)%Q
    | P1Area => (intersection / a1)%Q
    | Union => (intersection / (a0 + a1 - intersection))%Q
    end in
  if Qle_bool min_overlap cost then cost
  else if hybrid && negb (Qeq_bool cost 0) && Qlt_bool (99 # 100) (intersection / small) then cost else 0%Q.

(** reduce_size, lines 859-878.  [last_other] is the number of points left by
    the loop, [None] when every point is the first one: the index then leaves the
    array. *)
Definition same_point (p q : point) : bool := Qeq_bool (fst p) (fst q) && Qeq_bool (snd p) (snd q).
Fixpoint last_other (first : point) (poly : list point) (i : nat) : option nat :=
  match i with
  | O => None
  | S i' =>
      let! p := nth_error poly i' in
      if negb (same_point p first) then Some (S i') else last_other first poly i'
  end.
Definition reduce_size (poly : list point) : option (list point) :=
  match poly with
  | [] => None
  | first :: _ => let! i := last_other first poly (length poly) in Some (firstn (Nat.max 3 i) poly)
  end.

(** create_meshed_particles, lines 292-310, for one contour.  [fuel] bounds the
    loops, [None] when it runs out. *)
Fixpoint mesh_column (fuel : nat) (vertice : list point) (x y lat_max step : Q) : option (list point) :=
  match fuel with
  | O => None
  | S fuel' =>
      if Qle_bool y lat_max then
        let! rest := mesh_column fuel' vertice x (y + step)%Q lat_max step in
        Some (if negb (winding_number_poly (x, y) vertice =? 0)%Z then (x, y) :: rest else rest)
      else Some []
  end.
Fixpoint mesh_rows (fuel : nat) (vertice : list point) (x y0 lon_max lat_max step : Q) : option (list point) :=
  match fuel with
  | O => None
  | S fuel' =>
      if Qle_bool x lon_max then
        let! col := mesh_column fuel vertice x y0 lat_max step in
        let! rest := mesh_rows fuel' vertice (x + step)%Q y0 lon_max lat_max step in
        Some (col ++ rest)
      else Some []
  end.
Definition mesh_contour (fuel : nat) (poly : list point) (step : Q) : option (list point) :=
  let! vertice := reduce_size poly in
  let! (lon_min, lon_max, lat_min, lat_max) := bbox poly in
  mesh_rows fuel vertice (lon_min - Qmod lon_min step)%Q (lat_min - Qmod lat_min step)%Q lon_max lat_max step.
Definition create_meshed_particles (fuel : nat) (contours : list (list point)) (step : Q) : option (list (point * nat)) :=
  let! l := sequence (map (fun c => mesh_contour fuel c step) contours) in
  Some (concat (map (fun a => map (fun p => (p, fst a)) (snd a)) (combine (seq 0 (length l)) l))).
