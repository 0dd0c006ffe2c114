(** Model of the overlap of contours and of the union of contours:
    [src/py_eddy_tracker/observations/observation.py] cost_function_common_area (1251-1286),
    [src/py_eddy_tracker/poly.py] create_vertice (353-368), merge (410-434), polygon_overlap (503-525),
    [src/py_eddy_tracker/observations/tracking.py] shape_polygon (516-526).

    Simplifications: exact rationals (costs are stored with 32 bits in the code); the
    polygons of the library Polygon, their areas, intersection, union and contours are
    parameters; [None] is an exception (division by zero, or minimum of no point) or nan. *)
From Coq Require Import List Arith ZArith Bool QArith Qabs.
Import ListNotations.
From Verif Require Import Base Qaux Corr_model Obs_model Poly_model Iter_model.
Local Close Scope Q_scope.
Local Open Scope nat_scope.

(** create_vertice, poly.py lines 353-368: one vertex by element of x; y is at least as long. *)
Definition create_vertice (x y : list Q) : option (list point) :=
  if length x <=? length y then Some (combine x y) else None.
(** Division of Python floats. *)
Definition div (a b : Q) : option Q := if Qeq_bool b 0 then None else Some (a / b)%Q.
Definition qmin2 (a b : Q) : Q := if Qlt_bool b a then b else a.

Section Polygons.
(** The class Polygon of the library: Polygon(v), (p & q).area(), p.area(), p + q, and the
    contours of a polygon. *)
Variable poly : Type.
Variable make : list point -> poly.
Variable inter : poly -> poly -> Q.
Variable area : poly -> Q.
Variable plus : poly -> poly -> poly.
Variable contours : poly -> list (list point).

(** cost_function_common_area, lines 1261-1284, for one pair of contours given by their x and
    y. *)
Definition cost_one (xi yi xo yo : list Q) : option Q :=
  match xi, yi, xo, yo with
  | xi0 :: xi', yi0 :: yi', xo0 :: xo', yo0 :: yo' =>
      if Qlt_bool (qmax_from xi0 xi') (qmin_from xo0 xo') || Qlt_bool (qmax_from xo0 xo') (qmin_from xi0 xi') then Some 1%Q
      else if Qlt_bool (qmax_from yi0 yi') (qmin_from yo0 yo') || Qlt_bool (qmax_from yo0 yo') (qmin_from yi0 yi') then Some 1%Q
      else
        let! vi := create_vertice xi yi in
        let p_in := make vi in
        let x_out := if Qlt_bool 180 (Qabs (xi0 - xo0)) then map (fun x => (Qmod (x - (xi0 - 180)) 360 + xi0 - 180)%Q) xo else xo in
        let! vo := create_vertice x_out yo in
        let p_out := make vo in
        let! d := div (inter p_in p_out) (qmin2 (area p_in) (area p_out)) in
        Some (1 - d)%Q
  | _, _, _, _ => None
  end.
(** cost_function_common_area, lines 1251-1286: the cost of each pair with its mask. *)
Definition cost_function_common_area (l : list ((list Q * list Q) * (list Q * list Q))) : option (list (Q * bool)) :=
  let! c := sequence (map (fun p => cost_one (fst (fst p)) (snd (fst p)) (fst (snd p)) (snd (snd p))) l) in
  Some (map (fun v => (v, Qeq_bool v 1)) c).

(** polygon_overlap, lines 503-525. *)
Definition polygon_overlap (p0 : poly) (p1 : list poly) (minimal_area : bool) : option (list Q) :=
  sequence (map (fun p_ =>
    let intersection := inter p0 p_ in
    if minimal_area then div intersection (qmin2 (area p0) (area p_))
    else div intersection (area (plus p0 p_))) p1).

(** merge, lines 410-434: nan is [None] in the result.  Without any contour [p] is None, which
    cannot be iterated. *)
Definition merge (l : list (list Q * list Q)) : option (list (option Q) * list (option Q)) :=
  let! v := sequence (map (fun c => create_vertice (fst c) (snd c)) l) in
  match v with
  | [] => None
  | c :: r =>
      let p := fold_left (fun p c' => plus p (make c')) r (make c) in
      let cs := contours p in
      match cs with
      | [] => None
      | _ => Some (concat (map (fun c' => [None] ++ map (fun q => Some (fst q)) c') cs), concat (map (fun c' => [None] ++ map (fun q => Some (snd q)) c') cs))
      end
  end.
(** shape_polygon, tracking.py lines 516-526; [xname yname] give the contour of a row. *)
Definition shape_polygon {A} (contour : A -> list Q * list Q) (d : ds A) : option (list (list (option Q) * list (option Q))) :=
  let! t := iter_track d in
  sequence (map (fun track => merge (map (fun r => contour (snd r)) track)) (fst t)).
End Polygons.
