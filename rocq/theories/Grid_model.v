(** Model of src/py_eddy_tracker/dataset/grid.py: bounds of cells, finite
    differences and pixel paths.  Floats are exact rationals. *)
From Coq Require Import List Arith ZArith QArith Qround Qabs Bool.
From Verif Require Import Base Qaux Corr_model Split_model.
Import ListNotations.
Local Close Scope Q_scope.
Local Open Scope nat_scope.

(** ** Bounds of cells *)

(** [b[1:] - b[:-1]], line 438. *)
Fixpoint diffs (b : list Q) : list Q :=
  match b with
  | x :: (y :: _) as r => (y - x)%Q :: diffs r
  | _ => []
  end.
(** [bounds[:-1] -= d / 2], line 439. *)
Fixpoint sub_half (b d : list Q) : list Q :=
  match b, d with
  | x :: b', y :: d' => (x - y / 2)%Q :: sub_half b' d'
  | _, _ => b
  end.
(** UnRegularGridDataset.c_to_bounds, lines 429-441; [None]: c[-2] raises. *)
Definition c_to_bounds (c : list Q) : option (list Q) :=
  let! z := pyget c (-1) in
  let! y := pyget c (-2) in
  let bounds := c ++ [(2 * z - y)%Q] in
  let d := diffs bounds in
  let bounds := sub_half bounds d in
  let! e := pyget bounds (-1) in
  let! de := pyget d (-1) in
  pystore bounds (-1) (e - de / 2)%Q.

(** ** Circular grid *)

(** Lines 2047-2055 and 2938: [abs(x[-1] % 360 - (x[0] - d_step) % 360) < 1e-5]
    with d_step = x[1] - x[0]. *)
Definition is_circular (x : list Q) : option bool :=
  let! a := pyget x 0 in
  let! b := pyget x 1 in
  let! z := pyget x (-1) in
  let d_step := (b - a)%Q in
  Some (Qlt_bool (Qabs (Qmod z 360 - Qmod (a - d_step) 360)) (1 # 100000)).

(** ** Finite differences *)

(** A value with its mask. *)
Notation cell := (Q * bool)%type.

(** compute_stencil, lines 2970-3009: value at the centre of a window of nine
    cells; [None]: masked (the value is not set).  The outer [option] is for a
    window of another size. *)
Definition stencil_at (halfwidth : nat) (d : Q) (w : list cell) : option (option Q) :=
  match w with
  | [(h_4, m_4); (h_3, m_3); (h_2, m_2); (h_1, m_1); (h0, m0); (h1, m1); (h2, m2); (h3, m3); (h4, m4)] =>
      if m0 then Some None else
      if xorb m1 m_1 then
        if m_1 then Some (Some ((h1 - h0) * d)%Q) else Some (Some ((h0 - h_1) * d)%Q) else
      if m2 || m_2 || (halfwidth =? 1) then Some (Some ((h1 - h_1) / 2 * d)%Q) else
      if m3 || m_3 || (halfwidth =? 2) then Some (Some ((h_2 - h2 + 8 * (h1 - h_1)) / 12 * d)%Q) else
      if m4 || m_4 || (halfwidth =? 3)
      then Some (Some ((h3 - h_3 + 9 * (h_2 - h2) + 45 * (h1 - h_1)) / 60 * d)%Q)
      else Some (Some ((3 * (h_4 - h4) + 32 * (h3 - h_3) + 168 * (h_2 - h2) + 672 * (h1 - h_1)) / 840 * d)%Q)
  | _ => None
  end.

(** Lines 2956-2968: the value which enters the window at step [i]; beyond the
    end of a line which is not circular the last value stays, without mask. *)
Definition entering (circular : bool) (line before : list cell) (i : nat) : option cell :=
  if length line <=? i + 4 then
    if circular then nth_error line ((i + 4) mod length line)
    else let! c := nth_error before 7 in Some (fst c, false)
  else nth_error line (i + 4).

(** Lines 2951-3009: one line; [before] holds the cells h_3 .. h4 before the
    roll.  Returns the values and the cells left for the next line. *)
Fixpoint stencil_line (circular : bool) (halfwidth : nat) (d : Q) (line : list cell) (is : list nat) (before : list cell)
  : option (list (option Q) * list cell) :=
  match is with
  | [] => Some ([], before)
  | i :: is' =>
      let! c := entering circular line before i in
      let w := before ++ [c] in
      let! v := stencil_at halfwidth d w in
      let! r := stencil_line circular halfwidth d line is' (tl w) in
      Some (v :: fst r, snd r)
  end.

(** Lines 2943-2950: the cells before the first roll.  [left] are the values of
    h_3, h_2, h_1, h0 left by the line before (not set on the first line). *)
Definition first_cells (circular : bool) (line : list cell) (left : list Q) : option (list cell) :=
  let! past :=
    if circular then
      let! a := pyget line (-4) in let! b := pyget line (-3) in let! c := pyget line (-2) in let! e := pyget line (-1) in
      Some [a; b; c; e]
    else Some (map (fun q => (q, false)) left) in
  let! a := nth_error line 0 in let! b := nth_error line 1 in let! c := nth_error line 2 in let! e := nth_error line 3 in
  Some (past ++ [a; b; c; e]).

(** Lines 2942-3009: all the lines, each with its factor d_ (lines 2941, 2975;
    a value of the trigonometric functions, hence given).  [left] is what the
    registers hold before the first line. *)
Fixpoint stencil_lines (circular : bool) (halfwidth : nat) (lines : list (Q * list cell)) (left : list Q)
  : option (list (list (option Q))) :=
  match lines with
  | [] => Some []
  | (d, line) :: lines' =>
      let! b := first_cells circular line left in
      let! r := stencil_line circular halfwidth d line (seq 0 (length line)) b in
      let! rest := stencil_lines circular halfwidth lines' (map fst (firstn 4 (snd r))) in
      Some (fst r :: rest)
  end.

(** Lines 2929-2939: lines along the direction of the derivative ([vertical]:
    the transposed matrix, never circular). *)
Definition compute_stencil (x : list Q) (vertical : bool) (halfwidth : nat) (lines : list (Q * list cell)) (left : list Q)
  : option (list (list (option Q))) :=
  let! circular := (if vertical then Some false else is_circular x) in
  stencil_lines circular halfwidth lines left.

(** ** Pixel paths *)

(** numpy's [round_]: to the nearest integer, half to even. *)
Definition qround (q : Q) : Z :=
  let f := Qfloor q in
  let r := (q - inject_Z f)%Q in
  if Qlt_bool r (1 # 2) then f
  else if Qlt_bool (1 # 2) r then (f + 1)%Z
  else if Z.even f then f else (f + 1)%Z.

(** [arange(a, a + d + sup, sup)] with sup the sign of [d] (lines 2295-2297). *)
Definition arange_to (a d : Z) : list Z :=
  let sup := (if d <? 0 then -1 else 1)%Z in
  map (fun k => (a + sup * Z.of_nat k)%Z) (seq 0 (Z.to_nat (Z.abs d) + 1)).

(** Lines 2272-2275: shortest difference of columns. *)
Definition wrap_dx (nb_x dx : Z) : Z := ((dx + nb_x / 2) mod nb_x - nb_x / 2)%Z.

(** Lines 2276-2283: number of moves of a path. *)
Definition pixel_delta (nb_x i_x0 i_y0 i_x1 i_y1 : Z) : Z :=
  Z.max (Z.abs (wrap_dx nb_x (i_x1 - i_x0))) (Z.abs (i_y1 - i_y0)).

(** compute_pixel_path, lines 2284-2319, for one path between two pixels.  A
    float stored in an integer array is truncated toward zero. *)
Definition pixel_path (nb_x i_x0 i_y0 i_x1 i_y1 : Z) : list (Z * Z) :=
  let d_x := wrap_dx nb_x (i_x1 - i_x0) in
  let delta := pixel_delta nb_x i_x0 i_y0 i_x1 i_y1 in
  let i_x1 := (i_x0 + d_x)%Z in
  let d_y := (i_y1 - i_y0)%Z in
  let n := Z.to_nat delta + 1 in
  let ij :=
    if (delta =? 0)%Z then (repeat i_x0 n, repeat i_y0 n)
    else if (d_x =? 0)%Z then (repeat i_x0 n, arange_to i_y0 d_y)
    else if (d_y =? 0)%Z then (arange_to i_x0 d_x, repeat i_y0 n)
    else
      let a := (inject_Z (i_x1 - i_x0) / inject_Z (i_y1 - i_y0))%Q in
      if (Z.abs d_y <=? Z.abs d_x)%Z then
        let value := arange_to i_x0 d_x in
        (value, map (fun v => trunc (inject_Z (v - i_x0) / a + inject_Z i_y0)%Q) value)
      else
        let value := arange_to i_y0 d_y in
        (map (fun v => trunc (inject_Z (v - i_y0) * a + inject_Z i_x0)%Q) value, value) in
  combine (map (fun i => (i mod nb_x)%Z) (fst ij)) (snd ij).

(** Lines 2262-2271: pixels of positions. *)
Definition pixel_x (x_ori x_step x : Q) : Z := qround (Qmod (x - x_ori) 360 / x_step)%Q.
Definition pixel_y (y_ori y_step y : Q) : Z := qround ((y - y_ori) / y_step)%Q.

(** A segment: x0, y0, x1, y1. *)
Notation segment := ((Q * Q) * (Q * Q))%type.
Definition on_segment {A} (x_ori y_ori x_step y_step : Q) (f : Z -> Z -> Z -> Z -> A) (s : segment) : A :=
  f (pixel_x x_ori x_step (fst (fst s))) (pixel_y y_ori y_step (snd (fst s)))
    (pixel_x x_ori x_step (fst (snd s))) (pixel_y y_ori y_step (snd (snd s))).

(** compute_pixel_path, lines 2254-2320: the paths one after the other and the
    number of moves of each. *)
Definition compute_pixel_path (x_ori y_ori x_step y_step : Q) (nb_x : Z) (segs : list segment)
  : list (Z * Z) * list nat :=
  (concat (map (on_segment x_ori y_ori x_step y_step (pixel_path nb_x)) segs),
   map (fun s => Z.to_nat (on_segment x_ori y_ori x_step y_step (pixel_delta nb_x) s)) segs).

(** featured_tracking/old_tracker_reference.py, across_ground, lines 44-55: for
    each segment, may the link be kept?  [ground] reads the mask of the ground
    ([None]: index out of the grid, an error). *)
Definition across_ground (x_ori y_ori x_step y_step : Q) (nb_x : Z) (ground : Z * Z -> option bool) (segs : list segment)
  : option (list bool) :=
  let r := compute_pixel_path x_ori y_ori x_step y_step nb_x segs in
  let! data := sequence (map ground (fst r)) in
  let owner := repeat_by (seq 0 (length segs)) (map (fun d => d + 1) (snd r)) in
  let i_ground := map fst (filter snd (combine owner data)) in
  Some (map (fun k => negb (existsb (Nat.eqb k) i_ground)) (seq 0 (length segs))).
