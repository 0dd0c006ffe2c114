(** Model of the weights of the filters: [src/py_eddy_tracker/dataset/grid.py]
    check_order (lines 1339-1342), get_step_in_km (lines 1344-1354),
    estimate_kernel_shape (lines 1356-1373), kernel_lanczos (lines 1388-1399),
    kernel_loess (lines 1401-1417), kernel_bessel (lines 1419-1431), before
    finalize_kernel (modelled in Kern_model.v), on real numbers.

    Simplifications: exact real numbers; [None] is an exception or a result made of nan;
    orders below 1 after line 1342 (line 1341 only warns) are [None]. *)
From Coq Require Import List Arith Bool ZArith Reals.
From Verif Require Import Base Sph_model.
Import ListNotations.
Local Open Scope R_scope.

(** [ceil]. *)
Definition ceilR (x : R) : Z := (- Int_part (- x))%Z.
(** numpy [arange(start, stop, step)]. *)
Definition arange (start stop step : R) : list R :=
  map (fun i => start + INR i * step) (seq 0 (Z.to_nat (ceilR ((stop - start) / step)))).
(** check_order, line 1342. *)
Definition check_order (order : R) : Z := ceilR order.

Section Weights.
Variables xstep ystep : R.
(** get_step_in_km, lines 1345-1354. *)
Definition get_step_in_km (lat wave_length : R) : option (R * R) :=
  let step_y_km := ystep * distance 0 0 0 1 / 1000 in
  let step_x_km := xstep * distance 0 lat 1 lat / 1000 in
  let min_wave_length := Rmax step_x_km step_y_km * 2 in
  if Rlt_dec wave_length min_wave_length then None else Some (step_x_km, step_y_km).
(** estimate_kernel_shape, lines 1357-1373; a null step (at a pole) gives an infinite
    size. *)
Definition estimate_kernel_shape (lat wave_length : R) (order : Z) : option (Z * Z * list (list R)) :=
  let! (step_x_km, step_y_km) := get_step_in_km lat wave_length in
  if Req_EM_T step_x_km 0 then None
  else if Req_EM_T step_y_km 0 then None
  else
    let half_x_pt := ceilR (wave_length / step_x_km) in
    let half_y_pt := ceilR (wave_length / step_y_km) in
    let y := arange (lat - ystep * IZR half_y_pt * IZR order) (lat + ystep * IZR half_y_pt * IZR order + 1 / 100 * ystep) ystep in
    let x := arange 0 (xstep * IZR half_x_pt * IZR order + 1 / 100 * xstep) xstep in
    Some (half_x_pt, half_y_pt, map (fun x => map (fun y => distance 0 lat x y / 1000 / wave_length) y) x).

(** numpy [sinc]. *)
Definition sinc (x : R) : R := if Req_EM_T x 0 then 1 else sin (PI * x) / (PI * x).
(** The part which is common to the three kernels: [weight order centre d] is the weight of
    one cell at distance [d] ([centre]: the cell [0, half_y_pt * order]), lines 1398,
    1416 and 1430 put 0 over the order. *)
Definition kernel (weight : Z -> bool -> R -> R) (lat wave_length : R) (order : R) : option (Z * Z * list (list R)) :=
  let order := check_order order in
  if (order <? 1)%Z then None
  else
    let! (half_x_pt, half_y_pt, dist_norm) := estimate_kernel_shape lat wave_length order in
    let c := Z.to_nat (half_y_pt * order) in
    let cell i j d := if Rlt_dec (IZR order) d then 0 else weight order ((i =? 0)%nat && (j =? c)%nat) d in
    Some (half_x_pt, half_y_pt,
      map (fun '(i, row) => map (fun '(j, d) => cell i j d) (combine (seq 0 (length row)) row)) (combine (seq 0 (length dist_norm)) dist_norm)).
(** kernel_lanczos, lines 1393-1399. *)
Definition kernel_lanczos := kernel (fun order _ d => sinc (d / IZR order) * sinc d).
(** kernel_loess, lines 1405-1417. *)
Definition kernel_loess := kernel (fun _ _ d => (1 - Rabs d ^ 3) ^ 3).
(** kernel_bessel, lines 1423-1431; [j1] of scipy is a parameter; line 1429: the centre. *)
Definition kernel_bessel (j1 : R -> R) :=
  kernel (fun order centre d => if centre then PI else sinc (d / IZR order) * j1 (2 * PI * d) / d).
End Weights.
