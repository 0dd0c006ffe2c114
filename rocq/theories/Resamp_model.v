(** Model of the resampling of contours and profiles:
    [src/py_eddy_tracker/generic.py] uniform_resample (lines 304-327),
    [src/py_eddy_tracker/dataset/grid.py] raw_resample (lines 78-84), profile of an
    eddy (lines 869-875), mean_on_regular_contour (lines 126-135).

    Simplifications: exact rational numbers; the distance on the sphere is a
    parameter; [None] is an exception or a read out of an array. *)
From Coq Require Import List Arith Bool ZArith QArith Qminmax.
From Verif Require Import Base Corr_model Qaux.
Import ListNotations.
Local Open Scope Q_scope.

Definition nq (n : nat) : Q := inject_Z (Z.of_nat n).

(** numpy [linspace(a, b, n)]. *)
Definition linspace (a b : Q) (n : nat) : list Q :=
  if (n =? 1)%nat then [a]
  else map (fun i => if (i =? n - 1)%nat then b else a + nq i * ((b - a) / nq (n - 1))) (seq 0 n).

(** numpy [interp(x, xp, fp)] for one [x], arrays of the same size which are
    not empty. *)
Fixpoint interp_from (xp fp : list Q) (x : Q) : Q :=
  match xp, fp with
  | x0 :: ((x1 :: _) as xp'), f0 :: ((f1 :: _) as fp') =>
      if Qlt_bool x x1 then f0 + (f1 - f0) / (x1 - x0) * (x - x0) else interp_from xp' fp' x
  | _, f0 :: _ => f0
  | _, _ => 0
  end.
Definition interp (xp fp : list Q) (x : Q) : Q :=
  if Qlt_bool x (nth 0 xp 0) then nth 0 fp 0 else interp_from xp fp x.

(** [cumsum]. *)
Fixpoint cumsum (acc : Q) (l : list Q) : list Q :=
  match l with [] => [] | d :: l' => (acc + d) :: cumsum (acc + d) l' end.

Section Resample.
(** [distance(lon0, lat0, lon1, lat1)] in metres *)
Variable distance : Q * Q -> Q * Q -> Q.

(** uniform_resample, lines 317-319. *)
Fixpoint steps (l : list (Q * Q)) : list Q :=
  match l with
  | a :: ((b :: _) as l') =>
      (if Qlt_bool (distance a b) (1 # 1000) then 1 # 1000 else distance a b) :: steps l'
  | _ => []
  end.
(** Lines 313-320: [dist]. *)
Definition lengths (l : list (Q * Q)) : list Q := cumsum 0 (0 :: steps l).
(** uniform_resample, lines 313-327.  [None]: no vertex, or a negative number of
    points. *)
Definition uniform_resample (l : list (Q * Q)) (num_fac : Z) (fixed_size : Z) : option (list Q * list Q) :=
  match l with
  | [] => None
  | _ =>
      let dist := lengths l in
      let fixed_size := if (fixed_size =? -1)%Z then (Z.of_nat (length dist) * num_fac)%Z else fixed_size in
      if (fixed_size <? 0)%Z then None
      else
        let d_uniform := linspace 0 (last dist 0) (Z.to_nat fixed_size) in
        Some (map (interp dist (map fst l)) d_uniform, map (interp dist (map snd l)) d_uniform)
  end.

(** mean_on_regular_contour, lines 129-135, with [value] the interpolation on the
    grid ([None]: nan). [Some None] is nan. *)
Definition mean (l : list Q) : option Q :=
  match l with [] => None | _ => Some (Qsum l / nq (length l)) end.
Definition nan_mean (nan_remove : bool) (values : list (option Q)) : option Q :=
  if nan_remove then mean (flat_map (fun v => match v with Some q => [q] | None => [] end) values)
  else match sequence values with Some l => mean l | None => None end.
Definition mean_on_regular_contour (value : Q * Q -> option Q) (l : list (Q * Q)) (num_fac fixed_size : Z) (nan_remove : bool)
  : option (option Q) :=
  match uniform_resample l num_fac fixed_size with
  | None => None
  | Some (x_new, y_new) => Some (nan_mean nan_remove (map value (combine (tl x_new) (tl y_new))))
  end.
End Resample.

(** raw_resample, lines 79-84. *)
Definition raw_resample (datas : list Q) (fixed_size : nat) : option (list Q) :=
  let nb_value := length datas in
  if (nb_value <=? 1)%nat then None
  else
    Some (map (fun k => interp (map (fun i => nq i * (nq fixed_size - 1) / (nq nb_value - 1)) (seq 0 nb_value)) datas (nq k)) (seq 0 fixed_size)).
(** uavg_profile of an eddy, grid.py lines 869-875: an array of [sampling] values. *)
Definition profile (speed_array : list Q) (sampling : nat) : option (list Q) :=
  match speed_array with [v] => Some (repeat v sampling) | _ => raw_resample speed_array sampling end.
