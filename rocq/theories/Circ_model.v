(** Model of the fit of a circle on a contour: [src/py_eddy_tracker/poly.py]
    fit_circle (lines 528-572), fit_circle_ (lines 614-669), shape_error (lines
    673-703), poly_area (lines 86-100), on real numbers.

    Simplifications: exact real numbers instead of floats; [lstsq] of numpy is a
    parameter; [None] is an exception or a result made of nan. *)
From Coq Require Import List Reals.
From Verif Require Import Base Corr_model.
Import ListNotations.
Local Open Scope R_scope.

Definition pt := (R * R)%type.

(** Sum of [f] on the elements. *)
Fixpoint sumf {A} (f : A -> R) (l : list A) : R :=
  match l with [] => 0 | a :: l' => f a + sumf f l' end.
(** [mean], [max] of an array which is not empty. *)
Definition mean {A} (f : A -> R) (l : list A) : R := sumf f l / INR (length l).
Fixpoint maxf {A} (f : A -> R) (l : list A) : R :=
  match l with [] => 0 | [a] => f a | a :: l' => Rmax (f a) (maxf f l') end.

(** poly_area, lines 86-100: loop of lines 98-99, then the whole. *)
Fixpoint area_from (l : list pt) : R :=
  match l with
  | a :: ((b :: c :: _) as l') => fst b * (snd c - snd a) + area_from l'
  | _ => 0
  end.
Definition poly_area (l : list pt) : R :=
  Rabs (fst (nth 0 l (0, 0)) * (snd (nth 1 l (0, 0)) - snd (nth (length l - 2) l (0, 0))) + area_from l) * (1 / 2).

(** shape_error, lines 695-702: a vertex out of the circle is moved on it.  A
    division by zero is an error: vertex on the centre. *)
Definition pull (x0 y0 r : R) (p : pt) : option pt :=
  let dx := fst p - x0 in
  let dy := snd p - y0 in
  let d := sqrt (dx ^ 2 + dy ^ 2) in
  if Req_EM_T d 0 then None
  else
    let rd := r / d in
    Some (if Rlt_dec rd 1 then (x0 + dx * rd, y0 + dy * rd) else p).
(** Lines 692-693 and 703; an array of one vertex has no [y[1]]. *)
Definition shape_error (l : list pt) (x0 y0 r : R) : option R :=
  let c_area := r ^ 2 * PI in
  if (length l <? 2)%nat then None
  else
    let! l' := sequence (map (pull x0 y0 r) l) in
    if Req_EM_T c_area 0 then None
    else Some (100 + (poly_area l - 2 * poly_area l') / c_area * 100).

Section Fit.
(** [lstsq(rows, values)[0]] *)
Variable lstsq : list (R * R * R) -> list R -> R * R * R.

(** fit_circle, lines 540-572.  The first vertex, which is also the last one, is
    left out.  Without another vertex [norme.max()] fails; when all the
    vertices are at the same place the rows are nan. *)
Definition fit_circle (l : list pt) : option (R * R * R * R) :=
  let t := tl l in
  if (length t =? 0)%nat then None
  else
    let x_mean := mean fst t in
    let y_mean := mean snd t in
    let norme p := (fst p - x_mean) ^ 2 + (snd p - y_mean) ^ 2 in
    let norme_max := maxf norme t in
    let scale := sqrt norme_max in
    if Req_EM_T norme_max 0 then None
    else
      let rows := map (fun p => (2 * (fst p - x_mean) / scale, 2 * (snd p - y_mean) / scale, 1)) t in
      let '(x0, y0, radius) := lstsq rows (map (fun p => norme p / norme_max) t) in
      let radius := radius + (x0 ^ 2 + y0 ^ 2) in
      let radius := sqrt radius in
      let x0 := x0 * scale in
      let y0 := y0 * scale in
      let radius := radius * scale in
      let x0 := x0 + x_mean in
      let y0 := y0 + y_mean in
      let! err := shape_error l x0 y0 radius in
      Some (x0, y0, radius, err).

(** fit_circle_, lines 659-669. *)
Definition fit_circle_ (l : list pt) : option (R * R * R * R) :=
  let t := tl l in
  if (length t =? 0)%nat then None
  else
    let rows := map (fun p => (fst p, snd p, 1)) t in
    let '(a, b, c) := lstsq rows (map (fun p => fst p ^ 2 + snd p ^ 2) t) in
    let x0 := a / 2 in
    let y0 := b / 2 in
    let radius := sqrt (c + x0 ^ 2 + y0 ^ 2) in
    let! err := shape_error l x0 y0 radius in
    Some (x0, y0, radius, err).
End Fit.
