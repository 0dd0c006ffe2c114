(** Model of the fit of an ellipse: [src/py_eddy_tracker/poly.py] fit_ellipse (lines
    575-610), on real numbers.

    Simplifications: exact real numbers; [lstsq] of numpy is a parameter; [None] is a
    division by zero (ZeroDivisionError in numba) or nan; the message of line 599 is left
    out. *)
From Coq Require Import List Reals.
Import ListNotations.
Local Open Scope R_scope.

Definition pt := (R * R)%type.
Definition coefs := (R * R * R * R * R)%type.
(** Lines 590-595: one row of [datas]. *)
Definition row (p : pt) : coefs := (fst p ^ 2, fst p * snd p, snd p ^ 2, fst p, snd p).
(** [z ** 0.5]. *)
Definition root (z : R) : option R := if Rlt_dec z 0 then None else Some (sqrt z).

Section Fit.
(** [lstsq(rows, values)[0]] *)
Variable lstsq : list coefs -> list R -> coefs.
(** fit_ellipse, lines 589-610. *)
Definition fit_ellipse (l : list pt) : option (R * R * R * R * R) :=
  let '(a, b, c, d, e) := lstsq (map row l) (map (fun _ => 1) l) in
  let det := b ^ 2 - 4 * a * c in
  if Req_EM_T det 0 then None
  else
    let x0 := (2 * c * d - b * e) / det in
    let y0 := (2 * a * e - b * d) / det in
    let AB1 := 2 * (a * e ^ 2 + c * d ^ 2 - b * d * e - det) in
    let AB2 := a + c in
    let AB3 := sqrt ((a - c) ^ 2 + b ^ 2) in
    match root (AB1 * (AB2 + AB3)), root (AB1 * (AB2 - AB3)) with
    | Some s1, Some s2 =>
        let A := - s1 / det in
        let B := - s2 / det in
        if Req_EM_T b 0 then None
        else
          let theta := atan ((c - a - AB3) / b) in
          Some (x0, y0, A, B, theta)
    | _, _ => None
    end.
End Fit.
