(** Model of the kernels of the filters, src/py_eddy_tracker/dataset/grid.py:
    finalize_kernel. *)
From Coq Require Import List Arith ZArith QArith Bool.
From Verif Require Import Base.
Import ListNotations.
Local Close Scope Q_scope.
Local Open Scope nat_scope.

Definition nonzero (q : Q) : bool := negb (Qeq_bool q 0).
(** finalize_kernel, lines 1375-1386: [kernel] holds the columns from the centre
    eastward.  [None] when it has not the announced shape or when all its weights
    are zero. *)
Definition finalize_kernel (kernel : list (list Q)) (order half_x half_y : nat) : option (list (list Q)) :=
  let w := half_y * 2 * order + 1 in
  if negb (length kernel =? half_x * order + 1) || negb (forallb (fun row => length row =? w) kernel) then None
  else
    let k := rev (tl kernel) ++ kernel in
    let x_valid := where_ (map (existsb nonzero) k) in
    let y_valid := where_ (map (fun c => existsb (fun row => nonzero (nth c row 0%Q)) k) (seq 0 w)) in
    let! x0 := nth_error x_valid 0 in
    let! y0 := nth_error y_valid 0 in
    let x1 := last x_valid 0 in
    let y1 := last y_valid 0 in
    Some (map (fun row => slice row y0 (y1 + 1)) (slice k x0 (x1 + 1))).
