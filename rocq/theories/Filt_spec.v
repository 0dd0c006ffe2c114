(** Vocabulary of the properties on filters of grids; nothing here is taken
    from the code. *)
From Coq Require Import List Arith ZArith QArith Qabs.
From Verif Require Import Base Spec.
Import ListNotations.
Local Close Scope Q_scope.
Local Open Scope nat_scope.

(** A filtered value: masked, not a finite number (a division by zero) or a value. *)
Inductive filtered := Masked | Nan | Val (q : Q).
(** Value of the grid at column [x] and line [y]: none outside the grid or for a
    masked cell.  Columns are taken modulo the number of columns on a circular
    grid. *)
Definition value_at (circular : bool) (data : list (list (option Q))) (x y : Z) : option Q :=
  let x := if circular then (x mod Z.of_nat (length data))%Z else x in
  if (x <? 0)%Z || (y <? 0)%Z then None
  else match nth_error data (Z.to_nat x) with
       | None => None
       | Some row => match nth_error row (Z.to_nat y) with Some (Some v) => Some v | _ => None end
       end.
(** Sum over the positions of a kernel of [2 * dx + 1] columns and [2 * dy + 1]
    lines; positions are counted from its centre. *)
Definition span (d : nat) : list Z := map (fun a => (Z.of_nat a - Z.of_nat d)%Z) (seq 0 (2 * d + 1)).
Definition over (dx dy : nat) (f : Z -> Z -> Q) : Q := fold_right Qplus 0%Q (map (fun p => f (fst p) (snd p)) (list_prod (span dx) (span dy))).
(** Weight of the kernel at a position from its centre. *)
Definition weight (kernel : list (list Q)) (dx dy : nat) (a b : Z) : Q := nth (Z.to_nat (b + Z.of_nat dy)) (nth (Z.to_nat (a + Z.of_nat dx)) kernel []) 0%Q.
(** Sum of the weights of the values around a cell, and of their products. *)
Definition around_weight (circular : bool) data kernel dx dy (x y : nat) : Q :=
  over dx dy (fun a b => match value_at circular data (Z.of_nat x + a) (Z.of_nat y + b) with None => 0%Q | Some _ => weight kernel dx dy a b end).
Definition around_sum (circular : bool) data kernel dx dy (x y : nat) : Q :=
  over dx dy (fun a b => match value_at circular data (Z.of_nat x + a) (Z.of_nat y + b) with None => 0%Q | Some v => (weight kernel dx dy a b * v)%Q end).
(** A kernel of odd size, with one column at least on each side. *)
Definition odd_kernel (kernel : list (list Q)) (dx dy : nat) : Prop := 1 <= dx /\ rect (2 * dx + 1) (2 * dy + 1) kernel.
(** The sum of all the weights of the kernel. *)
Definition total_weight (kernel : list (list Q)) (dx dy : nat) : Q := over dx dy (weight kernel dx dy).
(** The value of a filtered cell: the mean of the values around it, weighted by
    the kernel.  Without [extend] a masked cell stays masked; with [extend] a cell
    is masked when the weights found around it are less than this part of the
    kernel. *)
Definition mean_around (circular : bool) data kernel dx dy (extend : option Q) (x y : nat) (c : filtered) : Prop :=
  let w := around_weight circular data kernel dx dy x y in
  let s := around_sum circular data kernel dx dy x y in
  let masked := match extend with None => value_at circular data (Z.of_nat x) (Z.of_nat y) = None | Some e => (w < e * total_weight kernel dx dy)%Q end in
  (masked -> c = Masked) /\ (~ masked -> (w == 0)%Q -> c = Nan) /\ (~ masked -> ~ (w == 0)%Q -> exists q, c = Val q /\ (q == s / w)%Q).
(** Every latitude to filter has a kernel of odd size, not wider than twice a
    circular grid. *)
Definition kernels_ok (circular : bool) (nx : nat) (lats : list Q) (lat_max : Q) (kernel : Q -> option (list (list Q))) : Prop :=
  forall lat, In lat lats -> (Qabs lat <= lat_max)%Q -> exists K dx dy, kernel lat = Some K /\ odd_kernel K dx dy /\ (circular = true -> dx <= nx).
(** Cell at column [x] of line [y] of the filtered grid. *)
Definition cell_of {A} (out : list (list A)) (x y : nat) (c : A) : Prop := exists line, nth_error out y = Some line /\ nth_error line x = Some c.
(** Two filtered cells with the same value. *)
Definition same_cell (c c' : filtered) : Prop :=
  match c, c' with Masked, Masked => True | Nan, Nan => True | Val q, Val q' => (q == q')%Q | _, _ => False end.
(** The grid read from column [s], the columns before it put at the end. *)
Definition turned {A} (s : nat) (data : list A) : list A := skipn s data ++ firstn s data.
