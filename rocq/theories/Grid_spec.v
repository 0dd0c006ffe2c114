(** Specification of cell bounds, derivatives and pixel paths. *)
From Coq Require Import List Arith ZArith QArith Qabs Bool.
Import ListNotations.
Local Close Scope Q_scope.
Local Open Scope nat_scope.

(** Item [i] of a list of numbers. *)
Definition at_ (l : list Q) (i : nat) : Q := nth i l 0%Q.
(** Gap between centre [i] and the next one. *)
Definition gap (c : list Q) (i : nat) : Q := (at_ c (S i) - at_ c i)%Q.
(** Evenly spaced centres. *)
Definition regular (c : list Q) (step : Q) : Prop :=
  forall i, S i < length c -> (gap c i == step)%Q.

(** A polynomial: coefficients, lowest degree first; value and derivative. *)
Fixpoint value (p : list Q) (x : Q) : Q :=
  match p with [] => 0%Q | a :: p' => (a + x * value p' x)%Q end.
Fixpoint scaled (n : nat) (p : list Q) : list Q :=
  match p with [] => [] | a :: p' => (inject_Z (Z.of_nat n) * a)%Q :: scaled (S n) p' end.
Definition derivative (p : list Q) : list Q := scaled 1 (tl p).
(** Degree at most [n]. *)
Definition degree_le (p : list Q) (n : nat) : Prop := length p <= S n.

(** Two pixels touch (or are the same) on a grid of [nb] columns which wraps. *)
Definition touch (nb : Z) (p q : Z * Z) : Prop :=
  exists e : Z, (Z.abs e <= 1)%Z /\ (fst q = (fst p + e) mod nb)%Z /\ (Z.abs (snd q - snd p) <= 1)%Z.
(** Each pixel of a path touches the next one. *)
Definition connected (nb : Z) (path : list (Z * Z)) : Prop :=
  forall k p q, nth_error path k = Some p -> nth_error path (S k) = Some q -> touch nb p q.

(** Cell at [k] columns of column [i] of a line; none beyond the ends of a line
    which does not wrap. *)
Definition neighbour (circular : bool) (line : list (Q * bool)) (i : nat) (k : Z) : option (Q * bool) :=
  let n := Z.of_nat (length line) in
  let j := (Z.of_nat i + k)%Z in
  if circular then nth_error line (Z.to_nat (j mod n))
  else if ((0 <=? j) && (j <? n))%Z then nth_error line (Z.to_nat j) else None.
(** Weights of the usual centred differences: of (v 1 - v (-1)), (v 2 - v (-2)), ... *)
Definition weights (r : nat) : list Q :=
  match r with
  | 1 => [1 # 2]%Q
  | 2 => [2 # 3; - (1 # 12)]%Q
  | 3 => [3 # 4; - (3 # 20); 1 # 60]%Q
  | 4 => [4 # 5; - (1 # 5); 4 # 105; - (1 # 280)]%Q
  | _ => []
  end.
Fixpoint weighted (ws : list Q) (k : Z) (v : Z -> Q) : Q :=
  match ws with [] => 0%Q | w :: ws' => (w * (v k - v (- k)%Z) + weighted ws' (k + 1) v)%Q end.
Definition centred (r : nat) (v : Z -> Q) : Q := weighted (weights r) 1 v.
(** Values [v] of the cells around column [i] are known and not masked up to [r] columns. *)
Definition known (circular : bool) (line : list (Q * bool)) (i r : nat) (v : Z -> Q) : Prop :=
  forall k : Z, (Z.abs k <= Z.of_nat r)%Z -> neighbour circular line i k = Some (v k, false).
(** A masked cell at [k] columns on one side. *)
Definition masked_at (circular : bool) (line : list (Q * bool)) (i : nat) (k : Z) : Prop :=
  exists q, neighbour circular line i k = Some (q, true).
