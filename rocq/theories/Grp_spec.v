(** Vocabulary of the properties on groups of observations. *)
From Coq Require Import List Arith ZArith QArith.
From Verif Require Import Base Corr_spec Grp_model.
Import ListNotations.
Local Close Scope Q_scope.
Local Open Scope nat_scope.

(** [m] time steps [dt] are missing between row [i] and the next one. *)
Definition gap (skip_zero : bool) (dt : Q) (time : list Q) (track : list nat) (i m : nat) : Prop :=
  (exists t0 t1 g, nth_error time i = Some t0 /\ nth_error time (S i) = Some t1 /\ nth_error track i = Some g /\ nth_error track (S i) = Some g /\
     (skip_zero = true -> g <> 0) /\ (dt < t1 - t0)%Q /\
     (inject_Z (Z.of_nat m + 1) * dt <= t1 - t0)%Q /\ (t1 - t0 < inject_Z (Z.of_nat m + 2) * dt)%Q) \/
  (m = 0 /\ forall t0 t1 g, nth_error time i = Some t0 -> nth_error time (S i) = Some t1 -> nth_error track i = Some g -> nth_error track (S i) = Some g ->
     (skip_zero = true -> g <> 0) -> (t1 - t0 <= dt)%Q).

(** Row of the new dataset holding row [i] when [gaps] rows are inserted after
    each row. *)
Definition moved (gaps : list nat) (i : nat) : nat := i + block gaps i.
(** [new] is [old] with [gaps] values inserted after each one. *)
Definition inserted {A} (gaps : list nat) (old new : list A) (value : nat -> nat -> A -> Prop) : Prop :=
  length new = length old + sum_list gaps /\
  forall i m v, nth_error gaps i = Some m -> nth_error old i = Some v ->
    nth_error new (moved gaps i) = Some v /\
    forall k, 1 <= k <= m -> exists x, nth_error new (moved gaps i + k) = Some x /\ value i k x.
(** Values equally spaced between the two rows around the gap. *)
Definition spaced (gaps : list nat) (old : list Q) (i k : nat) (x : Q) : Prop :=
  exists m v w, nth_error gaps i = Some m /\ nth_error old i = Some v /\ nth_error old (S i) = Some w /\
    (x == v + (w - v) * inject_Z (Z.of_nat k) / inject_Z (Z.of_nat m + 1))%Q.

(** Number of particles from start eddy [i], and of those which end in [j]. *)
Definition from_eddy (i_start : list nat) (i : nat) : nat := length (filter (fun s => s =? i) i_start).
Definition from_to (i_start : list nat) (i_end : list (option nat)) (i j : nat) : nat :=
  length (filter (fun p => (fst p =? i) && match snd p with Some e => e =? j | None => false end)%bool (combine i_start i_end)).
Definition percent (i_start : list nat) (i_end : list (option nat)) (i j : nat) : Q :=
  (inject_Z (Z.of_nat (from_to i_start i_end i j)) / inject_Z (Z.of_nat (from_eddy i_start i)) * 100)%Q.

(** The two best targets among the ones [reach]ed, of percentages [p], when the
    percentages are kept by [st]; among equal ones the first is taken. *)
Definition two_best (st : Q -> Q) (reach : nat -> Prop) (p : nat -> Q) (b : best2) : Prop :=
  match b_t0 b with
  | None => (forall j, ~ reach j) /\ b_p0 b = 0%Q /\ b_t1 b = None /\ b_p1 b = 0%Q
  | Some a =>
      reach a /\ b_p0 b = st (p a) /\ (forall j, reach j -> (st (p j) <= st (p a))%Q) /\ (forall j, reach j -> j < a -> (st (p j) < p a)%Q) /\
      match b_t1 b with
      | None => (forall j, reach j -> j = a) /\ b_p1 b = 0%Q
      | Some c => c <> a /\ reach c /\ b_p1 b = st (p c) /\ (forall j, reach j -> j <> a -> (st (p j) <= st (p c))%Q) /\
          (forall j, reach j -> j <> a -> j < c -> (st (p j) < p c)%Q)
      end
  end.
(** What is kept is monotone and keeping it twice changes nothing. *)
Definition keeping (st : Q -> Q) : Prop := (forall a b, (a <= b)%Q -> (st a <= st b)%Q) /\ forall a, (st (st a) == st a)%Q.

(** Particles of start eddy [i] end in [j]. *)
Definition reached (i_start : list nat) (i_end : list (option nat)) (nb_end i j : nat) : Prop := j < nb_end /\ 0 < from_to i_start i_end i j.
(** Targets named in the full dataset. *)
Definition renamed (names : list nat) (b : best2) : best2 :=
  Best2 (option_map (fun j => nth j names 0) (b_t0 b)) (b_p0 b) (option_map (fun j => nth j names 0) (b_t1 b)) (b_p1 b).
(** Targets among the first [n]. *)
Definition targets_below (n : nat) (b : best2) : Prop := (forall j, b_t0 b = Some j -> j < n) /\ (forall j, b_t1 b = Some j -> j < n).

(** Track [t] has an observation at the date. *)
Definition lives (tracks : list nat) (time : list Q) (t : nat) (date : Q) : Prop := exists a d, nth_error tracks a = Some t /\ nth_error time a = Some d /\ (d == date)%Q.

(** What row [p] of date [d] receives: its targets among the rows dated
    [d + dt], found by [step] from the rows dated [d]. *)
Definition receives (ds : list Z) (step : Z -> list nat -> list nat -> option (list best2)) (dt d : Z) (p : nat) (b : best2) : Prop :=
  exists i0 i1 local k b0, NoDup i0 /\ (forall q, In q i0 <-> nth_error ds q = Some d) /\ (forall q, In q i1 <-> nth_error ds q = Some (d + dt)%Z) /\
    step d i0 i1 = Some local /\ nth_error i0 k = Some p /\ nth_error local k = Some b0 /\ b = renamed i1 b0.
