(** Vocabulary of the properties on selections of observations; nothing here is
    taken from the code. *)
From Coq Require Import List Arith ZArith QArith Qround.
From Verif Require Import Base Spec.
Import ListNotations.
Local Close Scope Q_scope.
Local Open Scope nat_scope.

(** [out] holds exactly the observations of [rows] (with all their fields) whose
    position and content meet [P], in the order of [rows]. *)
Definition picks {A} (P : nat -> A -> Prop) (rows out : list A) : Prop :=
  exists ix, incr ix /\ (forall i, In i ix <-> exists r, nth_error rows i = Some r /\ P i r) /\
    map (nth_error rows) ix = map Some out.

(** Strictly between the latitudes, and strictly between the longitudes after
    some number of whole turns, counted within one turn of the western edge. *)
Definition in_box (x0 y0 x1 y1 : Q) (x y : Q) : Prop :=
  (y0 < y /\ y < y1)%Q /\ exists k, let x' := (x + 360 * inject_Z k)%Q in (x0 < x' /\ x' < x1 /\ x' < x0 + 360)%Q.
(** On a meridian, after some number of whole turns. *)
Definition on_meridian (xm : Q) (x : Q) : Prop := exists k, (x + 360 * inject_Z k == xm)%Q.

(** The row [i] is the first (the last) of its track. *)
Definition starts_track {A} (track : A -> Z) (rows : list A) (i : nat) : Prop :=
  forall j r r', i = S j -> nth_error rows j = Some r' -> nth_error rows i = Some r -> track r' <> track r.
Definition ends_track {A} (track : A -> Z) (rows : list A) (i : nat) : Prop :=
  forall r r', nth_error rows i = Some r -> nth_error rows (S i) = Some r' -> track r <> track r'.
(** The observation number is zero exactly on the first row of each track. *)
Definition numbered {A} (track n : A -> Z) (rows : list A) : Prop :=
  forall i r, nth_error rows i = Some r -> (n r = 0%Z <-> starts_track track rows i).

(** Bin [i] of [bins]: from its left edge to its right edge excluded, included
    for the last bin. *)
Definition bin_holds (bins : list Q) (i : nat) (v : Q) : Prop :=
  exists a b, nth_error bins i = Some a /\ nth_error bins (S i) = Some b /\
    (a <= v)%Q /\ ((v < b)%Q \/ (S (S i) = length bins /\ v == b)%Q).
Definition qnat (n : nat) : Q := inject_Z (Z.of_nat n).
(** The values of the pairs whose first member is in bin [i]. *)
Definition bin_values (bins : list Q) (i : nat) (xw : list (Q * Q)) (ws : list Q) : Prop :=
  exists p, (forall v, p v = true <-> bin_holds bins i v) /\ ws = map snd (filter (fun e => p (fst e)) xw).
(** Mean of a list which is not empty. *)
Definition mean_of (ws : list Q) (q : Q) : Prop := ws <> [] /\ (q * qnat (length ws) == fold_right Qplus 0 ws)%Q.
(** Between the first and the last edge, both included. *)
Definition within (bins : list Q) (v : Q) : Prop :=
  exists a b, nth_error bins 0 = Some a /\ nth_error bins (length bins - 1) = Some b /\ (a <= v /\ v <= b)%Q.
