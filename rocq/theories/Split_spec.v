(** What the splitting of a group in segments means.  [time]: step of each
    observation; [cost i j]: overlap of the contours of [i] and [j], 0 when
    they do not meet. *)
From Coq Require Import List Arith ZArith QArith.
Import ListNotations.
Local Close Scope Q_scope.
Local Open Scope nat_scope.

(** [j] is the best of the observations of its date for [i], the first one
    when several are equal. *)
Definition best_of_date (time : list Z) (cost : nat -> nat -> Q) (i j : nat) (tj : Z) : Prop :=
  (0 < cost i j)%Q /\
  forall k, nth_error time k = Some tj -> (cost i k <= cost i j)%Q /\ (k < j -> (cost i k < cost i j)%Q).

(** [j] is what follows [i]: the best one of the nearest later date, at most
    [window] steps away, where something overlaps. *)
Definition follows (time : list Z) (cost : nat -> nat -> Q) (window : Z) (i j : nat) : Prop :=
  exists ti tj, nth_error time i = Some ti /\ nth_error time j = Some tj /\ (ti < tj <= ti + window)%Z /\
    best_of_date time cost i j tj /\
    forall k tk, nth_error time k = Some tk -> (ti < tk < tj)%Z -> (cost i k == 0)%Q.

(** The same toward the past. *)
Definition precedes (time : list Z) (cost : nat -> nat -> Q) (window : Z) (i j : nat) : Prop :=
  exists ti tj, nth_error time i = Some ti /\ nth_error time j = Some tj /\ (ti - window <= tj < ti)%Z /\
    best_of_date time cost i j tj /\
    forall k tk, nth_error time k = Some tk -> (tj < tk < ti)%Z -> (cost i k == 0)%Q.

(** Rounding to single precision, as far as it matters: it keeps the order, the
    sign and the values already rounded. *)
Definition rounding (rnd : Q -> Q) : Prop :=
  (forall a b, (a <= b)%Q -> (rnd a <= rnd b)%Q) /\ (forall a, (rnd (rnd a) == rnd a)%Q) /\ (forall a, (0 < a)%Q -> (0 < rnd a)%Q).

(** The numbers, previous and next links given to the observations of a group. *)
Definition segmented (time : list Z) (cost : nat -> nat -> Q) (rnd : Q -> Q) (window : Z) (track : list nat) (prev next : list (option nat)) : Prop :=
  length track = length time /\ length prev = length time /\ length next = length time /\
  (* the next of an observation is the one which follows it *)
  (forall i j, nth_error next i = Some (Some j) <-> follows time cost window i j) /\
  (* the previous of an observation which follows others is one of them with the largest overlap *)
  (forall r k, nth_error next k = Some (Some r) ->
     exists p, nth_error prev r = Some (Some p) /\ nth_error next p = Some (Some r) /\
       forall k', nth_error next k' = Some (Some r) -> (rnd (cost k' r) <= rnd (cost p r))%Q) /\
  (* the previous of an observation which follows none is the one which precedes it *)
  (forall r, (forall k, nth_error next k <> Some (Some r)) -> forall j, nth_error prev r = Some (Some j) <-> precedes time cost window r j) /\
  (* consecutive in one segment is the same as linked in both directions *)
  (forall a b, a < b ->
     ((exists t, nth_error track a = Some t /\ nth_error track b = Some t /\ forall q, a < q < b -> nth_error track q <> Some t) <->
      nth_error prev b = Some (Some a) /\ nth_error next a = Some (Some b))) /\
  (* the numbers are 1, 2, ... without gap *)
  (exists nb, forall t, (exists r, nth_error track r = Some t) <-> 1 <= t <= nb) /\
  (* in the order of the first observation of each segment *)
  (forall a b ta tb, a < b -> nth_error track a = Some ta -> nth_error track b = Some tb ->
     (forall q, q < a -> nth_error track q <> Some ta) -> (forall q, q < b -> nth_error track q <> Some tb) -> ta < tb).
