(** Vocabulary of the properties on the numbers of segments given again. *)
From Coq Require Import List Arith ZArith QArith.
From Verif Require Import Base Net_model Net_spec.
Import ListNotations.
Local Close Scope Q_scope.
Local Open Scope nat_scope.

(** Links join rows of the same network. *)
Definition inside_networks (rows : list nrow) : Prop :=
  forall i r j q, nth_error rows i = Some r -> nth_error rows j = Some q -> (nxt r = Z.of_nat j \/ prv r = Z.of_nat j) -> track r = track q.
(** The segment which ends in row [e] merges into row [n] of a segment which
    split from it less than [dmax] days before. *)
Definition close_event (rows : list nrow) (dmax : Z) (e n : nat) : Prop :=
  exists re rn f rf p rp, nth_error rows e = Some re /\ last_row rows e /\ nxt re = Z.of_nat n /\ nth_error rows n = Some rn /\
    same_segment rows n f /\ first_row rows f /\ nth_error rows f = Some rf /\ prv rf = Z.of_nat p /\
    nth_error rows p = Some rp /\ same_segment rows p e /\ (time rn - time rp < dmax)%Z.
(** The rows [new] are the rows [old], up to the number of the segment and the link
    to the previous row. *)
Definition renumbered (old new : list nrow) : Prop :=
  length new = length old /\ forall i r, nth_error old i = Some r -> exists r', nth_error new i = Some r' /\
    track r' = track r /\ time r' = time r /\ nxt r' = nxt r /\ rest r' = rest r.
(** No two rows of a segment have the same time. *)
Definition one_by_time (rows : list nrow) : Prop :=
  forall i j a b, i <> j -> same_segment rows i j -> nth_error rows i = Some a -> nth_error rows j = Some b -> time a <> time b.

(** The segment of row [s] splits from row [m], and its end and the end of the
    segment of [m] are to be exchanged: the segment of [m] stops without merging
    at most [main_max] days after [m], the segment of [s] lasts [secondary_min]
    days or more, and its cost is not less than the one of the row after [m] by
    [delta] or more. *)
Definition to_swap (main_max secondary_min : Z) (delta : Q) (cost : nrow -> Q) (rows : list nrow) (m s : nat) : Prop :=
  exists rm rn rs e re f rf, nth_error rows m = Some rm /\ nth_error rows (S m) = Some rn /\ nth_error rows s = Some rs /\
    first_row rows s /\ prv rs = Z.of_nat m /\
    same_segment rows m e /\ last_row rows e /\ nth_error rows e = Some re /\ same_segment rows s f /\ last_row rows f /\ nth_error rows f = Some rf /\
    nxt re = (-1)%Z /\ (time re - time rm <= main_max)%Z /\ (secondary_min <= time rf - time rs)%Z /\ (delta < cost rs - cost rn)%Q.
(** Times rise along segments, and from a row to the segments which split from it. *)
Definition times_rise (rows : list nrow) : Prop :=
  (forall i j a b, i < j -> same_segment rows i j -> nth_error rows i = Some a -> nth_error rows j = Some b -> (time a < time b)%Z) /\
  (forall i j a b, nth_error rows i = Some a -> nth_error rows j = Some b -> first_row rows j -> prv b = Z.of_nat i -> (time a < time b)%Z).
(** A segment which does not merge does not split from its last row, and its
    rows where others split are linked to the next one. *)
Definition splits_inside (rows : list nrow) : Prop :=
  forall m s rm rs e re, nth_error rows m = Some rm -> nth_error rows s = Some rs -> first_row rows s -> prv rs = Z.of_nat m ->
    same_segment rows m e -> last_row rows e -> nth_error rows e = Some re -> nxt re = (-1)%Z ->
    nxt rm = Z.of_nat (S m) /\ same_segment rows m (S m).

(** The close events do not meet: the segment which was split does not merge, and
    no other segment merges into its end. *)
Definition apart (rows : list nrow) (dmax : Z) : Prop :=
  (forall e n k r, close_event rows dmax e n -> same_segment rows n k -> last_row rows k -> nth_error rows k = Some r -> nxt r = (-1)%Z) /\
  (forall e n e' r' n', close_event rows dmax e n -> nth_error rows e' = Some r' -> last_row rows e' -> nxt r' = Z.of_nat n' ->
     same_segment rows n n' -> n <= n' -> e' = e).
(** Times rise along segments, and from the end of a segment to the row it merges into. *)
Definition times_merge (rows : list nrow) : Prop :=
  (forall i j a b, i < j -> same_segment rows i j -> nth_error rows i = Some a -> nth_error rows j = Some b -> (time a < time b)%Z) /\
  (forall i j a b, nth_error rows i = Some a -> nth_error rows j = Some b -> last_row rows i -> nxt a = Z.of_nat j -> (time a < time b)%Z).
