(** Vocabulary of the properties on networks.  Only the record of a row is
    taken from the model. *)
From Coq Require Import List Arith ZArith.
From Verif Require Import Base Net_model.
Import ListNotations.

(** Every link is absent (-1) or the index of a row. *)
Definition link_ok (n : nat) (z : Z) : Prop := z = (-1)%Z \/ (0 <= z < Z.of_nat n)%Z.
Definition links_ok (rows : list nrow) : Prop :=
  forall r, In r rows -> link_ok (length rows) (nxt r) /\ link_ok (length rows) (prv r).

(** Two rows hold the same observation: they differ by their links only. *)
Definition same_obs (a b : nrow) : Prop :=
  track a = track b /\ segment a = segment b /\ time a = time b /\ rest a = rest b.

(** [new] holds the observations [ix] of [old], in that order, and a link of
    [new] points to the observation the link of [old] points to when it is
    there, and is absent otherwise. *)
Definition link_moved (ix : list nat) (old new : Z) : Prop :=
  (exists k j, nth_error ix k = Some j /\ old = Z.of_nat j /\ new = Z.of_nat k) \/
  (new = (-1)%Z /\ forall j, In j ix -> old <> Z.of_nat j).
Definition rows_moved (ix : list nat) (old new : list nrow) : Prop :=
  length new = length ix /\
  forall k i, nth_error ix k = Some i -> exists r r', nth_error old i = Some r /\ nth_error new k = Some r' /\
    same_obs r r' /\ link_moved ix (nxt r) (nxt r') /\ link_moved ix (prv r) (prv r').

(** Value of field [f] of a row: 0 the network, 1 the segment, 2 the time. *)
Definition field_value (f : nat) (r : nrow) : Z :=
  match f with 0 => Z.of_nat (track r) | 1 => Z.of_nat (segment r) | _ => time r end.
(** Row [a] is not after row [b] for the fields [order], first one first. *)
Fixpoint ordered (order : list nat) (a b : nrow) : Prop :=
  match order with
  | [] => True
  | f :: r => (field_value f a < field_value f b)%Z \/ (field_value f a = field_value f b /\ ordered r a b)
  end.

(** Rows sorted by network then by segment (the order set by sort). *)
Definition segment_sorted (rows : list nrow) : Prop :=
  forall i j a b, i < j -> nth_error rows i = Some a -> nth_error rows j = Some b ->
    track a < track b \/ (track a = track b /\ segment a <= segment b).
(** Rows [i] and [j] are in the same segment of the same network. *)
Definition same_segment (rows : list nrow) (i j : nat) : Prop :=
  exists a b, nth_error rows i = Some a /\ nth_error rows j = Some b /\ track a = track b /\ segment a = segment b.
Definition first_row (rows : list nrow) (i : nat) : Prop := forall k, same_segment rows i k -> i <= k.
Definition last_row (rows : list nrow) (i : nat) : Prop := forall k, same_segment rows i k -> k <= i.
(** Water goes from row [i] to row [j]: [j] follows [i] in its segment, or the
    segment of [i] ends and merges into [j], or the segment of [j] starts and
    comes from [i]. *)
Inductive flows (rows : list nrow) : nat -> nat -> Prop :=
| flow_next : forall i, same_segment rows i (S i) -> flows rows i (S i)
| flow_merge : forall i j r, nth_error rows i = Some r -> last_row rows i -> nxt r = Z.of_nat j -> flows rows i j
| flow_split : forall i j r, nth_error rows j = Some r -> first_row rows j -> prv r = Z.of_nat i -> flows rows i j.
(** [b] is reached from [a] by any number of steps of [R]. *)
Inductive reach (R : nat -> nat -> Prop) : nat -> nat -> Prop :=
| reach_refl : forall a, reach R a a
| reach_step : forall a b c, R a b -> reach R b c -> reach R a c.
