(** Vocabulary of the properties on the events of a network. *)
From Coq Require Import List Arith ZArith.
From Verif Require Import Base Net_model Net_spec.
Import ListNotations.

(** The segment of row [i] ends in [i] and goes on in row [j]. *)
Definition merges_into (rows : list nrow) (i j : nat) : Prop :=
  exists r, nth_error rows i = Some r /\ last_row rows i /\ nxt r = Z.of_nat j.
(** The segment of row [j] starts in [j] and comes from row [i]. *)
Definition splits_from (rows : list nrow) (i j : nat) : Prop :=
  exists r, nth_error rows j = Some r /\ first_row rows j /\ prv r = Z.of_nat i.

(** The link of row [i] is row [j]. *)
Definition step (link : list Z) (i j : nat) : Prop := nth_error link i = Some (Z.of_nat j).
(** Following links never comes back. *)
Definition no_loop (link : list Z) : Prop := forall i j, step link i j -> ~ reach (step link) j i.
(** Row [k] is met from row [i] following links to rows at less than [dt]
    days of [t0]. *)
Inductive met (link time : list Z) (dt t0 : Z) : nat -> nat -> Prop :=
| met_here : forall i, met link time dt t0 i i
| met_step : forall i j k t, step link i j -> nth_error time j = Some t -> (Z.abs (t - t0) < dt)%Z -> met link time dt t0 j k -> met link time dt t0 i k.
Definition close_to (link time : list Z) (dt : Z) (i k : nat) : Prop :=
  exists t0, nth_error time i = Some t0 /\ met link time dt t0 i k.
(** The row an index stands for in Python: -1 is the last row. *)
Definition row_of (n : nat) (z : Z) : nat := if (z <? 0)%Z then n - 1 else Z.to_nat z.
