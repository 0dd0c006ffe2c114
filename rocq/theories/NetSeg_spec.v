(** Vocabulary of the properties on the segments of a network: connections by
    merging and splitting, and dead ends.  Only the record of a row is taken
    from the model. *)
From Coq Require Import List Arith ZArith Permutation.
From Verif Require Import Base Net_model Net_spec.
Import ListNotations.

(** A merging or a splitting from row [i] to row [j]: [i] is the end of its
    segment, which goes on in [j], or [j] is the start of its segment, which
    comes from [i]. *)
Definition event (rows : list nrow) (i j : nat) : Prop :=
  (exists r, nth_error rows i = Some r /\ last_row rows i /\ nxt r = Z.of_nat j) \/
  (exists r, nth_error rows j = Some r /\ first_row rows j /\ prv r = Z.of_nat i).

(** The segments of rows [i] and [j] are joined by an event. *)
Definition touches (rows : list nrow) (i j : nat) : Prop :=
  exists x y, same_segment rows i x /\ same_segment rows j y /\ (event rows x y \/ event rows y x).

(** At most [k] events lead from the segment of row [i] to that of row [j]. *)
Inductive relative (rows : list nrow) : nat -> nat -> nat -> Prop :=
| relative_same : forall k i j, same_segment rows i j -> relative rows k i j
| relative_step : forall k i j l, touches rows i j -> relative rows k j l -> relative rows (S k) i l.

(** The segment of row [i] has at least [nobs] rows and covers at least
    [ndays] days. *)
Definition long_segment (rows : list nrow) (nobs : nat) (ndays : Z) (i : nat) : Prop :=
  exists a b ra rb, same_segment rows i a /\ same_segment rows i b /\ first_row rows a /\ last_row rows b /\
    nth_error rows a = Some ra /\ nth_error rows b = Some rb /\ (ndays <= time rb - time ra + 1)%Z /\ nobs <= b + 1 - a.
(** It is joined to two different segments. *)
Definition between (rows : list nrow) (i : nat) : Prop :=
  exists j k, touches rows i j /\ touches rows i k /\ ~ same_segment rows j k.
(** A row of it is selected by the mask, if any. *)
Definition protected (rows : list nrow) (mask : option (list bool)) (i : nat) : Prop :=
  match mask with
  | None => False
  | Some m => exists k, same_segment rows i k /\ nth_error m k = Some true
  end.
Definition dead_end (rows : list nrow) (nobs : nat) (ndays : Z) (mask : option (list bool)) (i : nat) : Prop :=
  ~ long_segment rows nobs ndays i /\ ~ between rows i /\ ~ protected rows mask i.

(** [new] is [old] after one removal of the rows of [removed]: those rows are
    in network 0 and segment 0 without links, the others keep their columns,
    and a link is kept when it points to a row not removed. *)
Definition trimmed (removed : list bool) (ix : list nat) (old new : list nrow) : Prop :=
  Permutation ix (seq 0 (length old)) /\ length new = length old /\
  (forall p q a b, p < q -> nth_error new p = Some a -> nth_error new q = Some b -> ordered [0; 1; 2] a b) /\
  forall k i, nth_error ix k = Some i -> exists r r', nth_error old i = Some r /\ nth_error new k = Some r' /\
    (nth_error removed i = Some true -> r' = Row 0 0 (time r) (-1) (-1) (rest r)) /\
    (nth_error removed i = Some false -> same_obs r r' /\
       forall old_link new_link, (old_link = nxt r /\ new_link = nxt r') \/ (old_link = prv r /\ new_link = prv r') ->
         (exists l j, nth_error ix l = Some j /\ old_link = Z.of_nat j /\ nth_error removed j = Some false /\ new_link = Z.of_nat l) \/
         (new_link = (-1)%Z /\ (old_link = (-1)%Z \/ exists j, old_link = Z.of_nat j /\ nth_error removed j = Some true))).

(** The passes of a removal: the mask protects rows in the first one only. *)
Fixpoint passes (recursive nobs : nat) (ndays : Z) (mask : option (list bool)) (old new : list nrow) : Prop :=
  exists removed ix mid, length removed = length old /\
    (forall i, i < length old -> (nth_error removed i = Some true <-> dead_end old nobs ndays mask i)) /\
    trimmed removed ix old mid /\
    match recursive with O => new = mid | S r => passes r nobs ndays None mid new end.
