(** Specification vocabulary for track datasets.  Nothing here is taken from
    the code. *)
From Coq Require Import List Arith ZArith Bool QArith.
Import ListNotations.
Local Close Scope Q_scope.
Local Open Scope nat_scope.

(** Number of elements equal to [t]. *)
Definition count (t : nat) (l : list nat) : nat := count_occ Nat.eq_dec l t.
(** The observations of a track are stored next to each other. *)
Definition grouped (tracks : list nat) : Prop :=
  forall i j k t, i < j -> j < k ->
    nth_error tracks i = Some t -> nth_error tracks k = Some t -> nth_error tracks j = Some t.
(** Tracks are stored in the order of their numbers. *)
Definition nsorted (l : list nat) : Prop :=
  forall i j a b, i < j -> nth_error l i = Some a -> nth_error l j = Some b -> a <= b.
(** [m] selects exactly the positions satisfying [P]. *)
Definition mask_is (m : list bool) (n : nat) (P : nat -> Prop) : Prop :=
  length m = n /\ forall i, i < n -> (nth_error m i = Some true <-> P i).
(** The elements of [l] at the positions satisfying [P], in order: [r] is
    obtained by keeping the positions of an increasing list. *)
Definition kept {A} (l : list A) (P : nat -> Prop) (r : list A) : Prop :=
  exists pos,
    length pos = length r /\
    (forall u v a b, u < v -> nth_error pos u = Some a -> nth_error pos v = Some b -> a < b) /\
    (forall i, In i pos <-> (i < length l /\ P i)) /\
    (forall u i, nth_error pos u = Some i -> nth_error r u = nth_error l i).
(** First and last positions of the track stored at position [i]. *)
Definition first_of (tracks : list nat) (i f : nat) : Prop :=
  nth_error tracks f = nth_error tracks i /\ f < length tracks /\
  forall j, nth_error tracks j = nth_error tracks i -> f <= j.
Definition last_of (tracks : list nat) (i f : nat) : Prop :=
  nth_error tracks f = nth_error tracks i /\ f < length tracks /\
  forall j, j < length tracks -> nth_error tracks j = nth_error tracks i -> j <= f.
(** Abscissae do not decrease inside a track. *)
Definition growing (tracks : list nat) (x : list Q) : Prop :=
  forall i j t a b, i < j -> nth_error tracks i = Some t -> nth_error tracks j = Some t ->
    nth_error x i = Some a -> nth_error x j = Some b -> (a <= b)%Q.
