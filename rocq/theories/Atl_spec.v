(** Families of eddies from links. *)
From Coq Require Import List Arith ZArith QArith Bool.
From Verif Require Import Base Qaux Atl_model.
Import ListNotations.
Local Close Scope Q_scope.
Local Open Scope nat_scope.

(** A link: eddy of each dataset and score between 0 and 1. *)
Notation link := (nat * nat * Q)%type.
Definition swap (l : link) : link := (snd (fst l), fst (fst l), snd l).
(** Links whose score, in percent, is enough. *)
Definition kept (links : list link) (invalid : Q) (l : link) : Prop := In l links /\ (invalid <= snd l * 100)%Q.
(** Number of kept links of an eddy of the first dataset. *)
Definition degree (links : list link) (invalid : Q) (a : nat) : nat :=
  length (filter (fun l => Qle_bool invalid (snd l * 100)%Q && (fst (fst l) =? a)) links).

Section Families.
Variables (links : list link) (invalid : Q).
Let d1 := degree links invalid.
Let d2 := degree (map swap links) invalid.
(** The only link of both ends. *)
Definition alone (a b : nat) (s : Q) : Prop := kept links invalid (a, b, s) /\ d1 a = 1 /\ d2 b = 1.
Definition is_multi (a : nat) : Prop := exists b s, kept links invalid (a, b, s) /\ (2 <= d1 a \/ 2 <= d2 b).
(** Exactly two links, with eddies which have no other. *)
Definition is_parent (a : nat) : Prop := d1 a = 2 /\ forall b s, kept links invalid (a, b, s) -> d2 b = 1.
(** Only one link, with an eddy which has exactly two, with eddies which have no other. *)
Definition is_twin (a : nat) : Prop := exists b s, kept links invalid (a, b, s) /\ d1 a = 1 /\ d2 b = 2 /\ forall a' s', kept links invalid (a', b, s') -> d1 a' = 1.
(** What the families of the first dataset hold, each eddy once. *)
Definition families (n : nat) (low high : Q) (g : groups) : Prop :=
  (forall f, In f [nomatch; g_low; g_intermediate; g_high; multi_match; parent; twin; complex] -> NoDup (f g)) /\
  forall a,
  (In a (nomatch g) <-> a < n /\ d1 a = 0) /\
  (In a (g_low g) <-> exists b s, alone a b s /\ (s * 100 < low)%Q) /\
  (In a (g_intermediate g) <-> exists b s, alone a b s /\ (low <= s * 100 < high)%Q) /\
  (In a (g_high g) <-> exists b s, alone a b s /\ (high <= s * 100)%Q) /\
  (In a (multi_match g) <-> is_multi a) /\
  (In a (parent g) <-> is_parent a) /\
  (In a (twin g) <-> is_twin a) /\
  (In a (complex g) <-> is_multi a /\ ~ is_parent a /\ ~ is_twin a).
End Families.
(** The families which split a dataset. *)
Definition seven : list (groups -> list nat) := [nomatch; g_low; g_intermediate; g_high; parent; twin; complex].
(** [a] is in exactly one of the seven. *)
Definition in_one (g : groups) (a : nat) : Prop :=
  exists k f, nth_error seven k = Some f /\ In a (f g) /\ forall k' f', nth_error seven k' = Some f' -> In a (f' g) -> k' = k.
