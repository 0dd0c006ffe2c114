(** Further vocabulary of the properties on selections and iterations.  Only
    the type of filters is taken from the model. *)
From Coq Require Import List Arith ZArith Bool QArith.
From Verif Require Import Spec Obs_spec Obs_model.
Import ListNotations.
Local Close Scope Q_scope.
Local Open Scope nat_scope.

(** The field is sorted with all its values inside the bins, or is not sorted
    with at least one value inside. *)
Definition iterable (bins x : list Q) : Prop :=
  (x <> [] /\ qsorted x /\ forall v, In v x -> inside bins v) \/ (~ qsorted x /\ exists v, In v x /\ inside bins v).

(** The value is in the half open bin. *)
Definition within (lo hi v : Q) : Prop := (lo <= v /\ v < hi)%Q.

(** Position [k] of an array of [n] rows is at or after (before) the bound [z]
    of a python slice. *)
Definition from_bound (n : nat) (z : option Z) (k : nat) : Prop :=
  match z with None => True | Some z => if (z <? 0)%Z then (z + Z.of_nat n <= Z.of_nat k)%Z else (z <= Z.of_nat k)%Z end.
Definition before_bound (n : nat) (z : option Z) (k : nat) : Prop :=
  match z with None => True | Some z => if (z <? 0)%Z then (Z.of_nat k < z + Z.of_nat n)%Z else (Z.of_nat k < z)%Z end.
(** Filter [f] selects row [k]. *)
Definition selects (n : nat) (f : filt) (k : nat) : Prop :=
  match f with
  | FSlice a b => from_bound n a k /\ before_bound n b k
  | FMask m => nth_error m k = Some true
  | FIndex l => exists z, In z l /\ (z = Z.of_nat k \/ z = Z.of_nat k - Z.of_nat n)%Z
  end.
(** A mask has one entry per row and an index list counts from the start. *)
Definition valid_filter (n : nat) (f : filt) : Prop :=
  match f with
  | FSlice _ _ => True
  | FMask m => length m = n
  | FIndex l => forall z, In z l -> (0 <= z < Z.of_nat n)%Z
  end.
Definition is_slice (f : filt) : bool := match f with FSlice _ _ => true | _ => false end.

(** The last two filters are not both slices. *)
Fixpoint ends_ok (fs : list filt) : Prop :=
  match fs with
  | [] => True
  | f :: r => match r with
              | [] => True
              | [g] => is_slice f && is_slice g = false
              | _ => ends_ok r
              end
  end.

(** The filters which do not select everything for sure. *)
Definition whole (f : filt) : bool :=
  match f with FSlice None None => true | FMask m => forallb (fun b => b) m | _ => false end.
Fixpoint present (fs : list (option filt)) : list filt :=
  match fs with [] => [] | None :: r => present r | Some f :: r => f :: present r end.
Definition kept_filters (fs : list (option filt)) : list filt := filter (fun f => negb (whole f)) (present fs).

(** Number of a cell (column, row) of a grid of [nb_x] columns. *)
Definition cell_abs (nb_x : Z) (c : Z * Z) : Z := (snd c * nb_x + fst c)%Z.
(** Values of the observations of cell [d]. *)
Definition values_of {V} (d : Z * Z) (items : list (Z * Z * V)) : list V :=
  map snd (filter (fun i => (fst (fst i) =? fst d)%Z && (snd (fst i) =? snd d)%Z) items).
(** Cell [d] holds an observation. *)
Definition occupied {V} (d : Z * Z) (items : list (Z * Z * V)) : Prop := exists v, In (d, v) items.

