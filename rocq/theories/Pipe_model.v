(** * The two commands which make networks from identifications: EddyNetworkGroup
    and EddyNetworkBuildPath, appli/network.py lines 17-105.

    The steps are those of NetGroup_model.v, Split_model.v and Net_model.v.  Not
    modelled: the parsing of the options, the files between the two commands (see
    C111 to C113 for what is read and written). *)
From Coq Require Import List Arith Bool ZArith QArith.
From Verif Require Import Base NetGroup_model Split_model Net_model.
Import ListNotations.
Local Close Scope Q_scope.
Local Open Scope nat_scope.

(** An observation of a file: its date and its other fields. *)
Definition obs := (Z * list Z)%type.

(** build_network, lines 48-61; [overlap i j] is the outcome of the comparison of
    the contours of two files.  Before the copy the rows are empty. *)
Definition build_network (window : nat) (overlap : nat -> nat -> list nat * list nat) (files : list (list obs)) : option (list obs * list nat) :=
  let! group := group_observations window (map (fun e => length e) files) overlap in
  build_dataset (0%Z, []) files group.

(** A comparison of observations as a comparison of rows. *)
Definition on_rows {B} (f : obs -> obs -> B) (d : B) (rows : list obs) (i j : nat) : B :=
  match nth_error rows i, nth_error rows j with Some a, Some b => f a b | _, _ => d end.
(** Number of a link as stored: -1 for none. *)
Definition link_number (o : option nat) : Z := match o with None => (-1)%Z | Some j => Z.of_nat j end.

(** divide_network, lines 87-105, with split_network and from_split_network;
    [argsort]: numpy argsort on group, segment and date, [meet] and [overlap]:
    comparison of two contours, [rnd]: rounding of the costs in single precision. *)
Definition divide_network (argsort : list (nat * nat * Q) -> list nat) (meet : obs -> obs -> bool) (overlap : obs -> obs -> Q) (rnd : Q -> Q) (window : Z)
    (dataset : list obs * list nat) : option (list nrow) :=
  let '(rows, tracks) := dataset in
  let! r := split_network (on_rows meet false rows) (on_rows overlap 0%Q rows) rnd window tracks (map (fun o : obs => inject_Z (fst o)) rows) in
  let '(times, s) := r in
  from_split_network (argsort (combine (combine tracks (i_track s)) times))
    (map (fun p : obs * nat => (snd p, fst (fst p), snd (fst p))) (combine rows tracks))
    (i_track s) (map link_number (i_next s)) (map link_number (i_prev s)).

(** One command after the other. *)
Definition networks (argsort : list (nat * nat * Q) -> list nat) (overlap_files : nat -> nat -> list nat * list nat) (meet : obs -> obs -> bool) (overlap : obs -> obs -> Q)
    (rnd : Q -> Q) (window_build : nat) (window_divide : Z) (files : list (list obs)) : option (list nrow) :=
  let! dataset := build_network window_build overlap_files files in
  divide_network argsort meet overlap rnd window_divide dataset.
