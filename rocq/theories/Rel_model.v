(** Model of find_segments_relative, src/py_eddy_tracker/observations/network.py
    lines 137-160: relatives of the segments of an event, in their network. *)
From Coq Require Import List Arith ZArith Bool.
From Verif Require Import Base Generic_model Obs_model Net_model NetSeg_model NetTab_model.
Import ListNotations.
Local Open Scope nat_scope.

(** network, lines 1238-1239, with network_slice, lines 245-253. *)
Definition network (rows : list nrow) (id : nat) : option (list nrow) :=
  let! t := build_index (map (fun r => Z.of_nat (track r)) rows) in
  let '(first, last, ref) := t in
  let! a := pyget first (Z.of_nat id - ref) in
  let! b := pyget last (Z.of_nat id - ref) in
  extract_with_slice rows a b.
(** where(nw.segment == s)[0][0]: an IndexError when there is none. *)
Fixpoint first_where (s : nat) (nw : list nrow) : option nat :=
  match nw with
  | [] => None
  | r :: l => if segment r =? s then Some 0 else option_map S (first_where s l)
  end.
(** find_segments_relative, lines 148-160; indices of rows are not negative. *)
Definition find_segments_relative (rows : list nrow) (obs : nat) (stopped : option nat) (order : nat) : option (list nrow) :=
  let! r := nth_error rows obs in
  let! nw := network rows (track r) in
  let! i := first_where (segment r) nw in
  match stopped with
  | None => relatives nw [i] order
  | Some s =>
      let! q := nth_error rows s in
      let! j := first_where (segment q) nw in
      relatives nw [i; j] order
  end.
