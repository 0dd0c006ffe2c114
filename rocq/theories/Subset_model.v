(** Model of the command EddyNetworkSubSet, src/py_eddy_tracker/appli/network.py
    lines 108-152, and of the extraction on a period,
    src/py_eddy_tracker/observations/network.py lines 1542-1553. *)
From Coq Require Import List Arith ZArith Bool.
From Verif Require Import Base Net_model NetSeg_model NetEvt_model.
From Verif Require TrackObs_model.
Import ListNotations.
Local Open Scope nat_scope.

(** extract_with_period. *)
Definition extract_with_period (period : Z * Z) (rows : list nrow) : option (list nrow) :=
  extract_with_mask rows (TrackObs_model.period_mask (map time rows) (fst period) (snd period)).

(** subset_network, lines 141-152; the options are [None] when they are not
    given.  [remove_dead_end] works in place and returns None, on which the next
    method fails: with the option the command ends in error before it has written
    anything, whatever the rows.  [remove_trash] is parsed and not used.  Reading
    and writing the files are not modelled. *)
Definition option_step {A} (o : option A) (f : A -> list nrow -> option (list nrow)) (rows : list nrow) : option (list nrow) :=
  match o with Some a => f a rows | None => Some rows end.
Definition subset_network (length_ : option (Z * Z)) (dead_end : option (nat * Z)) (trash : bool) (ids : option (list Z)) (period : option (Z * Z))
    (rows : list nrow) : option (list nrow) :=
  let! r1 := option_step ids (fun l r => networks r l) rows in
  let! r2 := option_step length_ (fun l r => longer_than (fst l) (snd l) r) r1 in
  let! r3 := option_step dead_end (fun d r => let! _ := remove_dead_end 0 (fst d) (snd d) None r in None) r2 in
  option_step period extract_with_period r3.
