(** Model of the tables of correspondences as objects which share their arrays,
    src/py_eddy_tracker/tracking.py: _copy (lines 133-148), prepare_merging (lines 567-587),
    longer_than and shorter_than (lines 589-630).  A table is a list of arrays; a copy holds
    the same arrays, not copies of them.  The names of the files and the methods of the
    tracker, which _copy gives to the new object too, are not modelled. *)
From Coq Require Import List Arith Bool QArith.
Import ListNotations.
From Verif Require Import Base Generic_model Corr_model.
Local Close Scope Q_scope.
Local Open Scope nat_scope.

(** A table: the addresses of its arrays, nb_obs_by_tracks and current_id. *)
Record table := Table { t_links : list nat; t_nb : list nat; t_id : nat }.
(** The arrays and the tables of the process; [w_virtual] tells whether the arrays have the
    columns of virtual observations. *)
Record world := World { w_arrays : list (list corr); w_tables : list table; w_virtual : bool }.
(** The arrays of a table. *)
Definition links (arrays : list (list corr)) (t : table) : option (list (list corr)) := sequence (map (nth_error arrays) (t_links t)).
(** prepare_merging, lines 567-587, for the counts. *)
Definition prepare (arrays : list (list corr)) (virtual : bool) (t : table) : option table :=
  let! l := links arrays t in
  let! nb := nb_obs_by_tracks virtual (t_id t) l in
  Some (Table (t_links t) nb (t_id t)).
(** _copy, lines 133-148: the arrays themselves are appended to the new list. *)
Definition copy (w : world) (i : nat) : option world :=
  let! t := nth_error (w_tables w) i in
  let! t' := prepare (w_arrays w) (w_virtual w) t in
  Some (World (w_arrays w) (w_tables w ++ [t']) (w_virtual w)).
(** Loop of lines 606-609 and 626-629: the selection with a mask is a new array, put in the
    list, and the numbers are written in the array which the list holds then. *)
Fixpoint keep_loop_shared (keep translate : list nat) (addresses : list nat) (arrays : list (list corr)) : option (list (list corr) * list nat) :=
  match addresses with
  | [] => Some (arrays, [])
  | a :: rest =>
      let! correspondance := nth_error arrays a in
      let b := length arrays in
      let arrays1 := arrays ++ [filter (fun c => mem (c_id c) keep) correspondance] in
      let! held := nth_error arrays1 b in
      let! ids := gather translate (map c_id held) in
      let arrays2 := upd arrays1 b (map (fun p => with_id (fst p) (snd p)) (combine held ids)) in
      let! r := keep_loop_shared keep translate rest arrays2 in
      Some (fst r, b :: snd r)
  end.
(** Lines 595-609 and 615-629. *)
Definition select (w : world) (i : nat) (t : table) (keep : list nat) : option world :=
  let! nb := gather (t_nb t) keep in
  match keep with
  | [] => None
  | _ =>
      let! translate := stores (repeat 0 (S (fold_right Nat.max 0 keep))) keep (seq 0 (length keep)) in
      let! r := keep_loop_shared keep translate (t_links t) (w_arrays w) in
      Some (World (fst r) (upd (w_tables w) i (Table (snd r) nb (length nb))) (w_virtual w))
  end.
(** longer_than, lines 589-610. *)
Definition longer (w : world) (i size_min : nat) : option world :=
  let! t := nth_error (w_tables w) i in
  let mask := map (fun n => size_min <=? n) (t_nb t) in
  if negb (existsb (fun b => b) mask) then Some w else select w i t (where_ mask).
(** shorter_than, lines 612-630. *)
Definition shorter (w : world) (i size_max : nat) : option world :=
  let! t := nth_error (w_tables w) i in
  select w i t (where_ (map (fun n => n <? size_max) (t_nb t))).
(** Any operations, one after the other. *)
Inductive op := Copy (i : nat) | Longer (i n : nat) | Shorter (i n : nat).
Definition step (w : world) (o : op) : option world :=
  match o with Copy i => copy w i | Longer i n => longer w i n | Shorter i n => shorter w i n end.
Fixpoint run (w : world) (l : list op) : option world := match l with [] => Some w | o :: r => let! w := step w o in run w r end.
