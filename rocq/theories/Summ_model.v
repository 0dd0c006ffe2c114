(** Model of the numbers of the summary of a dataset of trajectories
    (observations/tracking.py, __repr__, lines 116-146): tracks, shorter and longer ones,
    filled observations, distances by day and by track.  The layout of the text, the
    distributions (numpy histogram, see Sel_model.v) and the areas are not modelled. *)
From Coq Require Import List Arith ZArith Bool QArith.
Import ListNotations.
From Verif Require Import Base Qaux Corr_model TrackObs_model.
From Verif Require Generic_model.
Local Close Scope Q_scope.
Local Open Scope nat_scope.

(** [m[z - 1] = False] for the indices [z], line 132. *)
Fixpoint cut_before (m : list bool) (ix : list Z) : option (list bool) :=
  match ix with [] => Some m | z :: r => let! m' := pystore m (z - 1)%Z false in cut_before m' r end.
(** m_last, lines 130-132: true for the observations which are followed by another one of
    their track. *)
Definition followed (tracks : list nat) : option (list bool) :=
  let! t := compute_index tracks in
  let! m := pystore (repeat true (length tracks)) (-1)%Z false in
  cut_before m (tl (fst t)).
(** numpy mean; nan for an empty array. *)
Definition mean (l : list Q) : option Q := match l with [] => None | _ => Some (Qsum l / inject_Z (Z.of_nat (length l)))%Q end.
(** nb.min() and nb.max(); an empty array raises. *)
Definition nmin (l : list nat) : option nat := match l with [] => None | a :: r => Some (fold_left Nat.min r a) end.
Definition nmax (l : list nat) : option nat := match l with [] => None | a :: r => Some (fold_left Nat.max r a) end.

(** What is displayed, lines 134-140. *)
Record summary := Summary { s_tracks : nat; s_shorter : nat; s_longer : nat; s_filled : nat;
  s_days : list Q; s_paths : list Q; s_day_mean : option Q; s_path_mean : option Q }.
(** Lines 116-140; [dist] is the distance in metres between two points, [virtual] the
    field of that name. *)
Definition summarize {P} (dist : P -> P -> Q) (tracks : list nat) (pts : list P) (virtual : list bool) : option summary :=
  let! t := compute_index tracks in
  let nb := snd t in
  let! d := distance_to_next P dist tracks pts in
  let d := map (fun x => x / 1000)%Q d in
  let cum := Generic_model.cumsum_by_track d (map Z.of_nat tracks) in
  let! m := followed tracks in
  let present := filter (fun k => negb (k =? 0)) nb in
  let! shorter := nmin present in
  let! longer := nmax nb in
  let days := select m d in
  let paths := select (map negb m) cum in
  Some (Summary (length present) shorter longer (length (filter (fun b => b) virtual)) days paths (mean days) (mean paths)).
