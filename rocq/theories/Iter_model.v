(** Model of the tracks of a dataset seen one by one and of the tables kept by the object:
    [src/py_eddy_tracker/observations/tracking.py] track_slice (71-73), iter_track (75-82),
    nb_tracks (104-114), index_from_track and nb_obs_by_track (343-351), age (357-360), and
    [src/py_eddy_tracker/observations/observation.py] append and __add__ (686-691).

    A row is its track number with its other fields.  Simplifications: rows of both
    datasets have the same fields (the test of coherence passes); [None] is an exception; a
    division by zero gives [None] for this element only (nan or inf). *)
From Coq Require Import List Arith ZArith Bool QArith.
Import ListNotations.
From Verif Require Import Base Corr_model Obs_model TrackObs_model.
Local Close Scope Q_scope.
Local Open Scope nat_scope.

Section Ds.
Context {A : Type}.
(** The object: the rows, __first_index_of_track with __obs_by_track, __nb_track
    (__init__, lines 65-69). *)
Record ds := Ds { rows : list (nat * A); tables : option (list Z * list nat); nbt : option nat }.
Definition fresh (l : list (nat * A)) : ds := Ds l None None.

(** compute_index, lines 301-313: computed at the first request only. *)
Definition compute_tables (d : ds) : option ((list Z * list nat) * ds) :=
  match tables d with
  | Some t => Some (t, d)
  | None => let! t := TrackObs_model.compute_index (map fst (rows d)) in Some (t, Ds (rows d) (Some t) (nbt d))
  end.
(** [self.index(slice(i0, i0 + nb))], observation.py lines 719-731: an array of nb rows, filled
    with the slice: of the same size, or one row which is repeated. *)
Definition index_slice (l : list (nat * A)) (i0 : Z) (nb : nat) : option (list (nat * A)) :=
  let r := Base.slice l (pybound (length l) i0) (pybound (length l) (i0 + Z.of_nat nb)%Z) in
  if length r =? nb then Some r else match r with [x] => Some (repeat x nb) | _ => None end.
(** track_slice, lines 71-73: the bounds of the slice. *)
Definition track_slice (d : ds) (track : Z) : option ((Z * Z) * ds) :=
  let! td := compute_tables d in
  let! i0 := pyget (fst (fst td)) track in
  let! nb := pyget (snd (fst td)) track in
  Some ((i0, (i0 + Z.of_nat nb)%Z), snd td).
(** iter_track, lines 75-82, all the tracks that it yields. *)
Definition iter_track (d : ds) : option (list (list (nat * A)) * ds) :=
  let! td := compute_tables d in
  let! r := sequence (map (fun q => index_slice (rows d) (fst q) (snd q))
                          (filter (fun q => negb (snd q =? 0)) (combine (fst (fst td)) (snd (fst td))))) in
  Some (r, snd td).
(** nb_tracks, lines 104-114. *)
Definition nb_tracks (d : ds) : option (nat * ds) :=
  match nbt d with
  | Some n => Some (n, d)
  | None =>
      if length (rows d) =? 0 then Some (0, Ds (rows d) (tables d) (Some 0))
      else
        let! td := compute_tables d in
        let n := length (filter (fun k => negb (k =? 0)) (snd (fst td))) in
        Some (n, Ds (rows (snd td)) (tables (snd td)) (Some n))
  end.
(** append, observation.py lines 686-691, through insert_observations of index -1: the rows of
    the same object change, the tables of the object are left. *)
Definition append (blank : nat * A) (d : ds) (other : list (nat * A)) : option ds :=
  let! l := insert_observations blank (rows d) other (-1) in Some (Ds l (tables d) (nbt d)).
(** age, lines 357-360; [n] is the field observation_number of each row. *)
Definition age (n : A -> Z) (d : ds) : option (list (option Q)) :=
  let! td := compute_tables d in
  let life := repeat_by (snd (fst td)) (snd (fst td)) in
  if length life =? length (rows d) then
    Some (map (fun q => let k := (Z.of_nat (snd q) - 1)%Z in
                        if (k =? 0)%Z then None else Some (inject_Z (n (snd (fst q))) / inject_Z k * 100)%Q)
              (combine (rows d) life))
  else None.
End Ds.
Arguments ds : clear implicits.
