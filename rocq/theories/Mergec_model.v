(** Model of the command MergeEddies (appli/eddies.py lines 45-71) on files of tracks:
    load without unpacking, optional variable of rotation, concatenation, numbers of
    tracks.  Fields and files are those of Fields_model.v, with stored integers. *)
From Coq Require Import List Arith ZArith QArith Bool.
From Verif Require Import Base Generic_model Fields_model.
From Verif Require Corr_model.
Import ListNotations.
Local Close Scope Q_scope.
Local Open Scope nat_scope.

(** A netcdf file: variables with stored integers, packing of each variable (scale_factor
    and add_offset), attribute title ([true]: "Cyclonic") and attribute rotation_type. *)
Record mfile := MFile { m_file : @file Z; m_packing : nat -> Q * Q; m_title : option bool; m_rotation : option Z }.
(** What is written: stored integers, and the sign of the dataset, which gives the title;
    the packing written is the one of the software (observation.py 1621-1693). *)
Record merged := Merged { out : list (nat * list Z); out_sign : Z }.

Section Merge.
(** ELEMENTS, fields track, n, virtual (tracking.py 220-223), order of sets; fields of
    the number of the track and of the type of rotation. *)
Variables (base added : list nat) (enum : list nat -> list nat) (track type_cyc : nat).
(** Sign given by load_from_netcdf, observation.py lines 1031-1043. *)
Definition sign_type (f : mfile) (include : list nat) : option Z :=
  let vars := build_var_list (map fst (f_vars (m_file f))) None (Some include) in
  let! s := if mem type_cyc vars then let! c := column (f_vars (m_file f)) type_cyc in nth_error c 0
            else Some (match m_title f with None => match m_rotation f with Some r => r | None => 0%Z end | Some true => (-1)%Z | Some false => 1%Z end) in
  Some (if (s =? 0)%Z then (-1)%Z else s).
(** add_rotation_type, observation.py lines 463-466. *)
Definition add_rotation_type (d : @dataset Z) (s : Z) : option (@dataset Z) :=
  let! e := add_fields 0%Z base added enum d [type_cyc] [] in
  let! o := set_column (obs e) type_cyc (repeat s (size e)) in Some (with_obs e o).
(** Body of the loop of lines 62-69 of the command. *)
Definition load_one (include : list nat) (rotation : bool) (f : mfile) : option (@dataset Z * Z) :=
  let! d := load 0%Z base added enum (m_file f) None (Some include) in
  let! s := sign_type f include in
  if rotation then let! e := add_rotation_type d s in Some (e, s) else Some (d, s).
(** TrackEddiesObservations.concatenate, tracking.py lines 315-327, on the numbers of
    tracks of each dataset: max() of an empty array raises. *)
Fixpoint shift_tracks (last_track : Z) (l : list (list Z)) : option (list Z) :=
  match l with
  | [] => Some []
  | c :: r =>
      match map (fun t => t + last_track)%Z c with
      | [] => None
      | x :: xs => let! r := shift_tracks (zmax_from x xs + 1)%Z r in Some ((x :: xs) ++ r)
      end
  end.
(** merge_eddies, lines 45-71; [include] is the option --include_var, [rotation] the
    option --add_rotation_variable; at least one file. *)
Definition merge_eddies (files : list mfile) (include : option (list nat)) (rotation : bool) : option merged :=
  match files with
  | [] => None
  | f0 :: _ =>
      let include := match include with Some i => i | None => map fst (f_vars (m_file f0)) end in
      let! l := Corr_model.sequence (map (load_one include rotation) files) in
      let! e := concatenate 0%Z base added enum (map fst l) in
      let! cols := Corr_model.sequence (map (fun d => column (obs (fst d)) track) l) in
      let! tr := shift_tracks 0 cols in
      let! o := set_column (obs e) track tr in
      match l with [] => None | (_, s) :: _ => Some (Merged o s) end
  end.
End Merge.
