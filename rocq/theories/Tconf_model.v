(** * The configuration of the tracking command and the check of the file to continue:
    appli/eddies.py lines 151-223 (eddies_tracking) and 299-341 (track, up to the
    save), tracking.py lines 62-131 (Correspondances), 335-363 (load_state), 491-513
    (save, load_compatible) and 515-541 (the header in from_netcdf).

    The files are given in order (see C119 for their choice) without the last
    blank_period ones; the run is that of [Corr_model].  [None] as outcome is an
    exception.  Not modelled: the datasets written after the links (see C119), the
    links in the file (see C146), what the file does to the eddies waited for (see
    C148), a file left incomplete when the save itself fails, the log. *)
From Coq Require Import List Arith Bool ZArith QArith String.
From Verif Require Import Base Corr_model.
Import ListNotations.
Local Close Scope Q_scope.
Local Open Scope nat_scope.
Notation length := List.length.

(** Values of the configuration.  Simplification: no mapping in a value, but for
    the sections CLASS and PATHS. *)
Inductive yaml := YNull | YBool (b : bool) | YInt (z : Z) | YFloat (q : Q) | YStr (s : string) | YNames (l : list string).
Definition mapping := list (string * yaml).
Definition get (d : mapping) (k : string) : option yaml := option_map snd (find (fun p => String.eqb (fst p) k) d).
(** [d.get(k, default)]. *)
Definition get_or (d : mapping) (k : string) (default : yaml) : yaml := match get d k with Some v => v | None => default end.
(** int(): a number is cut towards 0. *)
Definition to_int (parse_int : string -> option Z) (v : yaml) : option Z :=
  match v with
  | YBool b => Some (if b then 1 else 0)%Z
  | YInt z => Some z
  | YFloat q => Some (Z.quot (Qnum q) (Zpos (Qden q)))
  | YStr s => parse_int s
  | YNull | YNames _ => None
  end.

(** The section CLASS: CLASS, MODULE and OPTIONS. *)
Record section := { y_module : option string; y_class : option string; y_options : option mapping }.
Record config := { y_section : option section; y_paths : option mapping; y_top : mapping }.
(** The command line, lines 152-180. *)
Record arguments := { a_in : option string; a_out : option string; a_only : bool; a_zarr : bool; a_unraw : bool; a_memory : bool; a_blank : Z }.
(** What track is called with, lines 210-223. *)
Record settings := { t_pattern : yaml; t_dir : option string; t_out : yaml; t_class : option (string * string); t_kw : mapping;
  t_virtual : Z; t_in : yaml; t_memory : bool; t_only : bool; t_raw : bool; t_zarr : bool; t_min : Z; t_blank : Z }.

Definition of_arg (o : option string) (default : yaml) : yaml := match o with Some s => YStr s | None => default end.

Section Configure.
  Variable parse_int : string -> option Z.
  (** A class which can be imported. *)
  Variable known : string * string -> bool.
  (** The directory which holds a directory. *)
  Variable parent : string -> string.
  (** Lines 186-196. *)
  Definition class_of (c : config) : option (option (string * string) * mapping) :=
    match y_section c with
    | None => Some (None, [])
    | Some s =>
        let! n := y_class s in
        let! m := y_module s in
        if known (m, n) then Some (Some (m, n), match y_options s with Some o => o | None => [] end) else None
    end.
  (** Lines 207-208; [dirs] are the directories which exist.  Simplification: a value
      which is not a name is refused. *)
  Definition make_dir (dirs : list string) (v : yaml) : option (list string * option string) :=
    match v with
    | YNull => Some (dirs, None)
    | YStr d =>
        if existsb (String.eqb d) dirs then Some (dirs, Some d)
        else if existsb (String.eqb (parent d)) dirs then Some (d :: dirs, Some d) else None
    | _ => None
    end.
  (** eddies_tracking, lines 186-223: the directories afterwards and the settings. *)
  Definition configure (dirs : list string) (a : arguments) (c : config) : list string * option settings :=
    match class_of c, y_paths c with
    | Some (cl, kw), Some paths =>
        let c_in := match a_in a with None => get_or paths "CORRESPONDANCES_IN" YNull | Some s => YStr s end in
        let y_c_out := get_or paths "CORRESPONDANCES_OUT" (YStr "{path}/{sign_type}_correspondances.nc") in
        let c_out := match a_out a with None => y_c_out | Some s => YStr s end in
        match make_dir dirs (get_or paths "SAVE_DIR" YNull) with
        | None => (dirs, None)
        | Some (dirs', save_dir) =>
            (dirs',
             let! pattern := get paths "FILES_PATTERN" in
             let! virtual := to_int parse_int (get_or (y_top c) "VIRTUAL_LENGTH_MAX" (YInt 0)) in
             let! nb_obs_min := to_int parse_int (get_or (y_top c) "TRACK_DURATION_MIN" (YInt 10)) in
             Some {| t_pattern := pattern; t_dir := save_dir; t_out := c_out; t_class := cl; t_kw := kw; t_virtual := virtual; t_in := c_in;
                     t_memory := a_memory a; t_only := a_only a; t_raw := negb (a_unraw a); t_zarr := a_zarr a; t_min := nb_obs_min; t_blank := a_blank a |})
        end
    | _, _ => (dirs, None)
    end.
End Configure.

(** The class when none is given, tracking.py lines 86-87. *)
Definition usual_class : string * string := ("py_eddy_tracker.observations.observation", "EddiesObservations")%string.

Section Run.
  Context {F Obs V : Type}.
  (** load_file of a class with its options, lines 175-180. *)
  Variable load_file : string * string -> mapping -> F -> list Obs.
  (** The tracking of a class. *)
  Variables (as_obs : V -> Obs) (extrapolate : Obs -> Obs -> V) (prolong : V -> V).
  Variable associate : string * string -> list Obs -> list Obs -> option (list (nat * nat * Q)).
  (** The name completed with the directory, the dates and the sign, lines 493-494. *)
  Variable complete : option string -> string -> option string.
  (** A file of correspondences and its header, lines 484-487. *)
  Record stored := { z_class : string * string; z_kw : mapping; z_virtual : Z; z_run : @saved V }.
  Definition store := list (string * stored).
  Definition lookup (s : store) (name : string) : option stored := option_map snd (find (fun p => String.eqb (fst p) name) s).

  Definition class_used (t : settings) : string * string := match t_class t with Some c => c | None => usual_class end.
  Definition same_class (a b : string * string) : bool := String.eqb (fst a) (fst b) && String.eqb (snd a) (snd b).
  (** load_compatible, lines 498-513.  A step without link raises when it is read,
      line 555. *)
  Definition load_compatible (s : store) (t : settings) : option (option stored) :=
    match t_in t with
    | YNull => Some None
    | YStr name =>
        let! p := lookup s name in
        if existsb (fun c => length c =? 0) (f_links (z_run p)) then None
        else if negb (t_virtual t =? z_virtual p)%Z then None
        else if negb (same_class (class_used t) (z_class p)) then None
        else Some (Some p)
    | _ => None
    end.
  (** track, lines 323-341: the files of correspondences afterwards and the links. *)
  Definition tracking (s : store) (t : settings) (files : list F) : store * option (list (list corr)) :=
    let nbv := Z.to_nat (t_virtual t) in
    let ds := map (load_file (class_used t) (t_kw t)) files in
    let outcome :=
      if (Z.of_nat (length files) <? t_min t)%Z then None
      else
        let! previous := load_compatible s t in
        let! c := match previous with
                  | None => track as_obs extrapolate prolong (associate (class_used t)) nbv ds
                  | Some p => resume as_obs extrapolate prolong (associate (class_used t)) nbv (z_run p) ds
                  end in
        let! name := match t_out t with YStr n => complete (t_dir t) n | _ => None end in
        let! f := save c in
        Some (name, f, rev (s_links c)) in
    match outcome with
    | None => (s, None)
    | Some (name, f, links) =>
        ((name, {| z_class := class_used t; z_kw := t_kw t; z_virtual := t_virtual t; z_run := f |}) :: s, Some links)
    end.
End Run.
