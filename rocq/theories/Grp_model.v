(** Model of src/py_eddy_tracker/observations/groups.py: virtual observations,
    targets of particles, selection of tracks by date. *)
From Coq Require Import List Arith ZArith QArith Bool.
From Verif Require Import Base Qaux Corr_model Generic_model TrackObs_model Split_model Obs_model NetEvt_model.
Import ListNotations.
Local Close Scope Q_scope.
Local Open Scope nat_scope.

(** ** Virtual observations *)

(** get_missing_indices, lines 40-55: missing steps after each row, 0 after the
    last one.  [None]: division by a null step. Dates are exact rationals. *)
Section Missing.
Variables (flag_untrack : bool) (indice_untrack : nat).
Fixpoint nbr_step (dt : Q) (t0 : Q) (tr0 : nat) (times : list Q) (tracks : list nat) : option (list Z) :=
  match times, tracks with
  | t1 :: times', tr1 :: tracks' =>
      let! rest := nbr_step dt t1 tr1 times' tracks' in
      if flag_untrack && (tr1 =? indice_untrack) then Some (0%Z :: rest) else
      if negb (tr1 =? tr0) then Some (0%Z :: rest) else
      let diff := (t1 - t0)%Q in
      if Qlt_bool dt diff
      then if Qeq_bool dt 0 then None else Some ((trunc (diff / dt) - 1)%Z :: rest)
      else Some (0%Z :: rest)
  | _, _ => Some [0%Z]
  end.
(** Lines 57-67: index of the row after the gap, once per missing step.  The
    array of negative size made for a negative step raises, and an empty array
    has no first element.  [step = None] is the median of no difference (nan,
    compared with nothing as there is one row only). *)
Definition get_missing_indices (times : list Q) (tracks : list nat) (step : option Q) : option (list nat) :=
  match times, tracks with
  | t0 :: times', tr0 :: tracks' =>
      let! nb := nbr_step (match step with Some d => d | None => 1%Q end) t0 tr0 times' tracks' in
      if existsb (fun z => (z <? 0)%Z) nb then None
      else Some (repeat_by (seq 1 (length nb)) (map Z.to_nat nb))
  | _, _ => None
  end.
End Missing.

(** numpy [interp] at index [x] of the values [fp] known at the increasing
    indices [xp]. *)
Fixpoint np_interp (x : nat) (xp : list nat) (fp : list Q) : option Q :=
  match xp, fp with
  | a :: xp', u :: fp' =>
      if x <=? a then Some u else
      match xp', fp' with
      | b :: _, v :: _ =>
          if x <? b
          then Some (u + (v - u) * inject_Z (Z.of_nat (x - a)) / inject_Z (Z.of_nat (b - a)))%Q
          else np_interp x xp' fp'
      | [], [] => Some u
      | _, _ => None
      end
  | _, _ => None
  end.

(** A dataset by field: dates, track numbers, the other interpolated fields, the
    flags and the fields which are not interpolated (n, cost_association and
    arrays).  All have one value per row. *)
Record vdata := VData { vd_time : list Q; vd_track : list nat; vd_fields : list (list Q); vd_virtual : list bool; vd_other : list (list Z) }.

(** [new.obs[~mask] = self.obs] (line 324) for one field of a dataset full of
    [zero]. *)
Definition spread {A} (zero : A) (mask : list bool) (col : list A) : option (list A) :=
  mask_store (map negb mask) (repeat zero (length mask)) col.
(** filled_by_interpolation, lines 280-303, for one field; exact rationals. *)
Definition fill_field (mask : list bool) (col : list Q) : option (list Q) :=
  let known := where_ (map negb mask) in
  let! values := sequence (map (fun x => np_interp x known (select (map negb mask) col)) (where_ mask)) in
  mask_store mask col values.
Definition fill_fields (mask : list bool) (cols : list (list Q)) : option (list (list Q)) :=
  sequence (map (fun c => let! s := spread 0%Q mask c in fill_field mask s) cols).

(** Lines 307-321: mask of the inserted rows in the new dataset.  [flag]: the
    dataset is a network (network.py lines 161-171), where rows of network 0 are
    left; tracking.py lines 84-95 uses all the rows. *)
Definition virtual_mask (flag : bool) (times : list Q) (tracks : list nat) : option (list bool) :=
  let step := match differences times with [] => None | d => Some (np_median d) end in
  let! indices := get_missing_indices flag 0 times tracks step in
  let corrected := map (fun p => fst p + snd p) (combine indices (seq 0 (length indices))) in
  stores (repeat false (length times + length indices)) corrected (repeat true (length indices)).
(** insert_virtual, lines 305-328, for the fields.  The track of the inserted
    rows is the one of a new dataset: 0. *)
Definition insert_virtual (flag : bool) (d : vdata) : option vdata :=
  let! mask := virtual_mask flag (vd_time d) (vd_track d) in
  let! track := spread 0 mask (vd_track d) in
  let! time := fill_fields mask [vd_time d] in
  let! fields := fill_fields mask (vd_fields d) in
  let! other := sequence (map (spread 0%Z mask) (vd_other d)) in
  match time with
  | [t] => Some (VData t track fields mask other)
  | _ => None
  end.
(** Lines 324-328 for the links of a network: both links of the inserted rows
    are overwritten by fix_next_previous_obs, whatever the interpolation gave. *)
Definition insert_links (flag : bool) (times : list Q) (tracks : list nat) (next previous : list Z) : option (list Z * list Z) :=
  let! mask := virtual_mask flag times tracks in
  let! n := spread 0%Z mask next in
  let! p := spread 0%Z mask previous in
  fix_links 0 mask n p.

(** ** Targets of particles *)

(** Counts of lines 196-203 and 243-250: [ref] of the particles of each start
    eddy, [counts] of the couples.  An index outside is an error; -1 (no eddy)
    is [None]. *)
Fixpoint count_particles (i_start : list nat) (i_end : list (option nat)) (ref : list Z) (counts : list (list Z)) : option (list Z * list (list Z)) :=
  match i_start, i_end with
  | [], [] => Some (ref, counts)
  | s :: i_start', e :: i_end' =>
      let! r := nth_error ref s in
      let ref' := upd ref s (r + 1)%Z in
      match e with
      | None => count_particles i_start' i_end' ref' counts
      | Some j =>
          let! row := nth_error counts s in
          let! c := nth_error row j in
          count_particles i_start' i_end' ref' (upd counts s (upd row j (c + 1)%Z))
      end
  | _, _ => None
  end.

(** The two targets of a start eddy and their stored percentages. *)
Record best2 := Best2 { b_t0 : option nat; b_p0 : Q; b_t1 : option nat; b_p1 : Q }.
Definition no_target : best2 := Best2 None 0%Q None 0%Q.
(** Loop on the end eddies, lines 206-222 and 252-266.  [st] is what is kept of
    a percentage in the array: itself, or its integer part. *)
Fixpoint rank_row (st : Q -> Q) (ref : Z) (j : nat) (counts : list Z) (b : best2) : best2 :=
  match counts with
  | [] => b
  | c :: counts' =>
      let b' :=
        if (c =? 0)%Z then b else
        let pct := (inject_Z c / inject_Z ref * 100)%Q in
        if Qlt_bool (b_p0 b) pct then Best2 (Some j) (st pct) (b_t0 b) (b_p0 b)
        else if Qlt_bool (b_p1 b) pct then Best2 (b_t0 b) (b_p0 b) (Some j) (st pct)
        else b in
      rank_row st ref (S j) counts' b'
  end.
Fixpoint rank_rows (st : Q -> Q) (refs : list Z) (counts : list (list Z)) : list best2 :=
  match refs, counts with
  | r :: refs', c :: counts' => rank_row st r 0 c no_target :: rank_rows st refs' counts'
  | _, _ => []
  end.
(** get_targets, lines 183-222, called with empty targets (lines 121-125); the
    percentages stored are exact. *)
Definition get_targets (nb_start nb_end : nat) (i_start : list nat) (i_end : list (option nat)) : option (list best2) :=
  let! (ref, counts) := count_particles i_start i_end (repeat 0%Z nb_start) (repeat (repeat 0%Z nb_end) nb_start) in
  Some (rank_rows (fun x => x) ref counts).
(** Line 127: the percentages given are the integer parts. *)
Definition whole (x : Q) : Q := inject_Z (trunc x).
Definition candidate_step (nb_start nb_end : nat) (i_start : list nat) (i_end : list (option nat)) : option (list best2) :=
  let! l := get_targets nb_start nb_end i_start i_end in
  Some (map (fun b => Best2 (b_t0 b) (whole (b_p0 b)) (b_t1 b) (whole (b_p1 b))) l).

(** get_matrix, lines 225-267: the same with numbers of the full dataset, in an
    array of 8 bits integers (network.py lines 1755 and 1832), the targets of
    the start eddies being updated in place. *)
Fixpoint matrix_row (ref : Z) (counts : list Z) (translate_end : list nat) (b : best2) : option best2 :=
  match counts, translate_end with
  | [], _ => Some b
  | c :: counts', j :: te' =>
      let b' :=
        if (c =? 0)%Z then b else
        let pct := (inject_Z c / inject_Z ref * 100)%Q in
        if Qlt_bool (b_p0 b) pct then Best2 (Some j) (whole pct) (b_t0 b) (b_p0 b)
        else if Qlt_bool (b_p1 b) pct then Best2 (b_t0 b) (b_p0 b) (Some j) (whole pct)
        else b in
      matrix_row ref counts' te' b'
  | _, [] => None
  end.
Fixpoint matrix_rows (refs : list Z) (counts : list (list Z)) (translate_start translate_end : list nat) (all : list best2) : option (list best2) :=
  match refs, counts, translate_start with
  | r :: refs', c :: counts', s :: ts' =>
      let! b := nth_error all s in
      let! b' := matrix_row r c translate_end b in
      matrix_rows refs' counts' ts' translate_end (upd all s b')
  | [], [], [] => Some all
  | _, _, _ => None
  end.
Definition get_matrix (i_start : list nat) (i_end : list (option nat)) (translate_start translate_end : list nat) (all : list best2) : option (list best2) :=
  let! (ref, counts) := count_particles i_start i_end (repeat 0%Z (length translate_start)) (repeat (repeat 0%Z (length translate_end)) (length translate_start)) in
  matrix_rows ref counts translate_start translate_end all.

(** merge_particle_result, lines 460-476. *)
Definition translate_target (i_end : list nat) (t : option nat) : option (option nat) :=
  match t with None => Some None | Some j => let! g := nth_error i_end j in Some (Some g) end.
Definition translate_best (i_end : list nat) (b : best2) : option best2 :=
  let! t0 := translate_target i_end (b_t0 b) in
  let! t1 := translate_target i_end (b_t1 b) in
  Some (Best2 t0 (b_p0 b) t1 (b_p1 b)).
Definition merge_particle_result (all local : list best2) (i_origin i_end : list nat) : option (list best2) :=
  let! l := sequence (map (translate_best i_end) local) in
  stores all i_origin l.

(** ** keep_tracks_by_date, lines 330-351: the mask.  Dates are compared exactly. *)
Fixpoint mark_tracks (time : list Q) (date nb_days : Q) (groups : list group) (mask : list bool) : option (list bool) :=
  match groups with
  | [] => Some mask
  | (rows, _, _) :: groups' =>
      let! t := gather time (rows_list rows) in
      if existsb (Qeq_bool date) t && existsb (Qeq_bool (date + nb_days)) t
      then let! m := stores mask (rows_list rows) (repeat true (length (rows_list rows))) in mark_tracks time date nb_days groups' m
      else mark_tracks time date nb_days groups' mask
  end.
Definition keep_tracks_by_date (argsort : list Z -> list nat) (unsigned : bool) (tracks : list nat) (time : list Q) (date nb_days : Q) : option (list bool) :=
  match iter_on argsort unsigned (map (fun t => inject_Z (Z.of_nat t)) tracks) None with
  | (groups, true) => mark_tracks time date nb_days groups (repeat false (length tracks))
  | _ => None
  end.

(** ** particle_candidate_atlas, lines 353-423.  [ord] is the argsort of the
    dates, [step] the advection of the particles of the first list of rows at a
    date, which gives targets numbered in the second list (lines 96-127). *)
Section Atlas.
Variables (ord : list nat) (step : Z -> list nat -> list nat -> option (list best2)).
Definition zrange (a b : Z) : list Z := map (fun k => (a + Z.of_nat k)%Z) (seq 0 (Z.to_nat (b - a))).
(** Lines 388-420; fill_coherence (lines 425-458) is one merge of results. *)
Fixpoint atlas_loop (t_start dt : Z) (first last : list nat) (times : list Z) (all : list best2) : option (list best2) :=
  match times with
  | [] => Some all
  | t :: times' =>
      let! a0 := pyget first (t - t_start)%Z in
      let! b0 := pyget last (t - t_start)%Z in
      let! a1 := pyget first (t + dt - t_start)%Z in
      let! b1 := pyget last (t + dt - t_start)%Z in
      let indexs0 := slice ord a0 b0 in
      let indexs1 := slice ord a1 b1 in
      match indexs0, indexs1 with
      | [], _ | _, [] => atlas_loop t_start dt first last times' all
      | _, _ =>
          let! local := step t indexs0 indexs1 in
          let! all' := merge_particle_result all local indexs0 indexs1 in
          atlas_loop t_start dt first last times' all'
      end
  end.
Definition particle_candidate_atlas (time : list Q) (dt : Z) : option (list best2) :=
  match time with
  | [] => None
  | v :: r =>
      let t_start := trunc (qmin_from v r) in
      let t_end := trunc (qmax_from v r) in
      let! xs := gather time ord in
      let '(first, last, _) := window_index xs (map inject_Z (zrange t_start (t_end + 1))) (1 # 2)%Q in
      let times := if (0 <? dt)%Z then zrange t_start (t_end - dt) else zrange (t_start - dt) t_end in
      atlas_loop t_start dt first last times (repeat no_target (length time))
  end.
End Atlas.
