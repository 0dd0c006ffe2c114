(** Model of src/py_eddy_tracker/observations/network.py (NetworkObservations): the
    functions which number segments again, correct_close_events and swap_track. *)
From Coq Require Import List Arith ZArith QArith Bool.
From Verif Require Import Base Qaux Sort Generic_model Corr_model NetGroup_model Net_model NetSeg_model NetEvt_model.
Import ListNotations.
Local Close Scope Q_scope.
Local Open Scope nat_scope.

(** ** correct_close_events, lines 337-407 *)

(** One value of the dictionary [segments_connexion]: the slice of the segment,
    the link before its first row and the link after its last. *)
Record entry := Entry { e_start : nat; e_stop : nat; e_p : Z; e_n : Z }.
(** Lines 366-374. *)
Fixpoint connexion_entries (rows : list nrow) (slices : list (nat * nat * nat)) : option (list (nat * entry)) :=
  match slices with
  | [] => Some []
  | (a, b, s) :: r =>
      if a =? b then connexion_entries rows r
      else
        let! ra := nth_error rows a in
        let! rb := nth_error rows (b - 1) in
        let! es := connexion_entries rows r in
        Some ((s, Entry a b (prv ra) (nxt rb)) :: es)
  end.
Fixpoint get_entry (es : list (nat * entry)) (s : nat) : option entry :=
  match es with [] => None | (k, e) :: r => if k =? s then Some e else get_entry r s end.
(** [segments_connexion[s][0] = slice(a, b)]. *)
Fixpoint set_entry (es : list (nat * entry)) (s a b : nat) : option (list (nat * entry)) :=
  match es with
  | [] => None
  | (k, e) :: r => if k =? s then Some ((k, Entry a b (e_p e) (e_n e)) :: r) else let! r' := set_entry r s a b in Some ((k, e) :: r')
  end.
(** The array [segment], the column segment, the column previous_obs and the dictionary. *)
Record fixing := Fixing { lab : list nat; col : list nat; pre : list Z; ent : list (nat * entry) }.
(** Lines 376-405, one segment. *)
Definition close_step (nb_days_max : Z) (times : list Z) (st : fixing) (seg : nat) : option fixing :=
  let! e := get_entry (ent st) seg in
  let! seg_corrected := nth_error (lab st) (e_stop e - 1) in
  let! seg_corrected_copy := nth_error (col st) (e_stop e - 1) in
  if (e_n e =? -1)%Z then Some st
  else
    let! n_seg := pyget (lab st) (e_n e) in
    let! e2 := get_entry (ent st) n_seg in
    if (e_p e2 =? -1)%Z then Some st
    else
      let! p2_seg := pyget (lab st) (e_p e2) in
      let! tn := pyget times (e_n e) in
      let! tp := pyget times (e_p e2) in
      if (p2_seg =? seg_corrected) && (tn - tp <? nb_days_max)%Z then
        let a := Z.to_nat (e_n e) in
        let b := e_stop e2 in
        let! pre' := pystore (pre st) (e_n e) (Z.of_nat (e_stop e - 1)) in
        let! ent' := set_entry (ent st) seg_corrected a b in
        Some (Fixing (fill (lab st) a b seg_corrected) (fill (col st) a b seg_corrected_copy) pre' ent')
      else Some st.
Fixpoint close_steps (nb_days_max : Z) (times : list Z) (st : fixing) (segs : list nat) : option fixing :=
  match segs with [] => Some st | s :: r => let! st' := close_step nb_days_max times st s in close_steps nb_days_max times st' r end.
Definition renumber (rows : list nrow) (c : list nat) (p : list Z) : list nrow :=
  map (fun x => let '(r, s, q) := x in Row (track r) s (time r) (nxt r) q (rest r)) (combine (combine rows c) p).
(** The rows before the final sort, and after. *)
Definition close_events (nb_days_max : Z) (rows : list nrow) : option (list nrow) :=
  let! seg := segment_track_array rows in
  let! slices := segment_slices seg in
  let! es := connexion_entries rows slices in
  let! st := close_steps nb_days_max (map time rows) (Fixing seg (map segment rows) (map prv rows) es) (usort (map fst es)) in
  Some (renumber rows (col st) (pre st)).
Definition correct_close_events (nb_days_max : Z) (rows : list nrow) : option (list nrow) :=
  let! mid := close_events nb_days_max rows in
  let! (_, _, out) := sort [0; 1; 2] mid in
  Some out.

(** ** swap_track, lines 1896-1936 *)

(** The array segment_track_array and the index are kept until the final sort, so that
    they are those of the rows given.  [cost] is the field previous_cost of a row. *)
Record swap_options := SwapOptions { main_max : Z; secondary_min : Z; delta_max : Q }.
Definition from_end (n : nat) (z : Z) : nat := if (z <? 0)%Z then Z.to_nat (Z.of_nat n + z) else Z.to_nat z.
Definition swap_step (o : swap_options) (cost : nrow -> Q) (rows : list nrow) (seg i_end : list nat) (c : list nat) (ev : Z * Z * Z) : option (list nat) :=
  let '(i_main, i1, i2) := ev in
  let! seg_main := pyget seg i_main in
  let! seg2 := pyget seg i2 in
  let! stop_main := nth_error i_end seg_main in
  let! stop2 := nth_error i_end seg2 in
  let! rm := pyget rows i_main in
  let! r1 := pyget rows i1 in
  let! r2 := pyget rows i2 in
  let! re := pyget rows (Z.of_nat stop_main - 1) in
  let! re2 := pyget rows (Z.of_nat stop2 - 1) in
  if (time re - time rm <=? main_max o)%Z && (secondary_min o <=? time re2 - time r2)%Z && (nxt re =? -1)%Z && Qlt_bool (delta_max o) (cost r2 - cost r1) then
    let! s2 := pyget c i2 in
    let c1 := fill c (from_end (length c) i1) stop_main s2 in
    let! sm := pyget c1 i_main in
    Some (fill c1 (Z.to_nat i2) stop2 sm)
  else Some c.
Fixpoint swap_steps (o : swap_options) (cost : nrow -> Q) (rows : list nrow) (seg i_end : list nat) (c : list nat) (evs : list (Z * Z * Z)) : option (list nat) :=
  match evs with [] => Some c | ev :: r => let! c' := swap_step o cost rows seg i_end c ev in swap_steps o cost rows seg i_end c' r end.
Definition swapped (argsort : list Z -> list nat) (o : swap_options) (cost : nrow -> Q) (rows : list nrow) : option (list nrow) :=
  let! (a, b, c) := splitting_event_triplet argsort rows in
  let! (seg, _, i_end, _) := index_segment_track rows in
  let! col := swap_steps o cost rows seg i_end (map segment rows) (combine (combine a b) c) in
  Some (renumber rows col (map prv rows)).
Definition swap_track (argsort : list Z -> list nat) (o : swap_options) (cost : nrow -> Q) (rows : list nrow) : option (list nrow) :=
  let! mid := swapped argsort o cost rows in
  let! (_, _, out) := sort [0; 1; 2] mid in
  Some out.
