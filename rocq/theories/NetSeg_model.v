(** Model of src/py_eddy_tracker/observations/network.py (NetworkObservations):
    connections between segments, relatives, components, dead ends. *)
From Coq Require Import List Arith ZArith Bool Lia.
From Verif Require Import Base Sort Generic_model Corr_model NetGroup_model Net_model.
Import ListNotations.

(** index_segment_track, lines 187-191 (and its array of lines 1121-1126): the
    numbers of the segments and the first and last index of each.  The code
    keeps them until sort resets them; the columns track and segment are not
    changed in between in the functions below. *)
Definition index_segment_track (rows : list nrow) : option (list nat * list nat * list nat * Z) :=
  let! seg := segment_track_array rows in
  let! (first, last, ref) := build_index (map Z.of_nat seg) in
  Some (seg, first, last, ref).

(** ** connexions, lines 528-563 *)

(** The calls of add_seg, splits then merges; [ids] is segment_track_array
    (multi_network) or the column segment.  [i1 - 1] may be read from the end. *)
Definition splits (ids : list nat) (rows : list nrow) (first : list nat) : option (list (list (nat * nat))) :=
  sequence (map (fun a =>
    let! r := nth_error rows a in
    if (prv r =? -1)%Z then Some []
    else let! s1 := pyget ids (prv r) in let! s2 := nth_error ids a in Some [(s1, s2)]) first).
Definition merges (ids : list nat) (rows : list nrow) (last : list nat) : option (list (list (nat * nat))) :=
  sequence (map (fun b =>
    let! r := pyget rows (Z.of_nat b - 1) in
    if (nxt r =? -1)%Z then Some []
    else let! s1 := pyget ids (nxt r) in let! s2 := pyget ids (Z.of_nat b - 1) in Some [(s1, s2)]) last).
Definition connexions (ids : list nat) (rows : list nrow) (first last : list nat) : option (list (nat * nat)) :=
  let! s := splits ids rows first in
  let! m := merges ids rows last in
  Some (concat s ++ concat m).
(** [segments_connexion.get(s)]: the set of segments joined with [s] by a call
    of add_seg.  The dictionary has the key [s] when the set is not empty. *)
Definition connected (conn : list (nat * nat)) (s : nat) : list nat :=
  nodup Nat.eq_dec (flat_map (fun c => (if fst c =? s then [snd c] else []) ++ (if snd c =? s then [fst c] else [])) conn).

(** ** segment_relative_order, lines 565-594 *)

(** __close_segment.  The order in which the elements of a set are visited is
    given by [enum]. *)
Fixpoint close_segment (enum : list nat -> list nat) (conn : list (nat * nat)) (shift : Z) (fuel father : nat) (distance : list Z)
    : option (list Z) :=
  match fuel with
  | O => None
  | S fuel' =>
      let! d := pyget distance (Z.of_nat father - shift) in
      let! distance0 := (if (d =? -1)%Z then pystore distance (Z.of_nat father - shift) 0%Z else Some distance) in
      let! d0 := pyget distance0 (Z.of_nat father - shift) in
      let d_target := (d0 + 1)%Z in
      fold_left (fun od son =>
          let! dl := od in
          let! d_son := pyget dl (Z.of_nat son - shift) in
          if (d_son =? -1)%Z || (d_target <? d_son)%Z
          then let! dl' := pystore dl (Z.of_nat son - shift) d_target in close_segment enum conn shift fuel' son dl'
          else Some dl)
        (enum (connected conn father)) (Some distance0)
  end.
Fixpoint fill_slices {A} (d : list A) (i_s i_e : list nat) (v : list A) : list A :=
  match i_s, i_e, v with
  | a :: i_s', b :: i_e', x :: v' => fill_slices (fill d a b x) i_s' i_e' v'
  | _, _, _ => d
  end.
Definition segment_relative_order (enum : list nat -> list nat) (rows : list nrow) (seg_origine : nat) : option (list Z) :=
  let! (f, _, _) := build_index (map (fun r => Z.of_nat (track r)) rows) in
  if 1 <? length f then None (* Several networks *)
  else
    let! (i_s, i_e, i_ref) := build_index (map (fun r => Z.of_nat (segment r)) rows) in
    let! (_, first, last, _) := index_segment_track rows in
    let! conn := connexions (map segment rows) rows first last in
    let! relative_tr := close_segment enum conn i_ref (S (length i_s)) seg_origine (repeat (-1)%Z (length i_s)) in
    Some (fill_slices (repeat (-1)%Z (length rows)) i_s i_e relative_tr).
(** obs_relative_order, lines 429-431. *)
Definition obs_relative_order (enum : list nat -> list nat) (rows : list nrow) (i_obs : nat) : option (list Z) :=
  let! r := nth_error rows i_obs in segment_relative_order enum rows (segment r).

(** ** relatives, lines 596-656 *)

(** The list kept for a segment: both ends of each link are given the other
    segment. *)
Definition neighbours (links : list (nat * nat * nat * nat)) (s : nat) : list nat :=
  flat_map (fun l => let '(_, _, sx, sy) := l in (if sy =? s then [sx] else []) ++ (if sx =? s then [sy] else [])) links.
(** Distances are uint16: 65535 is the initial value. *)
Definition far : nat := N.to_nat 65535.
Fixpoint loop (slices : list (nat * nat * nat)) (links : list (nat * nat * nat * nat)) (order fuel seg dist : nat) (distance : list nat)
    : option (list nat) :=
  match fuel with
  | O => None
  | S fuel' =>
      let! (start, stop) := slice_of slices seg in
      let! d := nth_error distance start in
      if (dist <? d) && (dist <=? order)
      then fold_left (fun od s => let! dl := od in loop slices links order fuel' s (dist + 1) dl)
             (neighbours links seg) (Some (fill distance start stop dist))
      else Some distance
  end.
Definition relatives_mask (rows : list nrow) (i_obs : list nat) (order : nat) : option (list bool) :=
  let! seg := segment_track_array rows in
  let! slices := segment_slices seg in
  let! el := end_links rows slices in
  let! links := link_segments seg el in
  let! distance := fold_left (fun od indice =>
      let! dl := od in let! s := nth_error seg indice in loop slices links order (order + 2) s 0 dl)
    i_obs (Some (repeat far (length seg))) in
  Some (map (fun d => d <=? order) distance).
Definition relatives (rows : list nrow) (i_obs : list nat) (order : nat) : option (list nrow) :=
  let! m := relatives_mask rows i_obs order in extract_with_mask rows m.

(** ** tag_segment and dissociate_network, lines 1225-1233 and 1355-1399 *)
Fixpoint tag_from (enum : list nat -> list nat) (conn : list (nat * nat)) (tag fuel seg : nat) (groups : list nat) {struct fuel}
    : option (list nat) :=
  let! g := nth_error groups seg in
  if negb (g =? 0) then Some groups
  else
    match fuel with
    | O => None
    | S fuel' =>
        fold_left (fun og s => let! gr := og in tag_from enum conn tag fuel' s gr) (enum (connected conn seg)) (Some (upd groups seg tag))
    end.
(** Loop of lines 1387-1398 over the segments [todo]. *)
Fixpoint tag_loop (enum : list nat -> list nat) (conn : list (nat * nat)) (fuel : nat) (todo : list nat) (j : nat) (sub_group : list nat)
    : option (list nat) :=
  match todo with
  | [] => Some sub_group
  | i :: todo' =>
      match connected conn i with
      | [] => let! g := store sub_group i j in tag_loop enum conn fuel todo' (j + 1) g
      | _ =>
          let! g := nth_error sub_group i in
          if negb (g =? 0) then tag_loop enum conn fuel todo' j sub_group
          else let! gr := tag_from enum conn j fuel i sub_group in tag_loop enum conn fuel todo' (j + 1) gr
      end
  end.
Definition tag_segment (enum : list nat -> list nat) (rows : list nrow) : option (list nat) :=
  let! (seg, first, last, _) := index_segment_track rows in
  let! s := pyget seg (-1)%Z in
  let nb := s + 1 in
  let! conn := connexions seg rows first last in
  tag_loop enum conn nb (seq 0 nb) 1 (repeat 0 nb).
Definition set_track (r : nrow) (t : nat) : nrow := Row t (segment r) (time r) (nxt r) (prv r) (rest r).
Definition dissociate_network (enum : list nat -> list nat) (rows : list nrow) : option (list nat * list Z * list nrow) :=
  let! tags := tag_segment enum rows in
  let! r0 := nth_error rows 0 in
  let tags' := if track r0 =? 0 then map (fun t => t - 1) tags else tags in
  let! seg := segment_track_array rows in
  let! t := gather tags' seg in
  sort [0; 1; 2] (map (fun rt => set_track (fst rt) (snd rt)) (combine rows t)).

(** ** remove_dead_end, lines 1455-1497 *)

(** generate_mask_from_ids, lines 2244-2259. *)
Fixpoint generate_mask_from_ids (ids : list nat) (istart iend : list nat) (i0 : Z) (m : list bool) : option (list bool) :=
  match ids with
  | [] => Some m
  | i :: ids' =>
      let! a := pyget istart (Z.of_nat i - i0) in
      let! b := pyget iend (Z.of_nat i - i0) in
      generate_mask_from_ids ids' istart iend i0 (fill m a b true)
  end.
(** Line 1471-1473: segments kept without the mask. *)
Definition keep_segment (rows : list nrow) (conn : list (nat * nat)) (nobs : nat) (ndays : Z) (k a b : nat) : option bool :=
  let! r0 := nth_error rows a in
  let! r1 := pyget rows (Z.of_nat b - 1) in
  let m := (ndays <=? time r1 - time r0 + 1)%Z && (nobs <=? b - a) in
  Some (m || (2 <=? length (connected conn k))).
Fixpoint keep_segments (rows : list nrow) (conn : list (nat * nat)) (nobs : nat) (ndays : Z) (k : nat) (first last : list nat)
    : option (list bool) :=
  match first, last with
  | a :: first', b :: last' =>
      let! m := keep_segment rows conn nobs ndays k a b in
      let! r := keep_segments rows conn nobs ndays (S k) first' last' in
      Some (m :: r)
  | _, _ => Some []
  end.
(** Lines 1481-1494: the rows of [m] are put in network 0 without links, and
    the links to them are removed.  The costs of the links are left out of the
    model. *)
Fixpoint move_trash (m : list bool) (rows : list nrow) : list nrow :=
  match m, rows with
  | b :: m', r :: rows' => (if b : bool then Row 0 0 (time r) (-1) (-1) (rest r) else r) :: move_trash m' rows'
  | _, _ => []
  end.
Definition cut_links (m : list bool) (rows : list nrow) : option (list nrow) :=
  sequence (map (fun r =>
    let! p := pyget m (prv r) in
    let! n := pyget m (nxt r) in
    Some (set_links r (if n : bool then (-1)%Z else nxt r) (if p : bool then (-1)%Z else prv r))) rows).
Fixpoint remove_dead_end (recursive : nat) (nobs : nat) (ndays : Z) (mask : option (list bool)) (rows : list nrow)
    : option (list nrow) :=
  let! (seg, first, last, ref) := index_segment_track rows in
  let! conn := connexions seg rows first last in
  let! m := keep_segments rows conn nobs ndays 0 first last in
  let! segments_keep := match mask with
    | None => Some (where_ m)
    | Some k => if length k =? length seg then Some (usort (where_ m ++ select k seg)) else None (* boolean index did not match *)
    end in
  let! kept := generate_mask_from_ids segments_keep first last ref (repeat false (length rows)) in
  let removed := map negb kept in
  let! rows1 := cut_links removed (move_trash removed rows) in
  let! (_, _, rows2) := sort [0; 1; 2] rows1 in
  match recursive with
  | O => Some rows2
  | S recursive' => remove_dead_end recursive' nobs ndays None rows2
  end.
