(** Model of src/py_eddy_tracker/observations/network.py: events of a network,
    observations close to them, selection of networks. *)
From Coq Require Import List Arith ZArith Bool Lia.
From Verif Require Import Base Sort Generic_model Corr_model NetGroup_model Obs_model Net_model NetSeg_model.
Import ListNotations.

(** ** mask_follow_obs, lines 2300-2318 *)

(** The while loop of lines 2316-2319; [None] when [fuel] runs out.  The time
    is read before the test on -1, from the end then. *)
Fixpoint follow_loop (fuel : nat) (m : list bool) (next time : list Z) (t0 dt i_next : Z) : option (list bool) :=
  let! t := pyget time i_next in
  if (Z.abs (t - t0) <? dt)%Z && negb (i_next =? -1)%Z
  then match fuel with
    | O => None
    | S fuel' =>
        let! m' := pystore m i_next true in
        let! n := pyget next i_next in
        follow_loop fuel' m' next time t0 dt n
    end
  else Some m.
Definition follow_one (m : list bool) (next time : list Z) (dt i : Z) : option (list bool) :=
  let! t0 := pyget time i in
  let! m1 := pystore m i true in
  let! n := pyget next i in
  follow_loop (length m) m1 next time t0 dt n.
Fixpoint mask_follow_obs (m : list bool) (next time : list Z) (indexs : list Z) (dt : Z) : option (list bool) :=
  match indexs with
  | [] => Some m
  | i :: r => let! m' := follow_one m next time dt i in mask_follow_obs m' next time r dt
  end.

(** ** Events *)

(** merging_event, lines 1148-1187, with only_index=True: rows after, rows
    before and ends of segments.  [argsort] is numpy's argsort on times. *)
Definition merging_event_triplet (argsort : list Z -> list nat) (rows : list nrow) : option (list Z * list Z * list Z) :=
  let! (_, _, i1, _) := index_segment_track rows in
  let i_stop := map (fun b => (Z.of_nat b - 1)%Z) i1 in
  let! idx := take (map nxt rows) i_stop in
  let m := map (fun z => negb (z =? -1)%Z) idx in
  let idx_m1 := select m idx in
  let! t := take (map time rows) idx_m1 in
  let i := argsort t in
  let! idx_m1' := gather idx_m1 i in
  let! idx_m0_stop := gather (select m i_stop) i in
  let! idx_m0 := take (map prv rows) idx_m1' in
  Some (idx_m1', idx_m0, idx_m0_stop).
(** With triplet=False: [unique] of the first ones. *)
Definition merging_event (argsort : list Z -> list nat) (rows : list nrow) : option (list nat) :=
  let! (a, _, _) := merging_event_triplet argsort rows in Some (usort (map Z.to_nat a)).
(** splitting_event, lines 1189-1223: rows before, rows after and starts of
    segments. *)
Definition splitting_event_triplet (argsort : list Z -> list nat) (rows : list nrow) : option (list Z * list Z * list Z) :=
  let! (_, i_start, _, _) := index_segment_track rows in
  let i_start := map Z.of_nat i_start in
  let! idx := take (map prv rows) i_start in
  let m := map (fun z => negb (z =? -1)%Z) idx in
  let idx_s0 := select m idx in
  let! t := take (map time rows) idx_s0 in
  let i := argsort t in
  let! idx_s0' := gather idx_s0 i in
  let! idx_s1_start := gather (select m i_start) i in
  let! idx_s1 := take (map nxt rows) idx_s0' in
  Some (idx_s0', idx_s1, idx_s1_start).
Definition splitting_event (argsort : list Z -> list nat) (rows : list nrow) : option (list nat) :=
  let! (a, _, _) := splitting_event_triplet argsort rows in Some (usort (map Z.to_nat a)).

(** first_is_trash, lines 1407-1414. *)
Definition first_is_trash (rows : list nrow) : option bool :=
  let! (_, first, last, _) := index_segment_track rows in
  let! a := nth_error first 0 in
  let! b := nth_error last 0 in
  let s := slice rows a b in
  Some (forallb (fun r => (prv r =? -1)%Z) s && forallb (fun r => (nxt r =? -1)%Z) s).
(** birth_event, lines 1128-1134, and death_event, lines 1138-1144: indices
    given to extract_event. *)
Definition birth_event (rows : list nrow) : option (list nat) :=
  let! (_, i_start, _, _) := index_segment_track rows in
  let! p := gather (map prv rows) i_start in
  let indices := select (map (fun z => (z =? -1)%Z) p) i_start in
  let! trash := first_is_trash rows in
  Some (if trash : bool then tl indices else indices).
Definition death_event (rows : list nrow) : option (list nat) :=
  let! (_, _, i_stop, _) := index_segment_track rows in
  let! n := take (map nxt rows) (map (fun b => (Z.of_nat b - 1)%Z) i_stop) in
  let indices := map pred (select (map (fun z => (z =? -1)%Z) n) i_stop) in
  let! trash := first_is_trash rows in
  Some (if trash : bool then tl indices else indices).
(** remove_trash, lines 1416-1423. *)
Definition remove_trash (rows : list nrow) : option (list nrow) :=
  let! trash := first_is_trash rows in
  if trash : bool then extract_with_mask rows (map (fun r => negb (track r =? 0)) rows) else Some rows.

(** ** mask_obs_close_event, lines 1874-1894 *)
Definition mask_obs_close_event (argsort : list Z -> list nat) (merging spliting : bool) (dt : Z) (rows : list nrow) : option (list bool) :=
  let p := map prv rows in
  let n := map nxt rows in
  let t := map time rows in
  let m := repeat false (length rows) in
  let! m := (if merging then
    let! (i_target, ip1, ip2) := merging_event_triplet argsort rows in
    let! m := mask_follow_obs m p t ip1 dt in
    let! m := mask_follow_obs m p t ip2 dt in
    mask_follow_obs m n t i_target dt else Some m) in
  if spliting then
    let! (i_target, in1, in2) := splitting_event_triplet argsort rows in
    let! m := mask_follow_obs m n t in1 dt in
    let! m := mask_follow_obs m n t in2 dt in
    mask_follow_obs m p t i_target dt else Some m.

(** ** Networks *)

(** networks_mask and networks, lines 1241-1256, with [segment] for the mode
    on unique segment numbers. *)
Fixpoint mask_from_ids (ids : list Z) (istart iend : list nat) (i0 : Z) (m : list bool) : option (list bool) :=
  match ids with
  | [] => Some m
  | i :: ids' =>
      let! a := pyget istart (i - i0) in
      let! b := pyget iend (i - i0) in
      mask_from_ids ids' istart iend i0 (fill m a b true)
  end.
Definition networks_mask (segment : bool) (rows : list nrow) (ids : list Z) : option (list bool) :=
  if segment then
    let! (_, first, last, ref) := index_segment_track rows in
    mask_from_ids ids first last ref (repeat false (length rows))
  else
    let! (first, last, ref) := build_index (map (fun r => Z.of_nat (track r)) rows) in
    mask_from_ids ids first last ref (repeat false (length rows)).
Definition networks (rows : list nrow) (ids : list Z) : option (list nrow) :=
  let! m := networks_mask false rows ids in extract_with_mask rows m.

(** ptp of a slice of times: [None] on an empty one. *)
Definition ptp (l : list Z) : option Z :=
  match l with
  | [] => None
  | x :: r => Some (fold_left Z.max r x - fold_left Z.min r x)%Z
  end.
(** mask_longer_than, lines 287-304. *)
Fixpoint longer_slices (time : list Z) (mn mx : Z) (slices : list (nat * nat * nat)) (m : list bool) : option (list bool) :=
  match slices with
  | [] => Some m
  | (a, b, _) :: r =>
      if b - a =? 0 then longer_slices time mn mx r m
      else
        let! d := ptp (slice time a b) in
        let ok := ((mn <=? d + 1) && (d + 1 <=? mx))%Z in
        longer_slices time mn mx r (if ok then fill m a b true else m)
  end.
Definition mask_longer_than (nb_day_min nb_day_max : Z) (rows : list nrow) : option (list bool) :=
  let mx := (if nb_day_max <? 0 then 1000000000000 else nb_day_max)%Z in
  let! slices := segment_slices (map track rows) in
  longer_slices (map time rows) nb_day_min mx slices (repeat false (length rows)).
Definition longer_than (nb_day_min nb_day_max : Z) (rows : list nrow) : option (list nrow) :=
  let! m := mask_longer_than nb_day_min nb_day_max rows in extract_with_mask rows m.

(** ** fix_next_previous_obs, lines 85-103: flags of the virtual rows. *)
Fixpoint fix_links (i : nat) (flags : list bool) (next previous : list Z) : option (list Z * list Z) :=
  match flags with
  | [] => Some (next, previous)
  | false :: r => fix_links (S i) r next previous
  | true :: r =>
      let z := Z.of_nat i in
      let! n1 := pystore next (z - 1) z in
      let! n2 := pystore n1 z (z + 1)%Z in
      let! p1 := pystore previous z (z - 1)%Z in
      let! p2 := pystore p1 (z + 1) z in
      fix_links (S i) r n2 p2
  end.
