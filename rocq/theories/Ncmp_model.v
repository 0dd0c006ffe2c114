(** Model of run_compare, src/py_eddy_tracker/appli/network.py lines 213-280: the
    numbers displayed by the comparison of two atlases of networks.  The checks of
    the next and previous observations (lines 238-272) are only printed and are
    left out. *)
From Coq Require Import List Arith ZArith Bool QArith Lia.
From Verif Require Import Base Qaux Generic_model Obs_model Corr_model NetSeg_model NetGroup_model NetCmp_model Ident_model.
Import ListNotations.
Local Close Scope Q_scope.
Local Open Scope nat_scope.

(** A row of an atlas: network (track), segment and position. *)
Notation arow := (nat * nat * pos)%type.
Definition net (r : arow) : nat := fst (fst r).
Definition seg (r : arow) : nat := snd (fst r).
(** The rows with their network, and with the unique number of their segment:
    segment_track_array, observations/network.py lines 1122-1126 (build_unique_array). *)
Definition nets (rows : list arow) : list row := map (fun r => (net r, snd r)) rows.
Definition segs (rows : list arow) : option (list row) :=
  let! u := build_unique_array (map seg rows) (map net rows) in Some (combine u (map snd rows)).
(** index_network and index_segment_track, lines 182-191. *)
Definition index_of (rows : list row) : option tabs := build_index (map (fun r => Z.of_nat (fst r)) rows).
(** networks, lines 1251-1256. *)
Definition networks (ids : list nat) (rows : list arow) : option (list arow) :=
  let! t := index_of (nets rows) in
  let '(f, l, ref) := t in
  let! m := generate_mask_from_ids ids f l ref (repeat false (length rows)) in
  Some (select m rows).
(** network_size of given networks, lines 216-226. *)
Definition size_at (t : tabs) (z : Z) : option Z :=
  let '(f, l, _) := t in
  let! a := pyget f z in
  let! b := pyget l z in
  Some (Z.of_nat b - Z.of_nat a)%Z.
Definition network_size (ids : list nat) (rows : list arow) : option (list Z) :=
  let! t := index_of (nets rows) in
  sequence (map (fun i => size_at t (Z.of_nat i - snd t)) ids).
(** segment_size()[ids], lines 193-194: the position in the array is the number. *)
Definition segment_size (ids : list nat) (s : list row) : option (list Z) :=
  let! t := index_of s in sequence (map (fun i => size_at t (Z.of_nat i)) ids).
(** unique_segment_to_id, lines 228-234: network of a unique number of segment. *)
Definition segment_network (rows : list arow) (s : list row) (u : nat) : option nat :=
  let! t := index_of s in
  let '(f, _, ref) := t in
  let! i := pyget f (Z.of_nat u) in
  pyget (map net rows) (Z.of_nat i - ref).
Definition zsum (l : list Z) : Z := fold_right Z.add 0%Z l.
Definition is_found (p : nat * Z) : bool := negb (snd p =? -1)%Z.

(** The six numbers, lines 222-277. *)
Definition compare (argsort : list Z -> list nat) (posargsort : list pos -> list nat) (ref other : list arow) : option (nat * Z * nat * Z * nat * Z) :=
  let! r1 := identify_in argsort posargsort 2 (nets ref) (nets other) in
  let same := filter is_found r1 in
  let ref_id := map fst same in
  let other_id := map (fun p => Z.to_nat (snd p)) same in
  let! n_obs := network_size ref_id ref in
  let! ref_ := networks ref_id ref in
  let! other_ := networks other_id other in
  let! s1 := segs ref_ in
  let! s2 := segs other_ in
  let! r2 := identify_in argsort posargsort 1 s1 s2 in
  let! no_match := sequence (map (fun p => segment_network ref_ s1 (fst p)) (filter (fun p => negb (is_found p)) r2)) in
  let same_ns := filter (fun t => negb (mem t no_match)) ref_id in
  let! ns_obs := network_size same_ns ref in
  let! t1 := segs ref in
  let! t2 := segs other in
  let! r3 := identify_in argsort posargsort 1 t1 t2 in
  let same_s := map fst (filter is_found r3) in
  let! s_obs := segment_size same_s t1 in
  Some (length ref_id, zsum n_obs, length same_ns, zsum ns_obs, length same_s, zsum s_obs).
