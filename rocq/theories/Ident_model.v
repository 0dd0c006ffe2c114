(** Model of NetworkObservations.identify_in, src/py_eddy_tracker/observations/network.py
    lines 1272-1354. *)
From Coq Require Import List Arith ZArith Bool QArith Lia.
From Verif Require Import Base Qaux Generic_model Obs_model Corr_model NetSeg_model NetCmp_model.
Import ListNotations.
Local Close Scope Q_scope.
Local Open Scope nat_scope.

(** A row: its label and its position.  The label is the number of the network
    (segment=False) or the unique number of the segment (segment_track_array,
    segment=True; the groups of lines 1321-1325 are then renumbered from 0
    by build_unique_array, which does not change them and is not modelled). *)
Notation row := (nat * pos)%type.

(** network_size and segment_size, lines 193-194 and 222-223: sizes of the
    labels from the smallest to the greatest. *)
Definition sizes (first last : list nat) : list Q :=
  map (fun p => inject_Z (Z.of_nat (snd p) - Z.of_nat (fst p))) (combine first last).

(** Lines 1327-1338: first row, order of its rows by position, and label of
    each item of the rows selected.  An index array has no attribute start. *)
Fixpoint items_from (posargsort : list pos -> list nat) (rows : list row) (gs : list group) : option (list (nat * list nat * nat)) :=
  match gs with
  | [] => Some []
  | (Slice a b, _, _) :: gs' =>
      let! r := nth_error rows a in
      let! l := items_from posargsort rows gs' in
      Some ((a, posargsort (map snd (slice rows a b)), fst r) :: l)
  | (Index _, _, _) :: _ => None
  end.
Definition items (argsort : list Z -> list nat) (posargsort : list pos -> list nat) (rows : list row) : option (list (nat * list nat * nat)) :=
  let '(gs, ok) := iter_on argsort false (map (fun r => inject_Z (Z.of_nat (fst r))) rows) None in
  if ok then items_from posargsort rows gs else None.

(** Lines 1345-1350: label of the item found, -1 without one. *)
Definition target (labels : list nat) (z : Z) : option Z :=
  if (z =? -1)%Z then Some (-1)%Z else let! u := pyget labels z in Some (Z.of_nat u).

(** Tables of build_index. *)
Definition tabs := (list nat * list nat * Z)%type.

(** The part of the loop of lines 1294-1352 for one size: the pairs (label of
    self, label of other or -1), [Some None] for a size left out. *)
Definition one_size (argsort : list Z -> list nat) (posargsort : list pos -> list nat) (size_min : Z)
    (self other : list row) (tself tother : tabs) (p : aligned) : option (option (list (nat * Z))) :=
  let '(r_self, r_other, b0, _) := p in
  let '(f1, l1, ref1) := tself in
  let '(f2, l2, ref2) := tother in
  if Qlt_bool b0 (inject_Z size_min) then Some None
  else
    let id_self := map (fun i => Z.to_nat (Z.of_nat i + ref1)) (rows_list r_self) in
    match rows_list r_other with
    | [] => Some (Some (map (fun i => (i, (-1)%Z)) id_self))
    | _ :: _ =>
        let id_other := map (fun i => Z.to_nat (Z.of_nat i + ref2)) (rows_list r_other) in
        let! m1 := generate_mask_from_ids id_self f1 l1 ref1 (repeat false (length self)) in
        let! m2 := generate_mask_from_ids id_other f2 l2 ref2 (repeat false (length other)) in
        let obs1 := select m1 self in
        let obs2 := select m2 other in
        let! i1 := items argsort posargsort obs1 in
        let! i2 := items argsort posargsort obs2 in
        let! found := same_position (map snd obs1) (map snd obs2) (map fst i1) (map fst i2) in
        let! ts := sequence (map (target (map snd i2)) found) in
        Some (Some (combine (map snd i1) ts))
    end.

(** Sizes kept; concatenate of an empty list raises. *)
Fixpoint chunks {A} (l : list (option A)) : list A :=
  match l with [] => [] | None :: l' => chunks l' | Some a :: l' => a :: chunks l' end.
Definition identify_in (argsort : list Z -> list nat) (posargsort : list pos -> list nat) (size_min : Z)
    (self other : list row) : option (list (nat * Z)) :=
  let! t1 := build_index (map (fun r => Z.of_nat (fst r)) self) in
  let! t2 := build_index (map (fun r => Z.of_nat (fst r)) other) in
  let '(f1, l1, _) := t1 in
  let '(f2, l2, _) := t2 in
  let '(ps, ok) := align_on true (iter_on argsort false (sizes f1 l1) None) (iter_on argsort false (sizes f2 l2) None) in
  let! done := sequence (map (one_size argsort posargsort size_min self other t1 t2) ps) in
  if ok then match chunks done with [] => None | c :: cs => Some (concat (c :: cs)) end else None.
