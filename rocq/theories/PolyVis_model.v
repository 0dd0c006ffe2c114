(** Model of src/py_eddy_tracker/poly.py: simplification of a contour. *)
From Coq Require Import List Arith ZArith QArith Qabs Bool.
From Verif Require Import Base Qaux Poly_model.
Import ListNotations.
Local Close Scope Q_scope.
Local Open Scope nat_scope.

(** An element of the heap: double area and the three indices of a triangle. *)
Definition entry : Type := Q * (nat * nat * nat).
(** tri_area2, lines 747-763. *)
Definition tri_area2 (poly : list point) (i0 i1 i2 : nat) : option Q :=
  let! p0 := nth_error poly i0 in
  let! p1 := nth_error poly i1 in
  let! p2 := nth_error poly i2 in
  Some (Qabs ((fst p0 - fst p2) * (snd p1 - snd p0) - (fst p0 - fst p1) * (snd p2 - snd p0)))%Q.
Definition triangle (poly : list point) (i0 i1 i2 : nat) : option entry :=
  let! a := tri_area2 poly i0 i1 i2 in Some (a, (i0, i1, i2)).

(** Order of tuples used by heapq.  The heap is the list of its elements, in no
    order; heappush adds one and heappop takes away a smallest one. *)
Definition entry_lt (e f : entry) : bool :=
  let '(a, (i0, i1, i2)) := e in
  let '(b, (j0, j1, j2)) := f in
  Qlt_bool a b ||
  (Qeq_bool a b &&
    ((i0 <? j0) || ((i0 =? j0) && ((i1 <? j1) || ((i1 =? j1) && (i2 <? j2)))))).
Fixpoint heappop (h : list entry) : option (entry * list entry) :=
  match h with
  | [] => None
  | e :: h' =>
      match heappop h' with
      | None => Some (e, [])
      | Some (m, r) => if entry_lt m e then Some (m, e :: r) else Some (e, m :: r)
      end
  end.

(** Triangles put in the heap, lines 797-815. *)
Fixpoint push_all (poly : list point) (i0 i1 : nat) (is : list nat) (h : list entry) : option (list entry) :=
  match is with
  | [] => Some h
  | i :: is' => let! t := triangle poly i0 i1 i in push_all poly i1 i is' (t :: h)
  end.
(** i_previous and i_next hold [None] for -1. *)
Record vis := mkVis { v_heap : list entry; v_prev : list (option nat); v_next : list (option nat); v_removed : list bool; v_nb : nat }.
(** Body of the loop, lines 817-844. *)
Definition vis_step (poly : list point) (nb_ori : nat) (s : vis) : option vis :=
  let! (e, h) := heappop (v_heap s) in
  let '(_, (i0, i1, i2)) := e in
  let! r0 := nth_error (v_removed s) i0 in
  let! r2 := nth_error (v_removed s) i2 in
  if r0 || r2 then Some (mkVis h (v_prev s) (v_next s) (v_removed s) (v_nb s))
  else
    let! removed := store (v_removed s) i1 true in
    let nb := v_nb s - 1 in
    let! prev := store (v_prev s) i2 (Some i0) in
    let! next := store (v_next s) i0 (Some i2) in
    let! o_1 := nth_error prev i0 in
    let i_1 := match o_1 with Some i => i | None => (i0 + nb_ori - 1) mod nb_ori end in
    let! t0 := triangle poly i_1 i0 i2 in
    let! o3 := nth_error next i2 in
    let i3 := match o3 with Some i => i | None => (i2 + 1) mod nb_ori end in
    let! t1 := triangle poly i0 i2 i3 in
    Some (mkVis (t1 :: t0 :: h) prev next removed nb).
Fixpoint vis_loop (fuel : nat) (poly : list point) (nb_ori fixed_size : nat) (s : vis) : option vis :=
  match fuel with
  | O => None
  | S fuel' => if fixed_size <=? v_nb s then let! s' := vis_step poly nb_ori s in vis_loop fuel' poly nb_ori fixed_size s' else Some s
  end.
(** visvalingam, lines 766-856.  The number of turns of the loop is bounded by
    [4 * nb + 1]; [None] past it.  The result is [None] when the kept points do
    not fit or when none is kept. *)
Definition visvalingam (poly : list point) (fixed_size : nat) : option (list point) :=
  let nb := length poly in
  let! t := triangle poly (nb - 2) (nb - 1) 0 in
  let! h := push_all poly (nb - 1) 0 (seq 1 (nb - 1)) [t] in
  let! s := vis_loop (4 * nb + 1) poly nb fixed_size (mkVis h (repeat None nb) (repeat None nb) (repeat false nb) nb) in
  let kept := select (map negb (v_removed s)) poly in
  match kept with
  | [] => None
  | first :: _ => if length kept <=? fixed_size then Some (kept ++ repeat first (fixed_size - length kept)) else None
  end.
