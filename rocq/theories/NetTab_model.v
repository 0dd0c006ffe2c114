(** Model of the tables kept by a network, src/py_eddy_tracker/observations/network.py:
    reset_index, index_network, index_segment_track, segment_track_array, sizes,
    numbering_segment and numbering_network, and the functions which map a method
    on networks or segments.  A network is its columns track and segment. *)
From Coq Require Import List Arith ZArith Bool.
From Verif Require Import Base Generic_model Corr_model NetGroup_model Obs_model Net_model.
Import ListNotations.
Local Open Scope nat_scope.

Definition tables : Type := (list nat * list nat * Z)%type.
Definition lowest (t : tables) : Z := snd t.
(** The attributes of __slots__, line 107; [None] as set by reset_index, lines
    132-135. *)
Record net := Net { tr : list nat; sg : list nat; c_net : option tables; c_arr : option (list nat); c_seg : option tables }.
Definition fresh (t s : list nat) : net := Net t s None None None.
Definition of_network (t : list nat) : option tables := build_index (map Z.of_nat t).
Definition of_segment (u : list nat) : option tables := build_index (map Z.of_nat u).

(** index_network, lines 181-185. *)
Definition index_network (n : net) : option (tables * net) :=
  match c_net n with
  | Some t => Some (t, n)
  | None => let! t := of_network (tr n) in Some (t, Net (tr n) (sg n) (Some t) (c_arr n) (c_seg n))
  end.
(** segment_track_array, lines 1121-1126. *)
Definition segment_array (n : net) : option (list nat * net) :=
  match c_arr n with
  | Some u => Some (u, n)
  | None => let! u := build_unique_array (sg n) (tr n) in Some (u, Net (tr n) (sg n) (c_net n) (Some u) (c_seg n))
  end.
(** index_segment_track, lines 187-191. *)
Definition index_segment (n : net) : option (tables * net) :=
  match c_seg n with
  | Some t => Some (t, n)
  | None => let! (u, n1) := segment_array n in
      let! t := of_segment u in Some (t, Net (tr n1) (sg n1) (c_net n1) (c_arr n1) (Some t))
  end.

(** [i1 - i0]. *)
Fixpoint minus_all (b a : list nat) : list Z :=
  match b, a with x :: b', y :: a' => (Z.of_nat x - Z.of_nat y)%Z :: minus_all b' a' | _, _ => [] end.
(** [i1[i] - i0[i]] with [i = id - ref], one number (signed integers). *)
Definition size_at (t : tables) (id : Z) : option Z :=
  let '(first, last, ref) := t in
  let! b := pyget last (id - ref) in let! a := pyget first (id - ref) in Some (Z.of_nat b - Z.of_nat a)%Z.
(** network_size, lines 216-226, without numbers then with some. *)
Definition network_sizes (n : net) : option (list Z * net) :=
  let! (t, n1) := index_network n in let '(first, last, _) := t in Some (minus_all last first, n1).
Definition network_size (n : net) (ids : list Z) : option (list Z * net) :=
  let! (t, n1) := index_network n in let! l := sequence (map (size_at t) ids) in Some (l, n1).
(** nb_network, lines 1258-1263. *)
Definition nb_network (n : net) : option (nat * net) :=
  let! (l, n1) := network_sizes n in Some (count_true (map (fun z => negb (z =? 0)%Z) l), n1).
(** network_slice, lines 245-253. *)
Definition network_slice (n : net) (id : Z) : option ((nat * nat) * net) :=
  let! (t, n1) := index_network n in let '(first, last, ref) := t in
  let! a := pyget first (id - ref) in let! b := pyget last (id - ref) in Some ((a, b), n1).
(** segment_size, lines 193-194. *)
Definition segment_sizes (n : net) : option (list Z * net) :=
  let! (t, n1) := index_segment n in let '(first, last, _) := t in Some (minus_all last first, n1).
(** nb_segment, lines 1265-1270. *)
Definition nb_segment (n : net) : option (nat * net) :=
  let! (t, n1) := index_segment n in let '(first, _, _) := t in Some (length first, n1).
(** network_segment_size, lines 204-214. *)
Definition network_segment_size (n : net) (ids : list Z) : option (list Z * net) :=
  let! (t, n1) := index_segment n in let '(first, _, _) := t in
  let! g := gather (tr n1) first in
  let! t2 := build_index (map Z.of_nat g) in
  let! l := sequence (map (size_at t2) ids) in Some (l, n1).
(** unique_segment_to_id, lines 228-234. *)
Definition unique_segment_to_id (n : net) (ids : list Z) : option (list (nat * nat) * net) :=
  let! (t, n1) := index_segment n in let '(first, _, ref) := t in
  let! l := sequence (map (fun u => let! i := pyget first u in let j := (Z.of_nat i - ref)%Z in
    let! a := pyget (tr n1) j in let! b := pyget (sg n1) j in Some (a, b)) ids) in
  Some (l, n1).

(** numbering_segment, lines 712-717: [self.segment[i]] is a view, numbered in
    place. *)
Definition put_slice {A} (l : list A) (a b : nat) (src : list A) : list A := firstn a l ++ src ++ skipn b l.
Fixpoint number_slices (start : nat) (slices : list (nat * nat * nat)) (s : list nat) : option (list nat) :=
  match slices with
  | [] => Some s
  | (a, b, _) :: rest => let! u := new_numbering (slice s a b) start in number_slices start rest (put_slice s a b u)
  end.
Definition numbering_segment (n : net) (start : nat) : option net :=
  let! sl := segment_slices (tr n) in
  let! s := number_slices start sl (sg n) in
  Some (Net (tr n) s (c_net n) (c_arr n) (c_seg n)).
(** numbering_network, lines 719-723. *)
Definition numbering_network (n : net) (start : nat) : option net :=
  let! t := new_numbering (tr n) start in Some (Net t (sg n) (c_net n) (c_arr n) (c_seg n)).
(** sort, lines 409-427: [order] is the argsort on (track, segment, time); the
    links are in C37. *)
Definition sort_tables (order : list nat) (n : net) : option net :=
  let! t := gather (tr n) order in let! s := gather (sg n) order in Some (fresh t s).

(** Calls with their answers (as lists of integers). *)
Inductive call := Size (ids : list Z) | Sizes | NbNetwork | Slice_ (id : Z) | SegmentSizes | NbSegment | SegmentCount (ids : list Z) | ToId (ids : list Z)
  | NumberSegments (start : nat) | NumberNetworks (start : nat) | SortRows (order : list nat).
Definition step (n : net) (c : call) : option (list Z * net) :=
  match c with
  | Size ids => network_size n ids
  | Sizes => network_sizes n
  | NbNetwork => let! (k, n1) := nb_network n in Some ([Z.of_nat k], n1)
  | Slice_ id => let! (p, n1) := network_slice n id in Some ([Z.of_nat (fst p); Z.of_nat (snd p)], n1)
  | SegmentSizes => segment_sizes n
  | NbSegment => let! (k, n1) := nb_segment n in Some ([Z.of_nat k], n1)
  | SegmentCount ids => network_segment_size n ids
  | ToId ids => let! (l, n1) := unique_segment_to_id n ids in Some (flat_map (fun p => [Z.of_nat (fst p); Z.of_nat (snd p)]) l, n1)
  | NumberSegments start => let! n1 := numbering_segment n start in Some ([], n1)
  | NumberNetworks start => let! n1 := numbering_network n start in Some ([], n1)
  | SortRows order => let! n1 := sort_tables order n in Some ([], n1)
  end.
Fixpoint run (n : net) (cs : list call) : option (list (list Z) * net) :=
  match cs with
  | [] => Some ([], n)
  | c :: cs' => let! (a, n1) := step n c in let! (l, n2) := run n1 cs' in Some (a :: l, n2)
  end.

(** ** map_segment, lines 926-944, and map_network, lines 946-990 *)
Section Map.
Context {A B : Type}.
(** [out[a:b] = res]: a value alone is repeated. *)
Inductive result := One (v : B) | Many (l : list B).
Definition spread (res : result) (k : nat) : option (list B) :=
  match res with
  | One v => Some (repeat v k)
  | Many l => if length l =? k then Some l else match l with [v] => Some (repeat v k) | _ => None end
  end.
(** [out] starts uninitialised ([None]). *)
Fixpoint map_same (method : list A -> result) (y : list A) (slices : list (nat * nat * nat)) (out : list (option B)) : option (list (option B)) :=
  match slices with
  | [] => Some out
  | (a, b, _) :: rest =>
      let! r := spread (method (slice y a b)) (b - a) in
      map_same method y rest (put_slice out a b (map Some r))
  end.
(** same=True; [labels] is segment_track_array or track, [y] of the same size. *)
Definition map_group (labels : list nat) (method : list A -> result) (y : list A) : option (list (option B)) :=
  let! sl := segment_slices labels in map_same method y sl (repeat None (length y)).
(** same=False: one result for each group; the empty groups are left out. *)
Definition map_list (labels : list nat) (method : list A -> result) (y : list A) : option (list result) :=
  let! sl := segment_slices labels in
  Some (flat_map (fun e => let '(a, b, _) := e in if a =? b then [] else [method (slice y a b)]) sl).
(** map_network with return_dict: the pairs in the order they are stored. *)
Definition map_dict (labels : list nat) (method : list A -> result) (y : list A) : option (list (nat * result)) :=
  let! sl := segment_slices labels in
  Some (map (fun e => let '(a, b, s) := e in (s, method (slice y a b))) sl).
End Map.
Arguments result : clear implicits.
Definition map_segment {A B} (t s : list nat) (method : list A -> result B) (y : list A) : option (list (option B)) :=
  let! u := build_unique_array s t in map_group u method y.
