(** Model of the grouping of observations in networks and of the numbering
    helpers of observations/network.py. *)
From Coq Require Import List Arith Bool.
Import ListNotations.
From Verif Require Import Base.

(** ** Grouping *)

(** apply_replace, network.py lines 2203-2208. *)
Definition apply_replace (x : list nat) (x0 x1 : nat) : list nat :=
  map (fun v => if v =? x0 then x1 else v) x.

(** [sorted(duos)] on a set of pairs: lexicographic order, no repetition. *)
Definition pair_lt (a b : nat * nat) : bool :=
  (fst a <? fst b) || ((fst a =? fst b) && (snd a <? snd b)).
Definition pair_eq (a b : nat * nat) : bool := (fst a =? fst b) && (snd a =? snd b).
Fixpoint pinsert (p : nat * nat) (l : list (nat * nat)) : list (nat * nat) :=
  match l with
  | [] => [p]
  | a :: l' => if pair_lt p a then p :: l else if pair_eq p a then l else a :: pinsert p l'
  end.
Definition psort (l : list (nat * nat)) : list (nat * nat) := fold_right pinsert [] l.

(** Network.group_translator, lines 2005-2023. *)
Fixpoint translator_loop (duos : list (nat * nat)) (translate : list nat) : option (list nat) :=
  match duos with
  | [] => Some translate
  | (i, j) :: rest =>
      let! gr_i := nth_error translate i in
      let! gr_j := nth_error translate j in
      translator_loop rest (if gr_i =? gr_j then translate else apply_replace translate gr_i gr_j)
  end.
Definition group_translator (nb : nat) (duos : list (nat * nat)) : option (list nat) :=
  translator_loop (psort duos) (seq 0 nb).

(** Positions of the array [gr] seen through the view [gr[start:start+nb]]:
    an index outside the view is an error. *)
Fixpoint view (start nb : nat) (ix : list nat) : option (list nat) :=
  match ix with
  | [] => Some []
  | k :: r => if k <? nb then let! r' := view start nb r in Some (start + k :: r') else None
  end.

(** Mask computed from the two columns of values. *)
Definition mask2 (f : nat -> nat -> bool) (a b : list nat) : list bool :=
  map (fun p => f (fst p) (snd p)) (combine a b).
Definition free (g : nat) : bool := g =? 0.      (* g == NOGROUP *)

(** Body of the loop of get_group_array, lines 1980-2000.  The state is the
    group of each observation, the pairs of groups to join, the next free
    number; [ii], [ij] are positions in [gr],
    as many on both sides.  The chained assignment of
    line 1986 writes [gr_i] first, then [gr_j]. *)
Definition group_step (ii ij : list nat) (st : list nat * list (nat * nat) * nat)
    : option (list nat * list (nat * nat) * nat) :=
  let '(gr, merge_id, id_free) := st in
  let! _ := (if length ii =? length ij then Some tt else None) in
  let! a := gather gr ii in
  let! b := gather gr ij in
  let m := mask2 (fun x y => free x && free y) a b in
  let nb_new := count_true m in
  let! gr := stores gr (select m ii) (seq id_free nb_new) in
  let! gr := stores gr (select m ij) (seq id_free nb_new) in
  let id_free := id_free + nb_new in
  let! a := gather gr ii in
  let! b := gather gr ij in
  let m := mask2 (fun x y => negb (free x) && free y) a b in
  let! gr := stores gr (select m ij) (select m a) in
  let! a := gather gr ii in
  let! b := gather gr ij in
  let m := mask2 (fun x y => free x && negb (free y)) a b in
  let! gr := stores gr (select m ii) (select m b) in
  let! a := gather gr ii in
  let! b := gather gr ij in
  let m := mask2 (fun x y => negb (x =? y)) a b in
  let pairs := map (fun p => (Nat.min (fst p) (snd p), Nat.max (fst p) (snd p))) (select m (combine a b)) in
  Some (gr, merge_id ++ pairs, id_free).

Fixpoint group_loop (starts nb_obs : list nat) (results : list (nat * nat * list nat * list nat))
    (st : list nat * list (nat * nat) * nat) : option (list nat * list (nat * nat) * nat) :=
  match results with
  | [] => Some st
  | (i, j, ii, ij) :: rest =>
      let! si := nth_error starts i in
      let! ni := nth_error nb_obs i in
      let! sj := nth_error starts j in
      let! nj := nth_error nb_obs j in
      let! vi := view si ni ii in
      let! vj := view sj nj ij in
      let! st' := group_step vi vj st in
      group_loop starts nb_obs rest st'
  end.

(** Network.get_group_array, lines 1969-2003.  [results] lists, for each pair
    of dates [i], [j], the indices in each date of the observations in
    interaction.  Group numbers are unbounded (u4 in the code). *)
Definition get_group_array (results : list (nat * nat * list nat * list nat)) (nb_obs : list nat)
    : option (list nat) :=
  let! r := group_loop (excl_sums 0 nb_obs) nb_obs results (repeat 0 (sum_list nb_obs), [], 1) in
  let '(gr, merge_id, id_free) := r in
  let! gr_transfer := group_translator id_free merge_id in
  gather gr_transfer gr.

(** Dates compared by group_observations, lines 2044-2061: each file with the
    [window] following ones.  [overlap i j] is the outcome of the contour
    comparison (bbox_intersection and vertice_overlap): the two index lists. *)
Definition group_observations (window : nat) (nb_obs : list nat)
    (overlap : nat -> nat -> list nat * list nat) : option (list nat) :=
  let n := length nb_obs in
  let results := flat_map (fun i =>
    map (fun j => (i, j, fst (overlap i j), snd (overlap i j)))
        (seq (S i) (Nat.min (window + i + 1) n - S i))) (seq 0 n) in
  get_group_array results nb_obs.

(** ** Reordering by group *)

(** get_next_index, lines 2191-2200. *)
Fixpoint next_index_loop (gr i_gr : list nat) : option (list nat) :=
  match gr with
  | [] => Some []
  | g :: rest =>
      let! k := nth_error i_gr g in
      let! i_gr' := store i_gr g (S k) in
      let! r := next_index_loop rest i_gr' in
      Some (k :: r)
  end.
Fixpoint occurrences (g : nat) (l : list nat) : nat :=
  match l with [] => 0 | a :: l' => (if a =? g then 1 else 0) + occurrences g l' end.
(** numpy bincount. *)
Definition bincount (l : list nat) : list nat :=
  match l with
  | [] => []
  | _ => map (fun g => occurrences g l) (seq 0 (S (list_max l)))
  end.
Definition get_next_index (gr : list nat) : option (list nat) :=
  next_index_loop gr (excl_sums 0 (bincount gr)).

(** Rows written by build_dataset, lines 2090-2099: [new[new_i[sl]] = e] file
    after file, then the group column.  [blank] is the content of the rows of
    the new dataset before the copy. *)
Fixpoint copy_files {A} (files : list (list A)) (i : nat) (new_i : list nat) (out : list A) : option (list A) :=
  match files with
  | [] => Some out
  | e :: rest =>
      let stop := i + length e in
      let! out' := stores out (slice new_i i stop) e in
      copy_files rest stop new_i out'
  end.
Definition build_dataset {A} (blank : A) (files : list (list A)) (group : list nat)
    : option (list A * list nat) :=
  let! new_i := get_next_index group in
  let! rows := copy_files files 0 new_i (repeat blank (length group)) in
  let! track := stores (repeat 0 (length group)) new_i group in
  Some (rows, track).

(** ** Identifiers of (network, segment) *)

(** build_unique_array, lines 2211-2224; the first read of an empty array is
    an error. *)
Fixpoint unique_loop (k p1 p2 : nat) (id1 id2 : list nat) : list nat :=
  match id1, id2 with
  | a :: id1', b :: id2' =>
      let k' := if negb (a =? p1) || negb (b =? p2) then S k else k in
      k' :: unique_loop k' a b id1' id2'
  | _, _ => []
  end.
Definition build_unique_array (id1 id2 : list nat) : option (list nat) :=
  match id1, id2 with
  | a :: _, b :: _ => Some (unique_loop 0 a b id1 id2)
  | _, _ => None
  end.

(** new_numbering, lines 2227-2236. *)
Fixpoint numbering_loop (j s0 : nat) (segs : list nat) : list nat :=
  match segs with
  | [] => []
  | s :: rest =>
      let j' := if s =? s0 then j else S j in
      j' :: numbering_loop j' s rest
  end.
Definition new_numbering (segs : list nat) (start : nat) : option (list nat) :=
  match segs with
  | [] => None
  | s0 :: _ => Some (numbering_loop start s0 segs)
  end.
