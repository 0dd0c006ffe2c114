(** Model of src/py_eddy_tracker/observations/network.py (NetworkObservations):
    sort, extraction, search of links, relatives, components, dead ends. *)
From Coq Require Import List Arith ZArith QArith Qround Bool Lia.
From Verif Require Import Base Sort Generic_model Corr_model NetGroup_model Obs_model.
Import ListNotations.
Local Close Scope Q_scope.
Local Open Scope nat_scope.

(** One observation of a network: the fields the functions below use, the
    others in [rest].  A link is the index of a row, -1 when absent. *)
Record nrow := Row { track : nat; segment : nat; time : Z; nxt : Z; prv : Z; rest : list Z }.
Definition set_links (r : nrow) (n p : Z) : nrow := Row (track r) (segment r) (time r) n p (rest r).

(** ** sort, lines 409-427 *)

(** All the fields of a row (their order in the dtype is not kept). *)
Definition fields (r : nrow) : list Z :=
  [Z.of_nat (track r); Z.of_nat (segment r); time r; nxt r; prv r] ++ rest r.
(** numpy [argsort(order=...)] compares the fields of [order], then all the
    fields. *)
Definition key (order : list nat) (r : nrow) : list Z := map (fun f => nth f (fields r) 0%Z) order ++ fields r.
Fixpoint lexle (a b : list Z) : bool :=
  match a, b with
  | [], _ => true
  | _ :: _, [] => false
  | x :: a', y :: b' => (x <? y)%Z || ((x =? y)%Z && lexle a' b')
  end.
(** Lines 420-423: [translate] has one more element, read by index -1. *)
Definition translate_table (n : nat) (ix : list nat) : option (list Z) :=
  stores (repeat (-1)%Z (n + 1)) ix (map Z.of_nat (seq 0 (length ix))).
Fixpoint relink (rows : list nrow) (n p : list Z) : list nrow :=
  match rows, n, p with
  | r :: rows', a :: n', b :: p' => set_links r a b :: relink rows' n' p'
  | _, _, _ => []
  end.
Definition sort (order : list nat) (rows : list nrow) : option (list nat * list Z * list nrow) :=
  let index_order := stable_argsort (fun a b => lexle (key order a) (key order b)) rows in
  let! rows1 := gather rows index_order in
  let! translate := translate_table (length rows) index_order in
  let! n := take translate (map nxt rows1) in
  let! p := take translate (map prv rows1) in
  Some (index_order, translate, relink rows1 n p).

(** ** extract_with_mask, lines 1605-1637 (the same re-indexing as lines
    1589-1602 of extract_light_with_mask) *)
Definition extract_with_mask (rows : list nrow) (mask : list bool) : option (list nrow) :=
  if negb (length mask =? length rows) then None (* boolean index did not match *)
  else if count_true mask =? 0 then Some []
  else
    let kept := select mask rows in
    let! translate := translate_table (length rows) (where_ mask) in
    let! n := take translate (map nxt kept) in
    let! p := take translate (map prv kept) in
    Some (relink kept n p).
(** The same with a slice [a:b], 0 <= a <= b. *)
Definition extract_with_slice (rows : list nrow) (a b : nat) : option (list nrow) :=
  if b - a =? 0 then Some []
  else
    let kept := slice rows a b in
    if negb (length kept =? b - a) then None (* could not broadcast *)
    else
      let! translate := translate_table (length rows) (seq a (b - a)) in
      let! n := take translate (map nxt kept) in
      let! p := take translate (map prv kept) in
      Some (relink kept n p).

(** ** from_split_network, lines 306-332: the rows of the group dataset with
    the segment, the links and the order given by split_network.  [order] is
    the argsort on (group, track, time), whose order of ties is any; empty
    [max()] raises. *)
Definition from_split_network (index_order : list nat) (data : list (nat * Z * list Z)) (segs : list nat) (next previous : list Z)
    : option (list nrow) :=
  match index_order with
  | [] => None
  | _ =>
    let! d := gather data index_order in
    let! s := gather segs index_order in
    let! n := gather next index_order in
    let! p := gather previous index_order in
    let! translate := stores (repeat (-1)%Z (list_max index_order + 2)) index_order (map Z.of_nat (seq 0 (length index_order))) in
    let! n' := take translate n in
    let! p' := take translate p in
    Some (map (fun x => let '((tr, t, r), sg, a, b) := x in Row tr sg t a b r) (combine (combine (combine d s) n') p'))
  end.

(** ** Segments and links *)

(** segment_track_array, lines 1121-1126: one number per (network, segment). *)
Definition segment_track_array (rows : list nrow) : option (list nat) :=
  build_unique_array (map segment rows) (map track rows).
(** [self.iter_on(segment)]: slices with the number of the segment.  The array
    is unsigned, so that iter_on always yields slices. *)
Definition segment_slices (seg : list nat) : option (list (nat * nat * nat)) :=
  match iter_on (fun _ => []) true (map (fun s => inject_Z (Z.of_nat s)) seg) None with
  | (gs, true) =>
      sequence (map (fun g => match g with (Slice a b, lo, _) => Some (a, b, Z.to_nat (Qfloor lo)) | _ => None end) gs)
  | (_, false) => None
  end.
(** Lines 463-491: the links at the ends of the segments, as (row, later row)
    in the order of the loop.  The dictionary of the code stores each link
    under the segment of each of its two rows; here it is looked up by
    [forward_links] and [backward_links]. *)
Fixpoint end_links (rows : list nrow) (slices : list (nat * nat * nat)) : option (list (Z * Z)) :=
  match slices with
  | [] => Some []
  | (a, b, _) :: rest =>
      if a =? b then end_links rows rest
      else
        let! ra := nth_error rows a in
        let! rb := nth_error rows (b - 1) in
        let! r := end_links rows rest in
        Some ((if (prv ra =? -1)%Z then [] else [(prv ra, Z.of_nat a)]) ++
              (if (nxt rb =? -1)%Z then [] else [(Z.of_nat (b - 1), nxt rb)]) ++ r)
  end.
(** [segment[i]] of both rows of a link, in the order (row, row, segment,
    segment). *)
Definition link_segments (seg : list nat) (links : list (Z * Z)) : option (list (nat * nat * nat * nat)) :=
  sequence (map (fun l => let! a := pyget seg (fst l) in let! b := pyget seg (snd l) in
    Some (Z.to_nat (fst l), Z.to_nat (snd l), a, b)) links).
Definition forward_links (links : list (nat * nat * nat * nat)) (s : nat) : list (nat * nat * nat) :=
  map (fun l => let '(x, y, sx, sy) := l in (x, y, sy)) (filter (fun l => let '(x, y, sx, sy) := l in sx =? s) links).
Definition backward_links (links : list (nat * nat * nat * nat)) (s : nat) : list (nat * nat * nat) :=
  map (fun l => let '(x, y, sx, sy) := l in (y, x, sx)) (filter (fun l => let '(x, y, sx, sy) := l in sy =? s) links).
Definition slice_of (slices : list (nat * nat * nat)) (s : nat) : option (nat * nat) :=
  option_map fst (find (fun e => snd e =? s) slices).

(** ** find_link, lines 433-526 *)

(** func_forward and func_backward, lines 495-515; the recursion of the code
    has no bound, [None] when [fuel] runs out. *)
Fixpoint func_forward (slices : list (nat * nat * nat)) (links : list (nat * nat * nat * nat)) (fuel seg indice : nat)
    (mask : list bool) : option (list bool) :=
  match fuel with
  | O => None
  | S fuel' =>
      let! (_, stop) := slice_of slices seg in
      fold_left (fun om l => let '(i_begin, i_end, seg2) := l in
          let! m := om in
          if i_begin <? indice then Some m
          else
            let! seen := nth_error m i_end in
            if seen : bool then Some m else func_forward slices links fuel' seg2 i_end m)
        (forward_links links seg) (Some (fill mask indice stop true))
  end.
Fixpoint func_backward (slices : list (nat * nat * nat)) (links : list (nat * nat * nat * nat)) (fuel seg indice : nat)
    (mask : list bool) : option (list bool) :=
  match fuel with
  | O => None
  | S fuel' =>
      let! (start, _) := slice_of slices seg in
      fold_left (fun om l => let '(i_begin, i_end, seg2) := l in
          let! m := om in
          if indice <? i_begin then Some m
          else
            let! seen := nth_error m i_end in
            if seen : bool then Some m else func_backward slices links fuel' seg2 i_end m)
        (backward_links links seg) (Some (fill mask start (indice + 1) true))
  end.
(** Lines 517-524. *)
Definition link_mask (forward backward : bool) (rows : list nrow) (i_obs : list nat) : option (list bool) :=
  let! seg := segment_track_array rows in
  let! slices := segment_slices seg in
  let! el := end_links rows slices in
  let! links := link_segments seg el in
  fold_left (fun om indice =>
      let! m := om in
      let! s := nth_error seg indice in
      let! m1 := (if forward then func_forward slices links (S (length rows)) s indice m else Some m) in
      if backward then func_backward slices links (S (length rows)) s indice m1 else Some m1)
    i_obs (Some (repeat false (length seg))).
Definition find_link (forward backward : bool) (rows : list nrow) (i_obs : list nat) : option (list nrow) :=
  let! m := link_mask forward backward rows i_obs in extract_with_mask rows m.
