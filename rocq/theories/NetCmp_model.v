(** Model of src/py_eddy_tracker/observations/network.py: comparison of atlases
    (same_position) and the cache of contours (Buffer). *)
From Coq Require Import List Arith ZArith Bool Lia.
From Verif Require Import Base.
Import ListNotations.

(** ** same_position, lines 2263-2298 *)

(** A position: time, longitude, latitude.  Equality of floats is equality of
    integers here (no nan). *)
Definition pos := (Z * Z * Z)%type.
Definition pos_eqb (a b : pos) : bool :=
  match a, b with (t0, x0, y0), (t1, x1, y1) => (t0 =? t1)%Z && (x0 =? x1)%Z && (y0 =? y1)%Z end.
(** Loop of lines 2287-2292: two items with starts [s0], [s1] and orders [o0],
    [o1]; the zip stops with the shortest.  [None]: index out of range. *)
Fixpoint same_item (p0 p1 : list pos) (s0 s1 : nat) (o0 o1 : list nat) : option bool :=
  match o0, o1 with
  | i0 :: o0', i1 :: o1' =>
      let! a := nth_error p0 (i0 + s0) in
      let! b := nth_error p1 (i1 + s1) in
      if pos_eqb a b then same_item p0 p1 s0 s1 o0' o1' else Some false
  | _, _ => Some true
  end.
(** Loop on j1, lines 2283-2296: index of the item found, if any.  [items1] are
    the items of the other dataset from [j1] on, with their used flag. *)
Fixpoint find_item (p0 p1 : list pos) (s0 : nat) (o0 : list nat) (j1 : nat) (items1 : list (nat * list nat)) (used1 : list bool) : option (option nat) :=
  match items1, used1 with
  | (s1, o1) :: items1', u :: used1' =>
      if u : bool then find_item p0 p1 s0 o0 (S j1) items1' used1'
      else
        let! test := same_item p0 p1 s0 s1 o0 o1 in
        if test : bool then Some (Some j1) else find_item p0 p1 s0 o0 (S j1) items1' used1'
  | _, _ => Some None
  end.
(** Loop on j0: the targets, -1 when there is none.  An item is its start and
    the indices which order it (i00, i0 and i01, i1 of the function). *)
Fixpoint find_items (p0 p1 : list pos) (items0 items1 : list (nat * list nat)) (used1 : list bool) : option (list Z) :=
  match items0 with
  | [] => Some []
  | (s0, o0) :: items0' =>
      let! f := find_item p0 p1 s0 o0 0 items1 used1 in
      match f with
      | None => let! r := find_items p0 p1 items0' items1 used1 in Some ((-1)%Z :: r)
      | Some j1 => let! r := find_items p0 p1 items0' items1 (upd used1 j1 true) in Some (Z.of_nat j1 :: r)
      end
  end.
Definition same_position (p0 p1 : list pos) (items0 items1 : list (nat * list nat)) : option (list Z) :=
  find_items p0 p1 items0 items1 (repeat false (length items1)).
(** Items built by identify_in, lines 1327-1338: the blocks of a dataset sorted
    by item, with the start of each and its order given by [argsort]. *)
Definition items_of (argsort : list pos -> list nat) (blocks : list (list pos)) : list (nat * list nat) :=
  combine (excl_sums 0 (map (@length pos) blocks)) (map argsort blocks).

(** ** Buffer, lines 40-83 *)

(** Contours are any type; a file is its name, a number here.  [load kind f]
    is the content of the file for the contour asked ([intern]); [None] when
    it can not be read. *)
Section Cache.
Context {contour : Type} (load : bool -> nat -> option contour).

(** FLIST and DATA, both shared by every instance (class attributes). *)
Record cache := Cache { flist : list nat; data : list (nat * contour) }.
Fixpoint lookup (d : list (nat * contour)) (f : nat) : option contour :=
  match d with
  | [] => None
  | (g, c) :: d' => if f =? g then Some c else lookup d' f
  end.
(** DATA.pop: [None] is the KeyError. *)
Fixpoint pop_data (d : list (nat * contour)) (f : nat) : option (list (nat * contour)) :=
  match d with
  | [] => None
  | (g, c) :: d' => if f =? g then Some d' else let! r := pop_data d' f in Some ((g, c) :: r)
  end.
(** load_contour, lines 66-83, with a file name: result ([None] when it raises)
    and cache left behind. *)
Definition load_contour (kind : bool) (buffersize : Z) (f : nat) (s : cache) : option contour * cache :=
  match lookup (data s) f with
  | Some c => (Some c, s)
  | None =>
      let after_pop :=
        if (buffersize <? Z.of_nat (length (flist s)))%Z then
          match flist s with
          | [] => None (* pop from empty list *)
          | g :: l =>
              match pop_data (data s) g with
              | None => None
              | Some d => Some (Cache l d)
              end
          end
        else Some s in
      match after_pop with
      | None => (None, Cache (tl (flist s)) (data s))
      | Some s1 =>
          match load kind f with
          | None => (None, s1)
          | Some c => (Some c, Cache (flist s1 ++ [f]) ((f, c) :: data s1))
          end
      end
  end.
(** A run of requests. *)
Fixpoint load_all (kind : bool) (buffersize : Z) (fs : list nat) (s : cache) : list (option contour) * cache :=
  match fs with
  | [] => ([], s)
  | f :: r =>
      let '(c, s1) := load_contour kind buffersize f s in
      let '(l, s2) := load_all kind buffersize r s1 in
      (c :: l, s2)
  end.
(** Singleton, lines 40-46: the parameters of the first construction are those
    of every later one. *)
Definition construct (instance : option (bool * Z)) (params : bool * Z) : bool * Z :=
  match instance with Some p => p | None => params end.
End Cache.
