(** Model of array helpers of [src/py_eddy_tracker/generic.py]. *)
From Coq Require Import List Arith ZArith Bool QArith Qround Qabs.
From Verif Require Import Base Qaux.
Import ListNotations.

(** ** count_consecutive, generic.py lines 28-46.
    The loop writes [output[i] = count] on true positions and leaves the
    initial 0 elsewhere; [count] is the running count. *)
Fixpoint count_consecutive_from (count : Z) (mask : list bool) : list Z :=
  match mask with
  | [] => []
  | m :: mask' =>
      if m then (count + 1)%Z :: count_consecutive_from (count + 1)%Z mask'
      else 0%Z :: count_consecutive_from 0%Z mask'
  end.
Definition count_consecutive (mask : list bool) : list Z := count_consecutive_from 0 mask.

(** ** reverse_index, generic.py lines 49-62.
    [m = ones(nb)]; [m[i] = False] for each listed index; [where(m)[0]].
    Indices are naturals (they come from unsigned fields); one outside the
    range is an error. *)
Fixpoint clear_all (m : list bool) (index : list nat) : option (list bool) :=
  match index with
  | [] => Some m
  | i :: index' => let! m' := store m i false in clear_all m' index'
  end.
Definition reverse_index (index : list nat) (nb : nat) : option (list nat) :=
  let! m := clear_all (repeat true nb) index in Some (where_ m).

(** ** build_index, generic.py lines 65-92. *)
Fixpoint zmin_from (a : Z) (l : list Z) : Z :=
  match l with [] => a | b :: l' => zmin_from (Z.min a b) l' end.
Fixpoint zmax_from (a : Z) (l : list Z) : Z :=
  match l with [] => a | b :: l' => zmax_from (Z.max a b) l' end.

(** Loop of lines 83-88 over [groups[:-1]] with its successor.  The slice
    bounds are non negative because [i0] is the minimum. *)
Fixpoint build_index_loop (i0 : Z) (i : nat) (groups : list Z) (first : list nat) : list nat :=
  match groups with
  | g :: rest =>
      match rest with
      | n :: _ =>
          build_index_loop i0 (S i) rest
            (if (g =? n)%Z then first
             else fill first (Z.to_nat (g - i0 + 1)) (Z.to_nat (n - i0 + 1)) (S i))
      | [] => first
      end
  | [] => first
  end.

(** Result (first_index, last_index, i0); [None]: min of an empty array raises. *)
Definition build_index (groups : list Z) : option (list nat * list nat * Z) :=
  match groups with
  | [] => None
  | g :: rest =>
      let i0 := zmin_from g rest in
      let i1 := zmax_from g rest in
      let amplitude := Z.to_nat (i1 - i0 + 1) in
      let first := build_index_loop i0 0 groups (repeat 0%nat amplitude) in
      (* last_index[:-1] = first_index[1:]; last_index[-1] = len(groups) *)
      Some (first, tl first ++ [length groups], i0)
  end.

(** ** cumsum_by_track, generic.py lines 160-180. *)
Fixpoint cumsum_from (tr_previous : Z) (d_cum : Q) (field : list Q) (track : list Z) : list Q :=
  match field, track with
  | f :: field', tr :: track' =>
      let d := if (tr =? tr_previous)%Z then d_cum else 0%Q in
      let d' := (d + f)%Q in
      d' :: cumsum_from tr d' field' track'
  | _, _ => []
  end.
Definition cumsum_by_track (field : list Q) (track : list Z) : list Q :=
  cumsum_from 0 0 field track.

(** ** flatten_line_matrix, generic.py lines 330-355. *)
Inductive cell (A : Type) := Uninit | Nan | Val (a : A).
Arguments Uninit {A}. Arguments Nan {A}. Arguments Val {A} a.

(** Compiled code does not check bounds: the state records whether a store
    went past the end of the output array. *)
Record outbuf (A : Type) := { ob_cells : list (cell A); ob_inc : nat; ob_oob : bool }.
Arguments ob_cells {A} _. Arguments ob_inc {A} _. Arguments ob_oob {A} _.

Definition put {A} (s : outbuf A) (c : cell A) : outbuf A :=
  {| ob_cells := upd (ob_cells s) (ob_inc s) c;
     ob_inc := S (ob_inc s);
     ob_oob := ob_oob s || negb (ob_inc s <? length (ob_cells s)) |}.

(** Lines 347-354: every line is followed by a nan, the last one too.
    The matrix is given by its rows and its declared number of columns. *)
Definition flatten_line_matrix {A} (sampling : nat) (rows : list (list A)) : outbuf A :=
  let nb_line := length rows in
  (* final_size = (nb_line - 1) + nb_line * sampling, on signed integers *)
  let final_size := (Z.of_nat nb_line - 1 + Z.of_nat nb_line * Z.of_nat sampling)%Z in
  if (final_size <? 1)%Z then
    {| ob_cells := [Nan]; ob_inc := 0; ob_oob := false |}
  else
    fold_left (fun s row => put (fold_left (fun s' a => put s' (Val a)) row s) Nan)
      rows {| ob_cells := repeat Uninit (Z.to_nat final_size); ob_inc := 0; ob_oob := false |}.

(** ** simplify, generic.py lines 358-413.
    A point is [None] when one of its coordinates is nan. *)
Definition point := (Q * Q)%type.

(** Leading loop of lines 373-378: index of the first point that is not nan;
    when all points are nan the loop variable ends on the last index.
    [None] for an empty array, where [j] is unbound. *)
Fixpoint first_valid (j : nat) (pts : list (option point)) : option nat :=
  match pts with
  | [] => None
  | Some _ :: _ => Some j
  | [None] => Some j
  | None :: rest => first_valid (S j) rest
  end.

(** Loop of lines 384-405 after the reference point; returns the mask. *)
Fixpoint simplify_loop (p : Q) (prev : point) (last_nan : bool) (pts : list (option point)) : list bool :=
  match pts with
  | [] => []
  | None :: rest =>
      negb last_nan :: simplify_loop p prev true rest
  | Some (x, y) :: rest =>
      let d_x := (x - fst prev)%Q in
      let d_y := (y - snd prev)%Q in
      if Qlt_bool p d_x then true :: simplify_loop p (x, y) false rest
      else if Qlt_bool p d_y then true :: simplify_loop p (x, y) false rest
      else if Qlt_bool (p * p) (d_x * d_x + d_y * d_y) then true :: simplify_loop p (x, y) false rest
      else false :: simplify_loop p prev false rest
  end.

Definition simplify_mask (p : Q) (pts : list (option point)) : option (list bool) :=
  let! j := first_valid 0 pts in
  if (j =? length pts - 1)%nat then Some (repeat false (length pts))
  else
    match nth_error pts j with
    | Some (Some prev) =>
        Some (repeat false j ++ true :: simplify_loop p prev false (skipn (S j) pts))
    | _ => None
    end.
Definition simplify (p : Q) (pts : list (option point)) : option (list (option point)) :=
  let! m := simplify_mask p pts in Some (select m pts).

(** ** split_line, generic.py lines 416-441.
    Points stand for the (x, y) pair, both arrays being written together. *)
Fixpoint nb_jumps (i : list Z) : nat :=
  match i with
  | a :: rest =>
      match rest with
      | b :: _ => (if (a =? b)%Z then 0 else 1) + nb_jumps rest
      | [] => 0
      end
  | [] => 0
  end.

Definition put_checked {A} (s : list (cell A) * nat) (c : cell A) : option (list (cell A) * nat) :=
  let! l := store (fst s) (snd s) c in Some (l, S (snd s)).

Fixpoint split_line_loop {A} (pts : list A) (i : list Z) (s : list (cell A) * nat) : option (list (cell A) * nat) :=
  match pts, i with
  | [], _ => Some s
  | p :: pts', a :: i' =>
      let! s1 := put_checked s (Val p) in
      match pts', i' with
      | _ :: _, b :: _ =>
          if (a =? b)%Z then split_line_loop pts' i' s1
          else let! s2 := put_checked s1 Nan in split_line_loop pts' i' s2
      | _ :: _, [] => None
      | [], _ => Some s1
      end
  | _ :: _, [] => None
  end.

Definition split_line {A} (pts : list A) (i : list Z) : option (list (cell A)) :=
  let! s := split_line_loop pts i (repeat Uninit (nb_jumps i + length pts), 0%nat) in
  Some (fst s).

(** ** wrap_longitude, generic.py lines 444-499. *)
Definition wrap1 (ref x : Q) : Q := (Qmod (x - ref) 360 + ref)%Q.

(** cut=False branch, lines 494-499. *)
Definition wrap_longitude (x : list Q) (ref : Q) : list Q := map (wrap1 ref) x.

(** cut=True branch, lines 456-492.  [x] values are [None] when nan.
    Lines 461-470 mark the positions where the wrapped step differs from the
    raw step; lines 477-491 insert three cells before such a position. *)
Definition is_cut (ref : Q) (prev cur : option Q) : bool :=
  match prev, cur with
  | Some xp, Some x =>
      Qlt_bool (1 # 100000) (Qabs ((x - xp) - (wrap1 ref x - wrap1 ref xp)))
  | _, _ => false
  end.

Definition wrap_opt (ref : Q) (x : option Q) : option Q :=
  match x with Some v => Some (wrap1 ref v) | None => None end.

(** Output cells: [(x, y)] with [x = None] for nan. *)
Fixpoint wrap_cut_from (ref : Q) (xp : option Q) (yp : Q) (pts : list (option Q * Q)) : list (option Q * option Q) :=
  match pts with
  | [] => []
  | (x, y) :: rest =>
      (if is_cut ref xp x then
         match xp, x with
         | Some xpv, Some xv =>
             (* cor = 360 if x[i - 1] > x[i] else -360 *)
             let cor := if Qlt_bool xv xpv then 360%Q else (-(360))%Q in
             [(Some (wrap1 ref xv - cor)%Q, Some y); (None, None); (Some (wrap1 ref xpv + cor)%Q, Some yp)]
         | _, _ => []
         end
       else [])
      ++ (wrap_opt ref x, Some y) :: wrap_cut_from ref x y rest
  end.

(** [None]: an empty array, [x[0]] out of range. *)
Definition wrap_longitude_cut (ref : Q) (pts : list (option Q * Q)) : option (list (option Q * option Q)) :=
  match pts with
  | [] => None
  | (x, y) :: rest => Some ((wrap_opt ref x, Some y) :: wrap_cut_from ref x y rest)
  end.

(** ** window_index, generic.py lines 617-656.
    One bound table.  [centers] is [x0[j:]] shifted by the half window, so its
    head is the running threshold; [done] holds the entries [0 .. j-1] in
    reverse order.  The flag becomes true when the code reads [x0[nb_pt]],
    one past the end (lines 641 and 646 after the last centre). *)
Fixpoint window_advance (x : Q) (i : nat) (centers : list Q) (done : list nat) (oob : bool)
  : list Q * list nat * bool :=
  match centers with
  | [] => ([], done, oob)
  | c :: centers' =>
      if Qlt_bool c x then
        window_advance x i centers' (i :: done) (oob || match centers' with [] => true | _ => false end)
      else (centers, done, oob)
  end.

Record wstate := { w_lo : list Q; w_first : list nat; w_hi : list Q; w_last : list nat; w_oob : bool }.

(** Loop of lines 635-648 over the sorted values. *)
Fixpoint window_loop (xs : list Q) (i : nat) (s : wstate) : wstate :=
  match xs with
  | [] => s
  | x :: xs' =>
      let '(lo, f, o1) := window_advance x i (w_lo s) (w_first s) (w_oob s) in
      let '(hi, l, o2) := window_advance x i (w_hi s) (w_last s) o1 in
      let s' := {| w_lo := lo; w_first := f; w_hi := hi; w_last := l; w_oob := o2 |} in
      match hi with
      | [] => s'    (* if j_max == nb_pt: break *)
      | _ => window_loop xs' (S i) s'
      end
  end.

(** [xs] is [x[i_ordered]], the sorted values (argsort itself is not modelled). *)
Definition window_index (xs x0 : list Q) (hw : Q) : list nat * list nat * bool :=
  let s := window_loop xs 0
    {| w_lo := map (fun c => c - hw)%Q x0; w_first := [];
       w_hi := map (fun c => c + hw)%Q x0; w_last := []; w_oob := false |} in
  (* lines 649-652: remaining entries are nb_x *)
  (rev (w_first s) ++ repeat (length xs) (length (w_lo s)),
   rev (w_last s) ++ repeat (length xs) (length (w_hi s)),
   w_oob s).
