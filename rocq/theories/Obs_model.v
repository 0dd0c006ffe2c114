(** Model of selections and iterations of
    [src/py_eddy_tracker/observations/observation.py]. *)
From Coq Require Import List Arith ZArith Bool QArith Qround.
From Verif Require Import Base Qaux Generic_model.
Import ListNotations.
Local Close Scope Q_scope.
Local Open Scope nat_scope.

(** ** numba_digitize, lines 2650-2675 *)

(** numpy digitize for increasing edges (library call, line 2660). *)
Definition digitize1 (bins : list Q) (v : Q) : Z :=
  Z.of_nat (length (filter (fun b => Qle_bool b v) bins)).
(** Loop of lines 2656-2661: all the steps are equal. *)
Fixpoint regular (step prev : Q) (bins : list Q) : bool :=
  match bins with
  | [] => true
  | b :: r => if Qeq_bool step (b - prev) then regular step b r else false
  end.
(** Storing a float in an integer array truncates toward zero. *)
Definition Qtrunc (q : Q) : Z := if Qle_bool 0 q then Qfloor q else Qceiling q.
Definition digitize_regular (b0 bl step : Q) (nb_bins : nat) (v : Q) : Z :=
  if Qle_bool bl v then Z.of_nat nb_bins
  else if Qlt_bool v b0 then 0%Z
  else Qtrunc ((v - b0) / step + 1).
(** [None]: fewer than two edges, the read of [bins[1]] is outside. *)
Definition numba_digitize (values bins : list Q) : option (list Z) :=
  match bins with
  | b0 :: b1 :: rest =>
      let step := (b1 - b0)%Q in
      if regular step b1 rest
      then Some (map (digitize_regular b0 (last bins b0) step (length bins)) values)
      else Some (map (digitize1 bins) values)
  | _ => None
  end.

(** ** iter_on without window, lines 579-630 *)

(** Rows given to the caller: a slice or an index array. *)
Inductive rows := Slice (a b : nat) | Index (l : list nat).
Definition rows_list (r : rows) : list nat :=
  match r with Slice a b => seq a (b - a) | Index l => l end.

(** [(x[1:] - x[:-1] < 0).any()], lines 598 and 606; a difference of unsigned
    integers is never negative. *)
Fixpoint any_decrease (x : list Q) : bool :=
  match x with
  | a :: r => match r with b :: _ => Qlt_bool (b - a) 0 || any_decrease r | [] => false end
  | [] => false
  end.
Definition not_monotonous (unsigned : bool) (x : list Q) : bool := if unsigned then false else any_decrease x.

Fixpoint qmin_from (a : Q) (l : list Q) : Q :=
  match l with [] => a | b :: r => qmin_from (if Qlt_bool b a then b else a) r end.
Fixpoint qmax_from (a : Q) (l : list Q) : Q :=
  match l with [] => a | b :: r => qmax_from (if Qlt_bool a b then b else a) r end.
(** numpy arange with step 1. *)
Definition qarange (lo hi : Q) : list Q :=
  map (fun k => (lo + inject_Z (Z.of_nat k))%Q) (seq 0 (Z.to_nat (Qceiling (hi - lo)))).
(** Line 600; [None]: min of an empty array raises. *)
Definition default_bins (x : list Q) : option (list Q) :=
  match x with
  | [] => None
  | a :: r => Some (qarange (qmin_from a r) (qmax_from a r + 2)%Q)
  end.

(** iter_mode_reduce, lines 2678-2713: the selected rows, or [None] when more
    than half of the values are covered (first result [False]). *)
Definition covered (bins : list Q) (v : Q) : bool :=
  match bins with
  | [] => false
  | b0 :: _ => Qle_bool b0 v && Qle_bool v (last bins b0)
  end.
Definition iter_mode_reduce (x bins : list Q) : option (list nat) :=
  let m := map (covered bins) x in
  if length x / 2 <? count_true m then None else Some (where_ m).

(** Rows and bounds of one group. *)
Definition group : Type := (rows * Q * Q)%type.

(** A generator: the groups yielded, and [true] when it ends normally, [false]
    when it raises after them. *)
Definition generator : Type := (list group * bool)%type.

(** Loop of lines 627-630. *)
Fixpoint emit_slices (bins : list Q) (i : list Z) (bounds : list (nat * nat)) : generator :=
  match bounds with
  | [] => ([], true)
  | (a, b) :: rest =>
      match nth_error i a with
      | None => ([], false)
      | Some ib =>
          match pyget bins ib, pyget bins (ib + 1) with
          | Some lo, Some hi =>
              let '(ys, ok) := emit_slices bins i rest in ((Slice a b, lo, hi) :: ys, ok)
          | _, _ => ([], false)
          end
      end
  end.
(** Loop of lines 619-623; [isort] the sorted view, [itrans] the same in the
    full array. *)
Fixpoint emit_index (bins : list Q) (si : list Z) (itrans : list nat) (bounds : list (nat * nat)) : generator :=
  match bounds with
  | [] => ([], true)
  | (a, b) :: rest =>
      match nth_error si a with
      | None => ([], false)
      | Some ib =>
          if (ib =? -1)%Z || (ib =? Z.of_nat (length bins - 1))%Z
          then emit_index bins si itrans rest
          else
            match pyget bins ib, pyget bins (ib + 1) with
            | Some lo, Some hi =>
                let '(ys, ok) := emit_index bins si itrans rest in
                ((Index (slice itrans a b), lo, hi) :: ys, ok)
            | _, _ => ([], false)
            end
      end
  end.
(** [m = ~(i0 == i1)], lines 617-618 and 626-627. *)
Definition not_empty (first last : list nat) : list (nat * nat) :=
  filter (fun p => negb (fst p =? snd p)) (combine first last).

(** [argsort] is numpy's, whose order among equal values is not specified.
    An error before the first group is [([], false)]. *)
Definition iter_on (argsort : list Z -> list nat) (unsigned : bool) (x : list Q) (bins : option (list Q)) : generator :=
  match (match bins with Some b => Some b | None => default_bins x end) with
  | None => ([], false)
  | Some bins =>
      if not_monotonous unsigned x then
        let red := iter_mode_reduce x bins in
        match (match red with None => Some x | Some ix => gather x ix end) with
        | None => ([], false)
        | Some x' =>
            match numba_digitize x' bins with
            | None => ([], false)
            | Some dg =>
                let i := map (fun k => k - 1)%Z dg in
                let i_sort := argsort i in
                match gather i i_sort, (match red with None => Some i_sort | Some ix => gather ix i_sort end) with
                | Some si, Some itrans =>
                    match build_index si with
                    | None => ([], false)
                    | Some (first, last, _) => emit_index bins si itrans (not_empty first last)
                    end
                | _, _ => ([], false)
                end
            end
        end
      else
        match numba_digitize x bins with
        | None => ([], false)
        | Some dg =>
            let i := map (fun k => k - 1)%Z dg in
            match build_index i with
            | None => ([], false)
            | Some (first, last, _) => emit_slices bins i (not_empty first last)
            end
        end
  end.

(** ** align_on, lines 632-663 *)

(** [while b0_other < b0_self: next(iter_other)]; [None] is StopIteration. *)
Fixpoint advance (b0 : Q) (cur : group) (others : list group) : option (group * list group) :=
  if Qlt_bool (snd (fst cur)) b0 then
    match others with
    | [] => None
    | o :: rest => advance b0 o rest
    end
  else Some (cur, others).
(** The other rows of a yield; the ones of line 658 are empty. *)
Definition aligned : Type := (rows * rows * Q * Q)%type.
(** [cur] is the current group of the other dataset, [others] the next ones,
    [ok] tells if the iteration on the other (self) dataset ends normally.  An
    error of the other generator is not distinguished from its end. *)
Fixpoint align_loop (all_ref : bool) (self : list group) (ok_self : bool) (cur : group) (others : list group)
    : list aligned * bool :=
  match self with
  | [] => ([], ok_self)
  | (r, b0, b1) :: rest =>
      let step cur others :=
        if Qlt_bool b0 (snd (fst cur)) then
          if all_ref then
            match r with
            | Slice _ _ => ([], false) (* a slice has no attribute dtype *)
            | Index _ =>
                let '(ys, ok) := align_loop all_ref rest ok_self cur others in
                ((r, Index [], b0, b1) :: ys, ok)
            end
          else align_loop all_ref rest ok_self cur others
        else
          let '(ys, ok) := align_loop all_ref rest ok_self cur others in
          ((r, fst (fst cur), b0, b1) :: ys, ok) in
      if Qlt_bool (snd (fst cur)) b0 then
        match advance b0 cur others with
        | None => ([], true) (* break *)
        | Some (cur', others') => step cur' others'
        end
      else step cur others
  end.
Definition align_on (all_ref : bool) (self other : generator) : list aligned * bool :=
  match fst other with
  | [] => ([], false) (* StopIteration inside a generator is an error *)
  | cur :: others => align_loop all_ref (fst self) (snd self) cur others
  end.

(** ** merge_filters, lines 1965-2049 *)

(** A filter once the callables are evaluated: a slice (bounds None or not),
    a mask or an index array; steps of slices are not modelled. *)
Inductive filt := FSlice (start stop : option Z) | FMask (m : list bool) | FIndex (l : list Z).

(** Python slice bounds of a sequence of length [n]. *)
Definition clip (n : nat) (z : Z) : nat :=
  if (z <? 0)%Z then Z.to_nat (Z.max 0 (z + Z.of_nat n)) else Nat.min (Z.to_nat z) n.
Definition start_of (n : nat) (o : option Z) : nat := match o with None => 0 | Some z => clip n z end.
Definition stop_of (n : nat) (o : option Z) : nat := match o with None => n | Some z => clip n z end.
Definition slice_mask (n : nat) (a b : option Z) : list bool :=
  map (fun k => (start_of n a <=? k) && (k <? stop_of n b)) (seq 0 n).

(** [array[index]] with python indices; [None] is IndexError. *)
Fixpoint take {A} (l : list A) (ix : list Z) : option (list A) :=
  match ix with
  | [] => Some []
  | z :: r => let! a := pyget l z in let! t := take l r in Some (a :: t)
  end.
(** Product of boolean arrays of the same length ([None] otherwise). *)
Fixpoint mask_and (a b : list bool) : option (list bool) :=
  match a, b with
  | [], [] => Some []
  | x :: a', y :: b' => let! r := mask_and a' b' in Some ((x && y) :: r)
  | _, _ => None
  end.
Definition in1d (a b : list Z) : list bool := map (fun z => existsb (Z.eqb z) b) a.

(** Lines 1981-2015 for two filters. *)
Definition merge2 (n : nat) (f1 f2 : filt) : option filt :=
  match f1 with
  | FSlice a b =>
      let keep := slice_mask n a b in (* ~reject *)
      match f2 with
      | FSlice c d => let keep2 := slice_mask n c d in
          (* reject[filter1] = False; reject[filter2] = False; ~reject *)
          Some (FMask (map (fun p => fst p || snd p) (combine keep keep2)))
      | FMask m => let! r := mask_and keep m in Some (FMask r)
      | FIndex l => let! s := take keep l in Some (FIndex (select s l))
      end
  | FMask m =>
      match f2 with
      | FSlice c d => let! r := mask_and (slice_mask n c d) m in Some (FMask r)
      | FMask m2 => let! r := mask_and m2 m in Some (FMask r)
      | FIndex l => let! s := take m l in Some (FIndex (select s l))
      end
  | FIndex l =>
      match f2 with
      | FSlice c d => let! s := take (slice_mask n c d) l in Some (FIndex (select s l))
      | FMask m => let! s := take m l in Some (FIndex (select s l))
      | FIndex l2 => Some (FIndex (select (in1d l l2) l))
      end
  end.
(** Lines 1974-1979: recursion on the other filters; at least two filters. *)
Fixpoint merge_all (n : nat) (f : filt) (rest : list filt) : option filt :=
  match rest with
  | [] => Some f
  | g :: rest' => let! r := merge_all n g rest' in merge2 n f r
  end.
(** Lines 2028-2042; [None] filters are the absent ones; the left result is an
    early return. *)
Fixpoint useful (fs : list (option filt)) : option (list filt) :=
  match fs with
  | [] => Some []
  | None :: r => useful r
  | Some (FSlice None None) :: r => useful r
  | Some (FMask m) :: r =>
      if forallb (fun b => b) m then useful r
      else if negb (existsb (fun b => b) m) then None
      else let! u := useful r in Some (FMask m :: u)
  | Some f :: r => let! u := useful r in Some (f :: u)
  end.
Definition merge_filters (n : nat) (fs : list (option filt)) : option filt :=
  match useful fs with
  | None => Some (FIndex [])
  | Some [] => Some (FSlice None None)
  | Some (f :: r) => merge_all n f r
  end.

(** ** insert_observations, lines 665-684 *)

(** Python slicing [l[a:b]]. *)
Definition pyslice {A} (l : list A) (a b : option Z) : list A :=
  slice l (start_of (length l) a) (stop_of (length l) b).
(** [l[a:b] = v]: [v] has the size of the slice or is one broadcast row. *)
Definition assign {A} (l : list A) (a b : option Z) (v : list A) : option (list A) :=
  let i := start_of (length l) a in
  let j := Nat.max i (stop_of (length l) b) in
  if length v =? j - i then Some (firstn i l ++ v ++ skipn j l)
  else match v with
       | [x] => Some (firstn i l ++ repeat x (j - i) ++ skipn j l)
       | _ => None
       end.
Definition insert_observations {A} (blank : A) (self other : list A) (index : Z) : option (list A) :=
  let insert_size := length other in
  let self_size := length self in
  match self, other with
  | [], _ => Some other
  | _, [] => Some self
  | _, _ =>
      let index := if (index <? 0)%Z then (Z.of_nat self_size + index + 1)%Z else index in
      let e := repeat blank (self_size + insert_size) in
      let stop := (index + Z.of_nat insert_size)%Z in
      let! e1 := assign e None (Some index) (pyslice self None (Some index)) in
      let! e2 := assign e1 (Some index) (Some stop) other in
      assign e2 (Some stop) None (pyslice self (Some index) None)
  end.

(** ** grid_box_stat, lines 2510-2560 *)

(** Cell of each observation, lines 2525-2543; [None] is the exception of a
    position outside a grid not circular.  The test on [j] is not done for a
    circular grid. *)
Definition box_of (xstep ystep x0 y0 : Q) (nb_x nb_y : Z) (circular : bool) (p : Q * Q) : option (Z * Z) :=
  let i := Qfloor ((fst p - x0) / xstep) in
  let j := Qfloor ((snd p - y0) / ystep) in
  if circular then Some ((i mod nb_x)%Z, j)
  else if (i <? 0)%Z || (nb_x <=? i)%Z || (j <? 0)%Z || (nb_y <=? j)%Z then None
  else Some (i, j).
(** Loop of lines 2549-2560: [stat] is the percentile; the grid is a function
    from cells, [None] when masked. *)
Fixpoint box_loop {V S} (stat : list V -> S) (c0 : Z * Z) (values : list V) (items : list (Z * Z * V))
    (grid : Z * Z -> option S) : Z * Z -> option S :=
  match items with
  | [] => grid
  | (c, v) :: rest =>
      if negb (fst c =? fst c0)%Z || negb (snd c =? snd c0)%Z then
        box_loop stat c [v] rest
          (fun d => if (fst d =? fst c)%Z && (snd d =? snd c)%Z then Some (stat values) else grid d)
      else box_loop stat c0 (values ++ [v]) rest grid
  end.
(** [cells] holds the cell and the value of each observation; [argsort] the
    sort of [abs_i = j * nb_x + i]. *)
Definition grid_box_stat {V S} (argsort : list Z -> list nat) (stat : list V -> S) (nb_x : Z)
    (cells : list (Z * Z * V)) (grid : Z * Z -> option S) : option (Z * Z -> option S) :=
  let abs_i := map (fun c => (snd (fst c) * nb_x + fst (fst c))%Z) cells in
  let! items := gather cells (argsort abs_i) in
  match items with
  | [] => None
  | (c, _) :: _ => Some (box_loop stat c [] items grid)
  end.
(** The whole of lines 2525-2560: cells of the positions, then the loop. *)
Fixpoint box_cells {V} (box : Q * Q -> option (Z * Z)) (points : list (Q * Q)) (values : list V) : option (list (Z * Z * V)) :=
  match points, values with
  | [], _ | _, [] => Some []
  | p :: points', v :: values' =>
      let! c := box p in
      let! l := box_cells box points' values' in
      Some ((c, v) :: l)
  end.
Definition box_statistic {V S} (argsort : list Z -> list nat) (stat : list V -> S) (xstep ystep x0 y0 : Q) (nb_x nb_y : Z) (circular : bool)
    (points : list (Q * Q)) (values : list V) (grid : Z * Z -> option S) : option (Z * Z -> option S) :=
  let! cells := box_cells (box_of xstep ystep x0 y0 nb_x nb_y circular) points values in
  grid_box_stat argsort stat nb_x cells grid.
