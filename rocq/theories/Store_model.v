(** Model of the variables kept by a grid, src/py_eddy_tracker/dataset/grid.py:
    populate, clean, grid, copy, add_grid, write, add_uv and uv_for_advection;
    and of the collections of grids. *)
From Coq Require Import List Arith ZArith QArith Bool.
From Verif Require Import Base.
Import ListNotations.
Local Close Scope Q_scope.
Local Open Scope nat_scope.

(** Dictionaries: the first pair of a name is its value. *)
Fixpoint lookup {V} (n : nat) (d : list (nat * V)) : option V :=
  match d with [] => None | (k, v) :: d' => if k =? n then Some v else lookup n d' end.
Definition put {V} (n : nat) (v : V) (d : list (nat * V)) : list (nat * V) := (n, v) :: filter (fun p => negb (fst p =? n)) d.
Definition pop {V} (n : nat) (d : list (nat * V)) : list (nat * V) := filter (fun p => negb (fst p =? n)) d.

Section Store.
(** Arrays, their transposition, and the dictionaries of indices. *)
Variables (A Idx : Type) (tr : A -> A) (no_index : Idx).
(** The file: for each variable, if the longitude comes after the latitude, and
    the array read for some indices (with the indices of the grid and 0 for the
    others, lines 545-553). *)
Variable file : list (nat * (bool * (Idx -> A))).
(** The two velocities computed from a height (add_uv, lines 1888-1899). *)
Variables (velocity_u velocity_v : A -> A).
(** Names "u" and "v". *)
Variables (u_name v_name : nat).

(** The grid: [s_dims] tells if the coordinates are loaded; [s_desc] gives the
    flag "transpose" of the variables (variables_description). *)
Record store := Store { s_dims : bool; s_vars : list (nat * A); s_desc : list (nat * bool) }.

(** populate, lines 311-314, with load_general_features (342-363); the
    coordinates kept in vars (lines 416-417) are not modelled. *)
Definition populate (s : store) : store :=
  if s_dims s then s else Store true (s_vars s) (map (fun p => (fst p, false)) file).
(** __init__, line 302, and clean, lines 316-327. *)
Definition clean (s : store) : store := Store false [] [].
Definition fresh : store := populate (Store false [] []).

(** grid, lines 519-566; [None] is an error (KeyError, coordinates not loaded).
    The masks (lines 556-565) are part of the arrays. *)
Definition grid (s : store) (n : nat) (indexs : Idx) : option (A * store) :=
  match lookup n (s_vars s) with
  | Some a => Some (a, s)
  | None =>
      if negb (s_dims s) then None
      else
        let! f := lookup n file in
        let '(flag, raw) := f in
        if flag
        then let! _ := lookup n (s_desc s) in
             let a := tr (raw indexs) in
             Some (a, Store true (put n a (s_vars s)) (put n true (s_desc s)))
        else let a := raw indexs in Some (a, Store true (put n a (s_vars s)) (s_desc s))
  end.
(** copy, lines 493-508. *)
Definition copy (s : store) (a b : nat) : option store :=
  let! flag := lookup a (s_desc s) in
  let s1 := Store (s_dims s) (s_vars s) (put b flag (s_desc s)) in
  let! r := grid s1 a no_index in
  let '(arr, s2) := r in
  Some (Store (s_dims s2) (put b arr (s_vars s2)) (s_desc s2)).
(** add_grid, lines 510-517. *)
Definition add_grid (s : store) (n : nat) (arr : A) : store := Store (s_dims s) (put n arr (s_vars s)) (s_desc s).
(** add_uv, lines 1844-1899: names and flags; the attributes are not modelled. *)
Definition add_uv (s : store) (h u v : nat) : option store :=
  let! r := grid s h no_index in
  let '(data, s1) := r in
  let! flag := lookup h (s_desc s1) in
  let d := put v flag (put u flag (s_desc s1)) in
  Some (Store (s_dims s1) (put u (velocity_u data) (put v (velocity_v data) (s_vars s1))) d).
(** uv_for_advection with a height, lines 2026-2033: the velocities before their
    change of unit. *)
Definition uv_for_advection (s : store) (h : nat) : option ((A * A) * store) :=
  let! s1 := (match lookup u_name (s_vars s) with
              | Some _ => Some s
              | None => let! s1 := add_uv s h u_name v_name in Some (Store (s_dims s1) (pop h (s_vars s1)) (s_desc s1))
              end) in
  let! ru := grid s1 u_name no_index in
  let! rv := grid (snd ru) v_name no_index in
  Some ((fst ru, fst rv), snd rv).
(** write, lines 365-402: the arrays written, by name. *)
Definition write (s : store) : list (nat * A) :=
  flat_map (fun p => match lookup (fst p) (s_vars s) with None => [] | Some a => [(fst p, if (snd p : bool) then tr a else a)] end) (s_desc s).

(** The calls on a grid. *)
Inductive call := Grid (n : nat) (indexs : Idx) | Copy (a b : nat) | AddGrid (n : nat) (arr : A) | AddUV (h u v : nat) | Clean | Populate.
Definition step (s : store) (c : call) : option store :=
  match c with
  | Grid n i => option_map snd (grid s n i)
  | Copy a b => copy s a b
  | AddGrid n arr => Some (add_grid s n arr)
  | AddUV h u v => add_uv s h u v
  | Clean => Some (clean s)
  | Populate => Some (populate s)
  end.
Fixpoint run (s : store) (cs : list call) : option store :=
  match cs with [] => Some s | c :: cs' => let! s' := step s c in run s' cs' end.
End Store.
Arguments Store {A}. Arguments s_dims {A}. Arguments s_vars {A}. Arguments s_desc {A}.
Arguments Grid {A Idx}. Arguments Copy {A Idx}. Arguments AddGrid {A Idx}. Arguments AddUV {A Idx}. Arguments Clean {A Idx}. Arguments Populate {A Idx}.

(** ** Collections of grids *)
Section Collection.
Context {D : Type}.
Definition collection := list (Q * D).
(** __getitem__, lines 2430-2435: [None] is KeyError. *)
Fixpoint getitem (c : collection) (t : Q) : option D :=
  match c with [] => None | (t', d) :: c' => if Qeq_bool t' t then Some d else getitem c' t end.
(** shift_files, lines 2382-2391. *)
Definition shift_files (c : collection) (t : Q) (d : D) : collection := tl c ++ [(t, d)].
Definition shifts (c : collection) (l : list (Q * D)) : collection := fold_left (fun c p => shift_files c (fst p) (snd p)) l c.
(** are_loaded and reset_grids, lines 2376-2377 and 2513-2518: [loaded] and
    [clean] on one grid. *)
Definition reset_grids (loaded : D -> bool) (clean : D -> D) (n : option nat) (c : collection) : collection :=
  match n with
  | None => c
  | Some n => if n <? count_true (map (fun p => loaded (snd p)) c) then map (fun p => if loaded (snd p) then (fst p, clean (snd p)) else p) c else c
  end.
(** path, lines 2615-2634: [next] gives the time and the positions of the next
    release of advect, [None] when the collection has no more dates. *)
Fixpoint releases {S X} (next : S -> option (Q * X * S)) (n : nat) (s : S) : option (list (Q * X)) :=
  match n with
  | O => Some []
  | Datatypes.S n' => let! r := next s in let '(t, x, s') := r in let! rest := releases next n' s' in Some ((t, x) :: rest)
  end.
Definition path {S X} (next : S -> option (Q * X * S)) (nb_time : nat) (s : S) (t_init : option Q) (x0 : X) : option (list (option Q * X)) :=
  let! l := releases next nb_time s in Some ((t_init, x0) :: map (fun p => (Some (fst p), snd p)) l).
End Collection.
