(** Model of the datasets as objects which are shared and changed (observation.py): the
    array of an object, its copies, append, the period which is kept, and equality.  The
    objects have the same fields (the tests of coherence and of types pass). *)
From Coq Require Import List Arith ZArith Bool QArith.
Import ListNotations.
From Verif Require Import Base.
Local Close Scope Q_scope.
Local Open Scope nat_scope.

(** A row: its time and its other values, None for nan. *)
Record row := Row { r_time : Q; r_rest : list (option Q) }.
(** An object (__init__, lines 220-241): the address of its array (observations), its
    sign_type and its period_, None while it was not asked; the period of an array
    without rows is Some None (nan, nan). *)
Record obj := Obj { o_buf : nat; o_sign : option Z; o_period : option (option (Q * Q)) }.
(** The arrays and the objects. *)
Record heap := Heap { bufs : list (list row); objs : list obj }.
Definition rows (h : heap) (i : nat) : option (list row) := let! o := nth_error (objs h) i in nth_error (bufs h) (o_buf o).

(** A new object with a new array. *)
Definition create (h : heap) (l : list row) (s : option Z) : heap := Heap (bufs h ++ [l]) (objs h ++ [Obj (length (bufs h)) s None]).
Definition with_buf (o : obj) (b : nat) : obj := Obj b (o_sign o) (o_period o).
(** self.append(other), lines 686-691, which is insert_observations at the end, lines
    663-684: the object itself changes and is returned. *)
Definition append (h : heap) (i j : nat) : option heap :=
  let! a := nth_error (objs h) i in
  let! b := nth_error (objs h) j in
  let! la := nth_error (bufs h) (o_buf a) in
  let! lb := nth_error (bufs h) (o_buf b) in
  if length la =? 0 then Some (Heap (bufs h) (upd (objs h) i (with_buf a (o_buf b))))
  else if length lb =? 0 then Some h
  else Some (Heap (bufs h ++ [la ++ lb]) (upd (objs h) i (with_buf a (length (bufs h))))).
(** self.obs[k] = r: values of a row changed in the array. *)
Definition write (h : heap) (i k : nat) (r : row) : option heap :=
  let! a := nth_error (objs h) i in
  let! la := nth_error (bufs h) (o_buf a) in
  let! la := store la k r in
  Some (Heap (upd (bufs h) (o_buf a) la) (objs h)).
(** min and max of the times. *)
Definition extent (l : list row) : option (Q * Q) :=
  match l with
  | [] => None
  | a :: r => Some (fold_left (fun m x => if Qle_bool (r_time x) m then r_time x else m) r (r_time a), fold_left (fun m x => if Qle_bool m (r_time x) then r_time x else m) r (r_time a))
  end.
(** Property period, lines 2408-2421. *)
Definition period (h : heap) (i : nat) : option (heap * option (Q * Q)) :=
  let! a := nth_error (objs h) i in
  match o_period a with
  | Some p => Some (h, p)
  | None => let! l := nth_error (bufs h) (o_buf a) in let p := extent l in Some (Heap (bufs h) (upd (objs h) i (Obj (o_buf a) (o_sign a) (Some p))), p)
  end.
(** nb_days, lines 2423-2430; nan without rows. *)
Definition nb_days (h : heap) (i : nat) : option (option Q) := let! p := period h i in Some (option_map (fun q => snd q - fst q + 1)%Q (snd p)).
(** Comparison of two values: nan is not equal to nan. *)
Definition same_value (a b : option Q) : bool := match a, b with Some x, Some y => Qeq_bool x y | _, _ => false end.
Fixpoint same_values (a b : list (option Q)) : bool :=
  match a, b with [], [] => true | x :: a, y :: b => same_value x y && same_values a b | _, _ => false end.
Definition same_row (a b : row) : bool := Qeq_bool (r_time a) (r_time b) && same_values (r_rest a) (r_rest b).
Fixpoint same_rows (a b : list row) : bool :=
  match a, b with [], [] => true | x :: a, y :: b => same_row x y && same_rows a b | _, _ => false end.
(** __eq__, lines 247-252. *)
Definition equal (h : heap) (i j : nat) : option bool :=
  let! a := nth_error (objs h) i in
  let! b := nth_error (objs h) j in
  let! la := nth_error (bufs h) (o_buf a) in
  let! lb := nth_error (bufs h) (o_buf b) in
  let same_sign := match o_sign a, o_sign b with Some x, Some y => (x =? y)%Z | None, None => true | _, _ => false end in
  Some (same_sign && same_rows la lb).

(** What a program does: load or create a dataset, copy one (__copy__, lines 698-706),
    append, change a row, ask the period. *)
Inductive op := Create (l : list row) (s : option Z) | Copy (i : nat) | Append (i j : nat) | Write (i k : nat) (r : row) | Period (i : nat).
Definition step (h : heap) (o : op) : option heap :=
  match o with
  | Create l s => Some (create h l s)
  | Copy i => let! a := nth_error (objs h) i in let! l := nth_error (bufs h) (o_buf a) in Some (create h l (o_sign a))
  | Append i j => append h i j
  | Write i k r => write h i k r
  | Period i => let! p := period h i in Some (fst p)
  end.
Fixpoint run (h : heap) (l : list op) : option heap := match l with [] => Some h | o :: r => let! h := step h o in run h r end.
