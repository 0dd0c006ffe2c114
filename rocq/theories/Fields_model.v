(** Model of the fields of a dataset (observations/observation.py): which fields it
    has, addition and removal of fields, concatenation, merge and load of a part of the
    variables.  Fields are numbered; all of them are in VAR_DESCR. *)
From Coq Require Import List Arith Bool.
Import ListNotations.
From Verif Require Import Base.
From Verif Require Corr_model.

Section Fields.
Context {V : Type}.
(** Initial value of a field, and class of the dataset: [base] is ELEMENTS, [added] the
    fields added by the property elements of the class (observations/tracking.py
    220-223, network.py 256-268, nothing in EddiesObservations). *)
Variables (zero : V) (base added : list nat).
(** Order of the elements of the set built from a list. *)
Variable enum : list nat -> list nat.

(** Attributes of a dataset, observation.py lines 221-241; [as_sets] says that the
    variables given at the creation are sets and not lists (remove_fields); the
    structured array is the list of its columns with their names. *)
Record dataset := Dataset { size : nat; extra : list nat; samples : nat; arrays : list nat; only : option (list nat); as_sets : bool; obs : list (nat * list V) }.
Definition fields (d : dataset) : list nat := map fst (obs d).
Definition mem (x : nat) (l : list nat) : bool := existsb (Nat.eqb x) l.
(** Property elements, lines 509-520, then the one of the class. *)
Definition elements (extra : list nat) (samples : nat) (arrays : list nat) (only : option (list nat)) : list nat :=
  let l := base ++ (if 0 <? samples then arrays else []) ++ extra in
  let l := match only with None => l | Some o => filter (fun x => mem x o) l end in
  match added with [] => enum l | _ => enum (enum l ++ added) end.
(** Creation of a dataset, lines 221-241. *)
Definition create (size : nat) (extra : list nat) (samples : nat) (arrays : list nat) (only : option (list nat)) (as_sets : bool) : dataset :=
  Dataset size extra samples arrays only as_sets (map (fun x => (x, repeat zero size)) (elements extra samples arrays only)).
(** new_like, lines 708-717. *)
Definition new_like (d : dataset) (n : nat) : dataset := create n (extra d) (samples d) (arrays d) (only d) (as_sets d).
(** dataset.obs[name]; an unknown name raises. *)
Fixpoint column (cols : list (nat * list V)) (x : nat) : option (list V) :=
  match cols with [] => None | (y, c) :: r => if x =? y then Some c else column r x end.
(** dataset.obs[name] = c *)
Fixpoint set_column (cols : list (nat * list V)) (x : nat) (c : list V) : option (list (nat * list V)) :=
  match cols with
  | [] => None
  | (y, old) :: r => if x =? y then (if length c =? length old then Some ((y, c) :: r) else None) else let! r := set_column r x c in Some ((y, old) :: r)
  end.
(** Loops "for name in names: new.obs[name] = self.obs[name]". *)
Fixpoint copy_columns (src : list (nat * list V)) (names : list nat) (dst : list (nat * list V)) : option (list (nat * list V)) :=
  match names with
  | [] => Some dst
  | x :: r => let! c := column src x in let! dst := set_column dst x c in copy_columns src r dst
  end.
Definition with_obs (d : dataset) (o : list (nat * list V)) : dataset := Dataset (size d) (extra d) (samples d) (arrays d) (only d) (as_sets d) o.
Definition minus (a b : list nat) : list nat := filter (fun x => negb (mem x b)) a.
(** remove_fields, lines 419-440. *)
Definition remove_fields (d : dataset) (names : list nat) : option dataset :=
  let new := create (size d) (minus (extra d) names) (samples d) (minus (arrays d) names) (Some (minus (fields d) names)) true in
  let! o := copy_columns (obs d) (fields new) (obs new) in Some (with_obs new o).
(** add_fields, lines 442-461: concatenate fails on a set. *)
Definition add_fields (d : dataset) (names array_names : list nat) : option dataset :=
  if as_sets d then None else
  let new := create (size d) (extra d ++ names) (samples d) (arrays d ++ array_names) (Some (fields d ++ names ++ array_names)) false in
  let! o := copy_columns (obs d) (fields d) (obs new) in Some (with_obs new o).
(** coherence, lines 522-527: a set is never equal to a list. *)
Definition same_names (sets : bool) (a b : list nat) : bool :=
  if sets then forallb (fun x => mem x b) a && forallb (fun x => mem x a) b else if list_eq_dec Nat.eq_dec a b then true else false.
Definition coherence (d e : dataset) : bool :=
  Bool.eqb (as_sets d) (as_sets e) && same_names (as_sets d) (extra d) (extra e) && (samples d =? samples e) && same_names (as_sets d) (arrays d) (arrays e).
(** eddies.obs[i : i + n] = obs.obs: fields are assigned by position, and a different
    number of fields raises; the types of the fields are not modelled. *)
Definition put_rows (i : nat) (dst src : list (nat * list V)) : option (list (nat * list V)) :=
  if length dst =? length src then Some (map (fun p => (fst (fst p), firstn i (snd (fst p)) ++ snd (snd p) ++ skipn (i + length (snd (snd p))) (snd (fst p)))) (combine dst src)) else None.
Fixpoint put_all (i : nat) (dst : list (nat * list V)) (l : list dataset) : option (list (nat * list V)) :=
  match l with [] => Some dst | d :: r => let! dst := put_rows i dst (obs d) in put_all (i + size d) dst r end.
(** concatenate, lines 529-545. *)
Definition concatenate (l : list dataset) : option dataset :=
  match l with
  | [] => None
  | ref :: _ =>
      if forallb (coherence ref) l then
        let new := new_like ref (sum_list (map size l)) in
        let! o := put_all 0 (obs new) l in Some (with_obs new o)
      else None
  end.
(** merge, lines 547-563, without the numbers of the tracks. *)
Definition merge (d e : dataset) : option dataset :=
  let new := new_like d (size d + size e) in
  let! o := Corr_model.sequence (map (fun p : nat * list V =>
      let! a := column (obs d) (fst p) in
      let b := match column (obs e) (fst p) with Some b => b | None => repeat zero (size e) end in Some (fst p, a ++ b)) (obs new)) in
  Some (with_obs new o).
(** __copy__, lines 698-703. *)
Definition copy (d : dataset) : option dataset :=
  let new := new_like d (size d) in
  let! o := copy_columns (obs d) (fields d) (obs new) in Some (with_obs new o).

(** A file: number of rows, variables with their columns, number of samples of the
    arrays (0 if there is no such dimension) and variables which are arrays. *)
Record file := File { f_size : nat; f_vars : list (nat * list V); f_samples : nat; f_arrays : list nat }.
(** build_var_list, lines 1047-1053. *)
Definition build_var_list (vars : list nat) (remove include : option (list nat)) : list nat :=
  match include, remove with
  | Some i, _ => filter (fun x => mem x i) vars
  | None, Some r => filter (fun x => negb (mem x r)) vars
  | None, None => vars
  end.
(** load_from_netcdf, lines 962-1029, without slices and units: the variables of the
    file are the fields of the software (VAR_DESCR_inv is not modelled). *)
Definition load (f : file) (remove include : option (list nat)) : option dataset :=
  let vars := build_var_list (map fst (f_vars f)) remove include in
  let arrays := if 0 <? f_samples f then filter (fun x => mem x (f_arrays f)) vars else [] in
  let new := create (f_size f) (filter (fun x => negb (mem x base) && negb (mem x arrays)) vars) (f_samples f) arrays include false in
  let! o := copy_columns (f_vars f) vars (obs new) in Some (with_obs new o).
End Fields.
