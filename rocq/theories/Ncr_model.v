(** Model of from_netcdf, src/py_eddy_tracker/observations/observation.py lines 1110-1128,
    which reads a whole file, or the group of a file of correspondences, and of what the
    class makes of it (__init__ lines 218-241, dtype lines 494-507, elements lines 510-520).
    The file is that of Ncw_model.v.  A name stands for a field and for its variable (the
    table of names is in Names_model.v).  A column given to a field with another number of
    dimensions raises, though numpy may accept it for some sizes. *)
From Coq Require Import List Arith Bool.
Import ListNotations.
From Verif Require Import Base Ncw_model.
Local Open Scope nat_scope.

Section Read.
Variable D : Type.
(** A column of zeros; the length of a name; the names of VAR_DESCR; the fields which the
    class always has. *)
Variables (zero : D) (width : nat -> nat) (known : nat -> bool) (own : list nat).
Definition memn (n : nat) (l : list nat) : bool := existsb (Nat.eqb n) l.
(** list(set(l)), line 520; the order is not that of python. *)
Fixpoint once (l : list nat) : list nat := match l with [] => [] | a :: r => if memn a r then once r else a :: once r end.
(** Length of the names joined with commas. *)
Fixpoint total (l : list nat) : nat := match l with [] => 0 | a :: r => width a + total r end.
Definition text (l : list nat) : nat := total l + (length l - 1).
(** Lines 1114-1116: the names of no variable at all are one empty name, which is unknown. *)
Definition read_arrays (h : file D) : option (nat * list nat) :=
  match h_arrays h with None => Some (0, []) | Some (s, l) => if length l =? 0 then None else Some (s, l) end.
(** Lines 1117-1118: a text of one letter is left out; without the attribute it raises. *)
Definition read_extra (h : file D) : option (list nat) :=
  let! l := h_extra h in Some (if 1 <? text l then l else []).
(** Lines 1119-1126: the variables are copied in the fields. *)
Fixpoint fill (fields : list (field D)) (vars : list (var D)) : option (list (field D)) :=
  match vars with
  | [] => Some fields
  | v :: r =>
      let! f := find (fun f => f_name f =? v_name v) fields in
      if eqb (f_matrix f) (v_matrix v)
      then fill (map (fun g => if f_name g =? v_name v then Field (f_name g) (f_matrix g) (v_data v) else g) fields) r
      else None
  end.
(** from_netcdf, lines 1110-1128. *)
Definition from_netcdf (h : file D) : option (dataset D) :=
  let! rows := h_obs h in
  let! (samples, arrays) := read_arrays h in
  let! extra := read_extra h in
  let elements := once (own ++ arrays ++ extra) in
  if forallb known elements then
    let! fields := fill (map (fun e => Field e (memn e arrays) zero) elements) (h_vars h) in
    Some (Dataset rows samples extra arrays fields)
  else None.
End Read.
Arguments fill {D}. Arguments from_netcdf {D}. Arguments read_arrays {D}. Arguments read_extra {D}.
