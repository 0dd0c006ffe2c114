(** Model of the date of a file read in its name: browse_dataset_in,
    src/py_eddy_tracker/appli/eddies.py lines 236, 265-275, with the expression
    of the tracking command, line 310. *)
From Coq Require Import List Arith Bool Ascii.
From Verif Require Import Time_model.
Import ListNotations.

(** The expression ".*/.*_([0-9]*?).[nz].*", with the backtracking of the module
    re: each piece is given what follows it. *)
(** .* : the longest first. *)
Fixpoint greedy {B} (k : list ascii -> option B) (s : list ascii) : option B :=
  match s with
  | [] => k []
  | _ :: r => match greedy k r with Some b => Some b | None => k s end
  end.
Definition literal {B} (c : ascii) (k : list ascii -> option B) (s : list ascii) : option B :=
  match s with
  | x :: r => if Ascii.eqb x c then k r else None
  | [] => None
  end.
Definition digit (c : ascii) : bool := (48 <=? nat_of_ascii c) && (nat_of_ascii c <=? 57).
(** ([0-9]*?) : the shortest first; the result is the group, line 271. *)
Fixpoint lazy_digits (k : list ascii -> bool) (s : list ascii) : option (list ascii) :=
  if k s then Some []
  else
    match s with
    | x :: r => if digit x then match lazy_digits k r with Some g => Some (x :: g) | None => None end else None
    | [] => None
    end.
(** .[nz].* *)
Definition tail (s : list ascii) : bool :=
  match s with
  | _ :: x :: _ => Ascii.eqb x "n"%char || Ascii.eqb x "z"%char
  | _ => false
  end.
Definition group (s : list ascii) : option (list ascii) :=
  greedy (literal "/"%char (greedy (literal "_"%char (lazy_digits tail)))) s.

(** str(item["filename"]), line 269: the text of bytes is b'...'.  Names of at
    most 500 bytes (line 246 cuts the longer ones), printable and without quote. *)
Definition shown (name : list ascii) : list ascii := "b"%char :: "'"%char :: name ++ ["'"%char].

(** The characters for strptime. *)
Definition ch_of (c : ascii) : ch :=
  if digit c then Dg (nat_of_ascii c - 48)
  else if Ascii.eqb c "T"%char || Ascii.eqb c "t"%char then Tt
  else if Ascii.eqb c " "%char then Sp
  else Ot.

(** Date of an item, lines 259-277 (no date_model): an exception, nothing written
    in the array made by empty, or a date. *)
Inductive read := Raise | Unset | Date (t : stamp).
Definition file_date (name : list ascii) : read :=
  match group (shown name) with
  | None => Unset
  | Some str_date => match identify_time (map ch_of str_date) with Some t => Date t | None => Raise end
  end.
