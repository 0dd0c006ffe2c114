(** Model of identify_time, src/py_eddy_tracker/__init__.py lines 111-120, and of
    the part of datetime.strptime it uses (_strptime of the standard library of
    python: one regular expression for each directive, first match of the whole
    model by order of the alternatives, then nothing may be left). *)
From Coq Require Import List Arith Bool Lia.
Import ListNotations.

(** Characters of a text: a digit, the letter T (or t: the expressions ignore
    the case), a space or another one. *)
Inductive ch := Dg (n : nat) | Tt | Sp | Ot.

(** Alternatives of a directive at the start of a text: value and rest of the
    text, in the order in which they are tried. *)
Definition alts := list (nat * list ch).
(** [a-b][c-d] *)
Definition two (a b c d : nat) (s : list ch) : alts :=
  match s with
  | Dg x :: Dg y :: r => if (a <=? x) && (x <=? b) && (c <=? y) && (y <=? d) then [(10 * x + y, r)] else []
  | _ => []
  end.
(** [a-b] *)
Definition one (a b : nat) (s : list ch) : alts :=
  match s with
  | Dg x :: r => if (a <=? x) && (x <=? b) then [(x, r)] else []
  | _ => []
  end.
(** %Y: \d\d\d\d *)
Definition year (s : list ch) : alts :=
  match s with
  | Dg a :: Dg b :: Dg c :: Dg d :: r => [(1000 * a + 100 * b + 10 * c + d, r)]
  | _ => []
  end.
(** %m: 1[0-2]|0[1-9]|[1-9] *)
Definition month (s : list ch) : alts := two 1 1 0 2 s ++ two 0 0 1 9 s ++ one 1 9 s.
(** %d: 3[0-1]|[1-2]\d|0[1-9]|[1-9]| [1-9] *)
Definition day (s : list ch) : alts :=
  two 3 3 0 1 s ++ two 1 2 0 9 s ++ two 0 0 1 9 s ++ one 1 9 s ++ match s with Sp :: r => one 1 9 r | _ => [] end.
(** %H: 2[0-3]|[0-1]\d|\d *)
Definition hour (s : list ch) : alts := two 2 2 0 3 s ++ two 0 1 0 9 s ++ one 0 9 s.
(** %M: [0-5]\d|\d *)
Definition minute (s : list ch) : alts := two 0 5 0 9 s ++ one 0 9 s.
(** %S: 6[0-1]|[0-5]\d|\d *)
Definition second (s : list ch) : alts := two 6 6 0 1 s ++ two 0 5 0 9 s ++ one 0 9 s.
(** The letter T of the third model. *)
Definition letter_t (s : list ch) : alts := match s with Tt :: r => [(0, r)] | _ => [] end.

(** Backtracking: the first alternative with which the rest of the model matches. *)
Fixpoint try {B} (l : alts) (k : nat -> list ch -> option B) : option B :=
  match l with
  | [] => None
  | (a, r) :: l' => match k a r with Some b => Some b | None => try l' k end
  end.

(** Year, month, day, hour, minute, second. *)
Definition stamp := (nat * nat * nat * nat * nat * nat)%type.
(** Match of the start of a text with each model of TIME_MODELS, line 111. *)
Definition match_date (s : list ch) : option (stamp * list ch) :=
  try (year s) (fun y s => try (month s) (fun m s => try (day s) (fun d s => Some ((y, m, d, 0, 0, 0), s)))).
Definition match_time (y m d : nat) (s : list ch) : option (stamp * list ch) :=
  try (hour s) (fun h s => try (minute s) (fun mi s => try (second s) (fun se s => Some ((y, m, d, h, mi, se), s)))).
Definition match_date_time (s : list ch) : option (stamp * list ch) :=
  try (year s) (fun y s => try (month s) (fun m s => try (day s) (fun d s => match_time y m d s))).
Definition match_date_t_time (s : list ch) : option (stamp * list ch) :=
  try (year s) (fun y s => try (month s) (fun m s => try (day s) (fun d s => try (letter_t s) (fun _ s => match_time y m d s)))).

(** Dates of the calendar; a day, a year or a second which does not exist is a
    ValueError. *)
Definition leap (y : nat) : bool := (y mod 4 =? 0) && (negb (y mod 100 =? 0) || (y mod 400 =? 0)).
Definition month_days (y m : nat) : nat :=
  match m with
  | 2 => if leap y then 29 else 28
  | 4 | 6 | 9 | 11 => 30
  | _ => 31
  end.
Definition exists_stamp (t : stamp) : bool :=
  let '(y, m, d, _, _, s) := t in (1 <=? y) && (d <=? month_days y m) && (s <=? 59).
(** strptime with one model: [None] is the ValueError. *)
Definition strptime (model : list ch -> option (stamp * list ch)) (s : list ch) : option stamp :=
  match model s with
  | Some (t, []) => if exists_stamp t then Some t else None
  | _ => None
  end.
(** identify_time, lines 114-120: the first model without ValueError, else the
    exception. *)
Definition identify_time (s : list ch) : option stamp :=
  match strptime match_date s with
  | Some t => Some t
  | None =>
      match strptime match_date_time s with
      | Some t => Some t
      | None => strptime match_date_t_time s
      end
  end.
