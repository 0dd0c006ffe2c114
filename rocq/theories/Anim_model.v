(** * Animation of an atlas, appli/gui.py lines 23-257 (class Anim).

    The part modelled is what is drawn at each step: the rows whose contour is
    on the figure, their line widths, the rows which give the colours and the
    rows whose label is written, and the state kept from a step to the next
    one under the passes of the display loop and the keys.  The figure, the
    background cache and the waiting times are not modelled. *)
From Coq Require Import List Arith Bool ZArith QArith.
From Verif Require Import Base.
Import ListNotations.
Local Close Scope Q_scope.
Local Open Scope nat_scope.

(** Parameters, lines 24-71.  Dates are whole numbers of a unit of time, of
    which there are [day] in a day ([self.now += 1] is one day); [color] and
    [label] say if [field_color] and [field_txt] were given. *)
Record anim := { times : list Z; day : Z; nb_step : nat; color : bool; label : bool }.

(** State, lines 31 and 96-98 ([now] is given by [show], line 131). *)
Record state := {
  now : Z; pause : bool;
  segs : list (list nat); (* contours: the row of each *)
  t_segs : list (list Z);
  c_segs : list (list nat) (* colours: the row which gives each *)
}.
Definition start (t0 : Z) : state := {| now := t0; pause := false; segs := []; t_segs := []; c_segs := [] |}.

(** What a step puts on the figure. *)
Record drawing := {
  at_ : Z; contours : list nat; widths : list Q; colors : list nat; labels : list nat
}.

(** [where(self.t == self.now)[0]], lines 170 and 176. *)
Definition frame (a : anim) (z : Z) : list nat :=
  filter (fun i => match nth_error (times a) i with Some t => (t =? z)%Z | None => false end) (seq 0 (length (times a))).

(** Line 201: [(1 - (now - i) / nb_step) * 2.5 if i <= now else 0], with
    [now - i] in days. *)
Definition width (a : anim) (nw i : Z) : Q :=
  if (i <=? nw)%Z then ((1 - (inject_Z (nw - i) / inject_Z (day a)) / inject_Z (Z.of_nat (nb_step a))) * (5 # 2))%Q
  else 0%Q.

(** [update], lines 169-227. *)
Definition update (a : anim) (st : state) : state * drawing :=
  let f := frame a (now st) in
  let some := negb (length f =? 0) in
  let sg := if some then segs st ++ [f] else segs st in
  let ts := if some then t_segs st ++ [map (fun _ => now st) f] else t_segs st in
  let cs := if some && color a then c_segs st ++ [f] else c_segs st in
  let d := {| at_ := now st;
              contours := concat sg;
              widths := map (width a (now st)) (concat ts);
              colors := if color a then concat cs else [];
              labels := if label a then f else [] |} in
  let long := nb_step a <? length sg in
  ({| now := now st; pause := pause st;
      segs := if long then tl sg else sg;
      t_segs := if long then tl ts else ts;
      c_segs := if long && color a then tl cs else cs |}, d).

Definition at_time (st : state) (z : Z) : state :=
  {| now := z; pause := pause st; segs := segs st; t_segs := t_segs st; c_segs := c_segs st |}.
(** [next] and [prev], lines 152-158. *)
Definition next (a : anim) (st : state) : state * drawing := update a (at_time st (now st + day a)).
Definition prev (a : anim) (st : state) : state * drawing := update a (at_time st (now st - day a)).
(** [func_animation], lines 160-167. *)
Definition func_animation (a : anim) (st : state) (z : Z) : state * drawing := update a (at_time st z).
Fixpoint film (a : anim) (st : state) (frames : list Z) : list drawing :=
  match frames with
  | [] => []
  | z :: r => let '(st', d) := func_animation a st z in d :: film a st' r
  end.
(** [arange] of the first and last dates, line 332, for dates in whole days. *)
Definition film_frames (t0 t1 : Z) : list Z := map (fun k => (t0 + Z.of_nat k)%Z) (seq 0 (Z.to_nat (t1 - t0))).

(** Keys, lines 238-257.  The speed keys change the waiting time only.
    [None] is IndexError: [pop] of an empty list. *)
Inductive key := Space | Right | Left | Speed.
Definition pop2 {A} (l : list A) : option (list A) :=
  if length l <? 2 then None else Some (firstn (length l - 2) l).
Definition press (a : anim) (st : state) (k : key) : option (state * list drawing) :=
  match k with
  | Space => Some ({| now := now st; pause := negb (pause st); segs := segs st; t_segs := t_segs st; c_segs := c_segs st |}, [])
  | Speed => Some (st, [])
  | Right => if pause st then let '(st', d) := next a st in Some (st', [d]) else Some (st, [])
  | Left =>
      if pause st then
        let! sg := pop2 (segs st) in
        let! ts := pop2 (t_segs st) in
        let! cs := pop2 (c_segs st) in
        let '(st', d) := prev a {| now := now st; pause := pause st; segs := sg; t_segs := ts; c_segs := cs |} in
        Some (st', [d])
      else Some (st, [])
  end.
Fixpoint presses (a : anim) (st : state) (ks : list key) : option (state * list drawing) :=
  match ks with
  | [] => Some (st, [])
  | k :: r =>
      let! p := press a st k in
      let! q := presses a (fst p) r in
      Some (fst q, snd p ++ snd q)
  end.

(** [show], lines 123-150, for a number of passes of the inner loop; each pass
    comes with the keys received while waiting (line 143).  [t0, t1] is the
    period of the atlas; with [infinity_loop] the date goes back to [t0] once
    it is after [t1]. *)
Fixpoint show (a : anim) (infinity : bool) (t0 t1 : Z) (st : state) (passes : list (list key)) : option (list drawing) :=
  match passes with
  | [] => Some []
  | ks :: r =>
      let '(st1, d1) := if pause st then (st, []) else let '(s, d) := next a st in (s, [d]) in
      let! p := presses a st1 ks in
      let st2 := fst p in
      if (t1 <? now st2)%Z then
        if infinity then
          let! ds := show a infinity t0 t1 (at_time st2 t0) r in Some (d1 ++ snd p ++ ds)
        else Some (d1 ++ snd p)
      else
        let! ds := show a infinity t0 t1 st2 r in Some (d1 ++ snd p ++ ds)
  end.
