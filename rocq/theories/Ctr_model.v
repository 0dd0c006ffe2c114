(** Model of the class Contours, src/py_eddy_tracker/eddy_feature.py: the contours kept of
    those of matplotlib, the flat tables and the search of the nearest contour.  Coordinates
    are exact rationals. *)
From Coq Require Import List Arith ZArith QArith Qabs Bool.
From Verif Require Import Base Qaux Poly_model.
Import ListNotations.
Local Close Scope Q_scope.
Local Open Scope nat_scope.

(** Lines 319-320. *)
Definition DELTA_PREC : Q := 1 # 10000000000.
Definition DELTA_SUP : Q := 1 # 100.

(** Lines 442-470, one path of a level: [None] is a path dropped.  Distances are
    compared by their squares. *)
Definition last_of (p : list point) : option point := nth_error p (length p - 1).
Definition keep_path (keep_unclose : bool) (p : list point) : option (option (list point * (Q * Q * Q * Q))) :=
  if length p <? 4 then Some None
  else
    let! a := nth_error p 0 in
    let! z := last_of p in
    let d2 := ((fst a - fst z) * (fst a - fst z) + (snd a - snd z) * (snd a - snd z))%Q in
    if Qlt_bool (DELTA_SUP * DELTA_SUP) d2 && negb keep_unclose then Some None
    else
      let! p' := (if negb (Qeq_bool d2 0) && Qle_bool d2 (DELTA_SUP * DELTA_SUP) then store p (length p - 1) a else Some p) in
      let! b := bbox p' in
      let '(x_min, x_max, y_min, y_max) := b in
      let ptp_min := (DELTA_PREC * 100)%Q in
      if Qlt_bool (Qabs (x_min - x_max)) ptp_min || Qlt_bool (Qabs (y_min - y_max)) ptp_min then Some None
      else Some (Some (p', b)).
Fixpoint keep_paths (keep_unclose : bool) (ps : list (list point)) : option (list (list point * (Q * Q * Q * Q))) :=
  match ps with
  | [] => Some []
  | p :: ps' =>
      let! r := keep_path keep_unclose p in
      let! rs := keep_paths keep_unclose ps' in
      Some (match r with None => rs | Some k => k :: rs end)
  end.
Fixpoint keep_levels (keep_unclose : bool) (ls : list (list (list point))) : option (list (list (list point * (Q * Q * Q * Q)))) :=
  match ls with
  | [] => Some []
  | ps :: ls' => let! r := keep_paths keep_unclose ps in let! rs := keep_levels keep_unclose ls' in Some (r :: rs)
  end.

(** Lines 486-533: the tables. *)
Record tables := { t_x : list Q; t_y : list Q; t_level_index : list nat; t_nb_contour : list nat; t_nb_pt : list nat; t_contour_index : list nat;
  t_x_min : list Q; t_x_max : list Q; t_y_min : list Q; t_y_max : list Q }.
(** [buf[i : i + len(v)] = v]. *)
Definition put_slice {A} (buf : list A) (i : nat) (v : list A) : option (list A) :=
  if i + length v <=? length buf then Some (firstn i buf ++ v ++ skipn (i + length v) buf) else None.
Record filling := { f_x : list Q; f_y : list Q; f_nb : list nat; f_x_min : list Q; f_x_max : list Q; f_y_min : list Q; f_y_max : list Q; f_i_pt : nat; f_i_c : nat }.
(** Lines 506-525. *)
Definition copy_contour (s : filling) (c : list point * (Q * Q * Q * Q)) : option filling :=
  let '(p, (x_min, x_max, y_min, y_max)) := c in
  let nb_pt := length p in
  let! x := put_slice (f_x s) (f_i_pt s) (map fst p) in
  let! y := put_slice (f_y s) (f_i_pt s) (map snd p) in
  let! a := store (f_x_min s) (f_i_c s) x_min in
  let! b := store (f_y_min s) (f_i_c s) y_min in
  let! d := store (f_x_max s) (f_i_c s) x_max in
  let! e := store (f_y_max s) (f_i_c s) y_max in
  let! n := store (f_nb s) (f_i_c s) nb_pt in
  Some {| f_x := x; f_y := y; f_nb := n; f_x_min := a; f_x_max := d; f_y_min := b; f_y_max := e; f_i_pt := f_i_pt s + nb_pt; f_i_c := f_i_c s + 1 |}.
Fixpoint copy_contours (s : filling) (cs : list (list point * (Q * Q * Q * Q))) : option filling :=
  match cs with [] => Some s | c :: cs' => let! s' := copy_contour s c in copy_contours s' cs' end.
Fixpoint copy_levels (s : filling) (level_index : list nat) (i_l : nat) (ls : list (list (list point * (Q * Q * Q * Q)))) : option (filling * list nat) :=
  match ls with
  | [] => Some (s, level_index)
  | cs :: ls' =>
      let! li := store level_index i_l (f_i_c s) in
      let! s' := copy_contours s cs in
      copy_levels s' li (i_l + 1) ls'
  end.
(** [a[1:] - a[:-1]]. *)
Fixpoint steps (l : list nat) : list nat := match l with x :: (y :: _) as r => (y - x) :: steps r | _ => [] end.
(** [junk], [junkn]: what an empty table holds.  The indices are unsigned numbers of 32 bits, unbounded here. *)
Definition fill_tables (junk : Q) (junkn : nat) (ls : list (list (list point * (Q * Q * Q * Q)))) : option tables :=
  let nb_pt := sum_list (map (fun cs => sum_list (map (fun c => length (fst c)) cs)) ls) in
  let nb_contour := sum_list (map (@length _) ls) in
  let blank := {| f_x := repeat junk nb_pt; f_y := repeat junk nb_pt; f_nb := repeat junkn nb_contour; f_x_min := repeat junk nb_contour;
    f_x_max := repeat junk nb_contour; f_y_min := repeat junk nb_contour; f_y_max := repeat junk nb_contour; f_i_pt := 0; f_i_c := 0 |} in
  let! r := copy_levels blank (repeat junkn (length ls)) 0 ls in
  let '(s, li0) := r in
  let! li := store li0 0 0 in
  let! last := nth_error li (length li - 1) in
  Some {| t_x := f_x s; t_y := f_y s; t_level_index := li; t_nb_contour := steps li ++ [nb_contour - last]; t_nb_pt := f_nb s;
    t_contour_index := excl_sums 0 (f_nb s); t_x_min := f_x_min s; t_x_max := f_x_max s; t_y_min := f_y_min s; t_y_max := f_y_max s |}.
(** Contours.__init__, lines 400-533, after the contours are drawn and joined: without
    any path the variable of line 484 is not defined. *)
Definition contours_init (junk : Q) (junkn : nat) (keep_unclose : bool) (drawn : list (list (list point))) : option (list (list (list point)) * tables) :=
  let! ls := keep_levels keep_unclose drawn in
  if existsb (fun ps => negb (length ps =? 0)) drawn then
    let! t := fill_tables junk junkn ls in Some (map (map fst) ls, t)
  else None.

(** index_from_nearest_path_with_pt_in_bbox_, lines 727-794; the inner [None] is -1. *)
Fixpoint scan_points (t : tables) (ks : list nat) (x_ y : Q) (c : nat) (best : Q * nat) : option (Q * nat) :=
  match ks with
  | [] => Some best
  | k :: ks' =>
      let! vx := nth_error (t_x t) k in
      let! vy := nth_error (t_y t) k in
      let d := (vx - x_)%Q in
      let d_x := (if Qlt_bool 180 (Qabs d) then Qmod (d + 180) 360 - 180 else d)%Q in
      let dist := (d_x * d_x + (vy - y) * (vy - y))%Q in
      scan_points t ks' x_ y c (if Qlt_bool dist (fst best) then (dist, c) else best)
  end.
Fixpoint scan_contours (t : tables) (cs : list nat) (x y : Q) (found : bool) (best : Q * nat) : option (bool * (Q * nat)) :=
  match cs with
  | [] => Some (found, best)
  | c :: cs' =>
      let! y_min := nth_error (t_y_min t) c in
      let! y_max := nth_error (t_y_max t) c in
      let! x_min := nth_error (t_x_min t) c in
      let! x_max := nth_error (t_x_max t) c in
      let x_ := (Qmod (x - x_min) 360 + x_min)%Q in
      if Qlt_bool y y_min || Qlt_bool y_max y || Qlt_bool x_ x_min || Qlt_bool x_max x_ then scan_contours t cs' x y found best
      else
        let! start := nth_error (t_contour_index t) c in
        let! nb := nth_error (t_nb_pt t) c in
        let! best' := scan_points t (seq start nb) x_ y c best in
        scan_contours t cs' x y true best'
  end.
Definition nearest_path (t : tables) (level : nat) (x y : Q) : option (option nat) :=
  let! nb := nth_error (t_nb_contour t) level in
  if nb =? 0 then Some None
  else
    let! first := nth_error (t_level_index t) level in
    let! k := nth_error (t_contour_index t) first in
    let! vx := nth_error (t_x t) k in
    let! vy := nth_error (t_y t) k in
    let! r := scan_contours t (seq first nb) x y false (((vx - x) * (vx - x) + (vy - y) * (vy - y))%Q, first) in
    Some (if fst r : bool then Some (snd (snd r) - first) else None).
