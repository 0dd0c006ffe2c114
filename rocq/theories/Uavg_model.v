(** Model of the search of the contour of greatest speed,
    src/py_eddy_tracker/dataset/grid.py lines 982-1043 (get_uavg), and of the
    contours which hold several eddies, src/py_eddy_tracker/eddy_feature.py lines
    690-724.  Levels, contours and what is measured on them are parameters. *)
From Coq Require Import List Arith ZArith QArith Qabs Bool.
From Verif Require Import Base.
Import ListNotations.
Local Open Scope nat_scope.

(** Contours.iter, eddy_feature.py lines 535-536: [collections[start::step]] with a
    step of 1 or -1. *)
Definition iter_from {A} (levels : list A) (start : Z) (up : bool) : list A :=
  let n := Z.of_nat (length levels) in
  let s := (if start <? 0 then start + n else start)%Z in
  if up then skipn (Z.to_nat s) levels
  else rev (firstn (Z.to_nat (Z.min s (n - 1) + 1)) levels).

Section Uavg.
Context {level contour : Type}.
Variable nearest : level -> option contour. (* get_nearest_path_bbox_contain_pt *)
Variable inside : contour -> bool. (* poly_contain_poly, in the contour of the eddy *)
Variable pixels : contour -> nat. (* nb_pixel *)
Variable speed : contour -> option Q. (* speed_coef_mean, [None] is nan *)

(** [a >= b]: false with a nan. *)
Definition at_least (a b : option Q) : bool := match a, b with Some x, Some y => Qle_bool y x | _, _ => false end.

Record found := Found { max_speed : option Q; selected : contour; inner : contour; speeds : list (option Q); i_max : Z; i_inner : Z; eddy_contours : list contour }.
(** The loop of lines 1006-1031; lists grow at the end. *)
Fixpoint walk (pixel_min : nat) (i : Z) (colls : list level) (f : found) : found :=
  match colls with
  | [] => f
  | c :: rest =>
      match nearest c with
      | None => f (* break *)
      | Some k =>
          if negb (inside k) then f (* break *)
          else
            let v := speed k in
            let best := (pixel_min <? pixels k) && at_least v (max_speed f) in
            walk pixel_min (i + 1) rest
              (Found (if best then v else max_speed f) (if best then k else selected f) k (speeds f ++ [v])
                     (if best then i else i_max f) i (eddy_contours f ++ [k]))
      end
  end.
(** get_uavg; the contours marked as used are [eddy_contours]. *)
Definition get_uavg (levels : list level) (original : contour) (anticyclonic : bool) (level_start : Z) (pixel_min : nat) : found :=
  let v := speed original in
  let step := (if anticyclonic then 1 else -1)%Z in
  let f := walk pixel_min 0 (iter_from levels (level_start + step) anticyclonic) (Found v original original [v] (-1) (-1) [original]) in
  Found (max_speed f) (selected f) (inner f) (speeds f) (level_start + step + step * i_max f) (level_start + step + step * i_inner f) (eddy_contours f).
End Uavg.
Arguments Found {contour}.
Arguments found : clear implicits.

(** label_contour_unused_which_contain_eddies: the flags of the contours of each
    level; the flag of a used contour is False.  [heights] are the
    height_external_contour of the eddies; [holds k e] says that the winding
    number of the center of eddy number [e] around contour [k] is not 0. *)
Section Label.
Context {contour : Type}.
Variable used : contour -> bool.
Definition count_in (holds : contour -> nat -> bool) (heights : list Q) (height : Q) (k : contour) : nat :=
  length (filter (fun p => Qle_bool (Qabs (snd p - height)) (1 # 100000000) && holds k (fst p)) (combine (seq 0 (length heights)) heights)).
Fixpoint label_levels (holds : contour -> nat -> bool) (heights cvalues : list Q) (cor : Z) (j : Z) (levels : list (list contour)) : option (list (list bool)) :=
  match levels with
  | [] => Some []
  | paths :: rest =>
      let! h := pyget cvalues (j + cor) in
      let! l := label_levels holds heights cvalues cor (j + 1) rest in
      Some (map (fun k => negb (used k) && (1 <? count_in holds heights h k)) paths :: l)
  end.
Definition label_contours (anticyclonic : bool) (holds : contour -> nat -> bool) (heights cvalues : list Q) (levels : list (list contour)) : option (list (list bool)) :=
  if anticyclonic then label_levels holds heights cvalues 1 0 (removelast levels)
  else label_levels holds heights cvalues (-1) 0 (tl levels).
End Label.
