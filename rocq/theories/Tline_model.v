(** Model of src/py_eddy_tracker/observations/network.py: the timeline of a network
    (display_timeline and event_timeline).  What is given to the plot is kept, its
    style is not; dates are the numbers of the field time (time_datetime64 is a change of
    unit); the segments are unsigned integers of any size. *)
From Coq Require Import List Arith ZArith QArith Bool String.
From Verif Require Import Base Generic_model Corr_model Obs_model Net_model.
Import ListNotations.
Local Close Scope Q_scope.
Local Close Scope string_scope.
Local Open Scope nat_scope.
Notation length := List.length.

(** Argument field when it is not None: name of a field or array. *)
Inductive yfield := ByName (name : string) | ByArray (v : list Q).
(** Argument colors_mode. *)
Inductive colors := Roll | ByY | Unknown.
Definition point := (Z * Q)%type.
(** A line of an event: from a point to a point, with its colour. *)
Definition event_line := (point * point * Z)%type.
(** A line of a segment: its points and its colour. *)
Definition segment_line := (list point * Z)%type.
(** Return of event_timeline with the lines drawn: lines, marks of splitting, marks of
    merging, and the series of marks given to the caller in the dictionary. *)
Record events := Events { e_lines : list event_line; e_splitting : list point; e_merging : list point; e_mappables : list (list point) }.

Section Timeline.
(** Fields of the dataset, None when the name is unknown; number of colours. *)
Variable column : string -> option (list Q).
Variable nb_colors : Z.
Variable rows : list nrow.

(** parse_varname, observation.py lines 282-283. *)
Definition parse_varname (f : yfield) : option (list Q) := match f with ByName s => column s | ByArray v => Some v end.
(** self[field], observation.py lines 391-398: an array is not a name. *)
Definition getitem (f : yfield) : option (list Q) := match f with ByName s => column s | ByArray _ => None end.
(** get_color, observation.py lines 254-256. *)
Definition get_color (i : Z) : Z := (i mod nb_colors)%Z.
(** Lines 817-825 and 851-856; [j] counts the segments, [b0] is the segment. *)
Definition color_of (m : colors) (j b0 : nat) : option Z :=
  match m with Roll => Some (get_color (Z.of_nat j)) | ByY => Some (get_color (Z.of_nat b0 - 1)) | Unknown => None end.
Definition qsum (l : list Q) : Q := fold_left Qplus l 0%Q.
(** y.mean() of a part which is not empty. *)
Definition mean (l : list Q) : Q := (qsum l / inject_Z (Z.of_nat (length l)))%Q.

(** Lines 842-846: dictionary of the means. *)
Fixpoint build_y_seg (v : list Q) (factor : Q) (slices : list (nat * nat * nat)) : list (nat * Q) :=
  match slices with
  | [] => []
  | (a, b, s) :: r => match slice v a b with [] => build_y_seg v factor r | y => (s, mean y * factor)%Q :: build_y_seg v factor r end
  end.
Fixpoint lookup (d : list (nat * Q)) (s : nat) : option Q :=
  match d with [] => None | (k, q) :: r => if k =? s then Some q else lookup r s end.
(** y of the row [i] of segment [s], lines 864-870, 873-881 and 889-897; an index can be
    negative. *)
Definition level (field : option yfield) (all : bool) (factor : Q) (y_seg : list (nat * Q)) (i : Z) (s : nat) : option Q :=
  match field with
  | None => Some (inject_Z (Z.of_nat s))
  | Some f => if all then let! v := parse_varname f in let! y := pyget v i in Some (y * factor)%Q else lookup y_seg s
  end.
(** Loop of lines 848-902: lines, marks of splitting and marks of merging. *)
Fixpoint event_loop (field : option yfield) (all : bool) (factor : Q) (m : colors) (y_seg : list (nat * Q)) (j : nat)
    (slices : list (nat * nat * nat)) : option (list event_line * list point * list point) :=
  match slices with
  | [] => Some ([], [], [])
  | (a, b, s) :: r =>
      if a =? b then event_loop field all factor m y_seg j r
      else
        let! c := color_of m j s in
        let! first := nth_error rows a in
        let! last := nth_error rows (b - 1) in
        let! y0 := level field all factor y_seg (Z.of_nat (b - 1)) s in
        let! (lm, mm) :=
          if (nxt last =? -1)%Z then Some ([], [])
          else
            let! q := pyget rows (nxt last) in
            let! y1 := level field all factor y_seg (nxt last) (segment q) in
            Some ([((time last, y0), (time q, y1), c)], [(time last, y0)]) in
        let! (ls, ms) :=
          if (prv first =? -1)%Z then Some ([], [])
          else
            let! q := pyget rows (prv first) in
            let! y0 :=
              match field with
              | Some f => if all then let! v := getitem f in let! y := nth_error v a in Some (y * factor)%Q else Some y0
              | None => Some y0
              end in
            let! y1 := level field all factor y_seg (prv first) (segment q) in
            Some ([((time first, y0), (time q, y1), c)], [(time first, y0)]) in
        let! (l, ss, mg) := event_loop field all factor m y_seg (S j) r in
        Some (lm ++ ls ++ l, ms ++ ss, mm ++ mg)
  end.
(** event_timeline, lines 833-920: a series of marks is drawn when it is not empty, the
    one of splitting first. *)
Definition event_timeline (field : option yfield) (all : bool) (factor : Q) (m : colors) : option events :=
  let! slices := segment_slices (map segment rows) in
  let! y_seg := match field with
    | Some f => if all then Some [] else let! v := parse_varname f in Some (build_y_seg v factor slices)
    | None => Some []
    end in
  let! (l, ss, mg) := event_loop field all factor m y_seg 0 slices in
  Some (Events l ss mg ((match ss with [] => [] | _ => [ss] end) ++ (match mg with [] => [] | _ => [mg] end))).

(** only_one_network, lines 725-732. *)
Definition only_one_network : option unit :=
  let! (i_start, _, _) := build_index (map (fun r => Z.of_nat (track r)) rows) in
  if 1 <? length i_start then None else Some tt.
(** Loop of lines 804-829; [v] is the field. *)
Fixpoint segment_loop (field : option (list Q)) (all : bool) (factor : Q) (m : colors) (j : nat) (slices : list (nat * nat * nat)) : option (list segment_line) :=
  match slices with
  | [] => Some []
  | (a, b, s) :: r =>
      let x := map time (slice rows a b) in
      match x with
      | [] => segment_loop field all factor m j r
      | _ =>
        let y := match field with
          | None => repeat (inject_Z (Z.of_nat s)) (length x)
          | Some v => if all then map (fun q => q * factor)%Q (slice v a b) else repeat (mean (slice v a b) * factor)%Q (length x)
          end in
        let! c := color_of m j s in
        if length x =? length y then
          let! l := segment_loop field all factor m (S j) r in Some ((combine x y, c) :: l)
        else None (* x and y must have same first dimension *)
      end
  end.
(** display_timeline, lines 757-831: events when asked for, and lines of segments. *)
Definition display_timeline (event : bool) (field : option yfield) (all : bool) (factor : Q) (m : colors) : option (option events * list segment_line) :=
  let! _ := only_one_network in
  let! e := if event then let! e := event_timeline field all factor m in Some (Some e) else Some None in
  let! v := match field with None => Some None | Some f => let! v := parse_varname f in Some (Some v) end in
  let! slices := segment_slices (map segment rows) in
  let! l := segment_loop v all factor m 0 slices in
  Some (e, l).
End Timeline.
