(** * Interactive viewer of tracks, gui.py lines 35-384 (GUIAxes and GUI).

    The part modelled is what is on the map and what the pointer shows, under
    any sequence of keys, moves of the wheel and of the pointer, drags of the
    time line, pans and changes of size.  Colours, legend, histogram, background
    cache (but for its presence), and the text of the labels are not modelled.
    Times and positions are rationals; a contour is a list of points. *)
From Coq Require Import List Arith Bool ZArith QArith.
From Verif Require Import Base Qaux Generic_model TrackObs_model Split_model.
Import ListNotations.
Local Close Scope Q_scope.
Local Open Scope nat_scope.

(** A row of a dataset: fields longitude, latitude, time, track, n (observation
    number), contour_lon_s/contour_lat_s and contour_lon_e/contour_lat_e. *)
Record row := { px : Q; py : Q; time : Q; track : nat; obs_n : nat; speed : list (Q * Q); eff : list (Q * Q) }.
(** A dataset: its rows, the number of columns of the contours, and whether the
    contours are among its elements (lines 209 and 214). *)
Record dataset := { rows : list row; nb_s : nat; nb_e : nat; has_s : bool; has_e : bool }.
(** What [bbox] returns, lines 112-114: ((x0, x1), (y0, y1)). *)
Record box := { x0 : Q; x1 : Q; y0 : Q; y1 : Q }.

(** GUIAxes.end_pan, lines 42-57; [r_ax] is the ratio of lines 48-50.  The
    division by a height or a ratio of zero is an error here. *)
Definition end_pan (r_ax : Q) (b : box) : option box :=
  let x := ((x1 b + x0 b) / 2)%Q in
  let y := ((y1 b + y0 b) / 2)%Q in
  let dx := ((x1 b - x0 b) / 2)%Q in
  let dy := ((y1 b - y0 b) / 2)%Q in
  if Qeq_bool dy 0 || Qeq_bool r_ax 0 then None else
  if Qlt_bool r_ax (dx / dy)%Q
  then Some {| x0 := x0 b; x1 := x1 b; y0 := (y - dx / r_ax)%Q; y1 := (y + dx / r_ax)%Q |}
  else Some {| x0 := (x - dy * r_ax)%Q; x1 := (x + dy * r_ax)%Q; y0 := y0 b; y1 := y1 b |}.

(** set_initial_values, lines 92-98: the loop from (1e6, 0).  [None] for a
    dataset without rows, whose period is (nan, nan). *)
Fixpoint times_bounds (p : Q * Q) (l : list row) : Q * Q :=
  match l with
  | [] => p
  | r :: l' => times_bounds ((if Qle_bool (fst p) (time r) then fst p else time r), (if Qle_bool (time r) (snd p) then snd p else time r)) l'
  end.
Definition ds_period (d : dataset) : option (Q * Q) :=
  match rows d with [] => None | r :: l => Some (times_bounds (time r, time r) l) end.
Fixpoint initial_period (p : Q * Q) (ds : list dataset) : option (Q * Q) :=
  match ds with
  | [] => Some p
  | d :: ds' =>
      let! q := ds_period d in
      initial_period ((if Qle_bool (fst p) (fst q) then fst p else fst q), (if Qle_bool (snd q) (snd p) then snd p else snd q)) ds'
  end.
Definition set_initial_values (ds : list dataset) : option (Q * Q) := initial_period (1000000, 0)%Q ds.

(** indexs, lines 121-125. *)
Definition on_map (b : box) (now : Q) (r : row) : bool :=
  Qlt_bool (x0 b) (px r) && Qlt_bool (px r) (x1 b) && Qlt_bool (y0 b) (py r) && Qlt_bool (py r) (y1 b) && Qeq_bool now (time r).
Definition indexs (b : box) (now : Q) (d : dataset) : list nat := where_ (map (on_map b now) (rows d)).

(** What is drawn for a dataset: d_indexs[name] and the lines of self.m[name]. *)
Record view := { d_indexs : list nat; contour_s : list (cell (Q * Q)); contour_e : list (cell (Q * Q));
                 path_previous : list (cell (Q * Q)); path_future : list (cell (Q * Q)) }.

(** The two branches of lines 228-233 and 234-239: an empty line, or the
    positions cut between tracks. *)
Definition path (l : list row) : option (list (cell (Q * Q))) :=
  match l with
  | [] => Some []
  | _ => split_line (map (fun r => (px r, py r)) l) (map (fun r => Z.of_nat (track r)) l)
  end.

(** Body of the loop of lines 201-241 for one dataset; [old] is what was
    drawn before, and stays for contours which are not among the elements.
    Longitudes and latitudes are flattened together.  The second component is
    what is added to xs, ys and ns. *)
Definition update_one (b : box) (now : Q) (d : dataset) (old : view) : option (view * list row) :=
  let i := indexs b now d in
  let! l := gather (rows d) i in
  let cs := match l with
            | [] => []
            | _ => if has_s d then ob_cells (flatten_line_matrix (nb_s d) (map speed l)) else contour_s old
            end in
  let ce := match l with
            | [] => []
            | _ => if has_e d then ob_cells (flatten_line_matrix (nb_e d) (map eff l)) else contour_e old
            end in
  (* extract_ids, observations/tracking.py lines 362-364 *)
  let! m := get_mask_from_id (map track (rows d)) (map track l) in
  let local_path := select m (rows d) in
  let! pr := path (filter (fun r => Qle_bool (time r) now) local_path) in
  let! fu := path (filter (fun r => Qle_bool now (time r)) local_path) in
  Some ({| d_indexs := i; contour_s := cs; contour_e := ce; path_previous := pr; path_future := fu |},
        filter (fun r => Qeq_bool (time r) now) local_path).

Fixpoint update_all (b : box) (now : Q) (ds : list dataset) (olds : list view) : option (list view * list row) :=
  match ds, olds with
  | d :: ds', old :: olds' =>
      let! v := update_one b now d old in
      let! vs := update_all b now ds' olds' in
      Some (fst v :: fst vs, snd v ++ snd vs)
  | _, _ => Some ([], [])
  end.

(** n_.sort() of lines 246-247. *)
Fixpoint insert (a : nat) (l : list nat) : list nat :=
  match l with [] => [a] | b :: l' => if a <=? b then a :: l else b :: insert a l' end.
Fixpoint sort (l : list nat) : list nat := match l with [] => [] | a :: l' => insert a (sort l') end.

(** Lines 243-253: the rows whose number is written. *)
Definition texts_of (l : list row) : list row :=
  let n := map obs_n l in
  let n_min := if 50 <? length n then nth (length n - 50) (sort n) 0 else 0 in
  filter (fun r => n_min <=? obs_n r) l.

(** State: settings["now"], the box of the map, what is drawn, the rows with a
    text, the position of the time line, time_ax.press, the visibility of the
    annotation, and whether map.bg_cache is set. *)
Record state := { now : Q; bbox : box; views : list view; texts : list row; vline : Q; press : bool; visible : bool; bg : bool }.

(** update, lines 195-262. *)
Definition update (ds : list dataset) (st : state) : option state :=
  let! u := update_all (bbox st) (now st) ds (views st) in
  Some {| now := now st; bbox := bbox st; views := fst u; texts := texts_of (snd u); vline := now st;
          press := press st; visible := visible st; bg := bg st |}.

Definition set_now (t : Q) (st : state) : state :=
  {| now := t; bbox := bbox st; views := views st; texts := texts st; vline := vline st; press := press st; visible := visible st; bg := bg st |}.
Definition set_box (b : box) (st : state) : state :=
  {| now := now st; bbox := b; views := views st; texts := texts st; vline := vline st; press := press st; visible := visible st; bg := bg st |}.
Definition set_line (x : Q) (p : bool) (st : state) : state :=
  {| now := now st; bbox := bbox st; views := views st; texts := texts st; vline := x; press := p; visible := visible st; bg := bg st |}.
Definition set_note (v g : bool) (st : state) : state :=
  {| now := now st; bbox := bbox st; views := views st; texts := texts st; vline := vline st; press := press st; visible := v; bg := g |}.

(** Events, lines 264-270: keys of lines 80 and 272-281; wheel, on the map or
    elsewhere; press of the button, on the time line or elsewhere; move of the
    pointer over the time axis at [x]; move over the map, with for each dataset
    what [contains] says (the first index of the line met, or nothing);
    release; pan, which leaves the box [b] before end_pan; change of size. *)
Inductive key := Down | Up | Pagedown | Pageup | Home | End.
Inductive event := Key (k : key) | Other_key | Scroll (onmap up : bool) | Press (online : bool) | Move_time (x : Q)
  | Move_map (inds : list (option nat)) | Release | Pan (r_ax : Q) (b : box) | Resize (r_ax : Q).

(** move, lines 320-361, over the map: [touch] is not empty when a dataset is
    met; [flag] keeps its value for the last dataset.  No dataset at all leaves
    [flag] unbound: an error. *)
Definition move_map (inds : list (option nat)) (st : state) : option state :=
  match inds with
  | [] => None
  | _ =>
      let hit (o : option nat) := match o with Some _ => true | None => false end in
      let touch := existsb hit inds in
      let flag := hit (last inds None) in
      let '(v, g) := if touch then (if visible st then (true, bg st) else (true, true)) else (visible st, bg st) in
      let '(v', g') := if negb flag && g && v then (false, false) else (v, g) in
      Some (set_note v' g' st)
  end.

(** keyboard 272-281, press 283-286, move 312-318, release 363-367, scroll
    369-376, adjust 378-380. *)
Definition step (ds : list dataset) (period : Q * Q) (st : state) (e : event) : option state :=
  match e with
  | Key k =>
      let t := match k with
               | Down => (now st + -1)%Q | Up => (now st + 1)%Q
               | Pagedown => (now st + -5)%Q | Pageup => (now st + 5)%Q
               | Home => fst period | End => snd period
               end in
      update ds (set_now t st)
  | Other_key => Some st
  | Scroll onmap up =>
      if onmap then update ds (set_now (if up then now st + 1 else now st - 1)%Q st) else Some st
  | Press online => Some (if online then set_line (vline st) true st else st)
  | Move_time x => Some (if press st then set_line x true st else st)
  | Move_map inds => move_map inds st
  | Release =>
      if press st then update ds (set_now (inject_Z (trunc (vline st))) (set_line (vline st) false st)) else Some st
  | Pan r_ax b => let! b' := end_pan r_ax b in Some (set_box b' st)
  | Resize r_ax => let! b' := end_pan r_ax (bbox st) in Some (set_box b' st)
  end.

(** __init__, lines 82-90, then show, lines 382-384; [b] is the box of the map. *)
Definition no_view : view := {| d_indexs := []; contour_s := []; contour_e := []; path_previous := []; path_future := [] |}.
Definition start (ds : list dataset) (period : Q * Q) (b : box) : option state :=
  update ds {| now := snd period; bbox := b; views := map (fun _ => no_view) ds; texts := []; vline := 0;
               press := false; visible := false; bg := false |}.
Fixpoint run (ds : list dataset) (period : Q * Q) (st : state) (l : list event) : option state :=
  match l with
  | [] => Some st
  | e :: l' => let! st' := step ds period st e in run ds period st' l'
  end.

(** Pointing, lines 321-326 and get_infos, lines 288-294: the row found and the
    rows of its track. *)
Definition pointed (d : dataset) (v : view) (ind : nat) : option row :=
  let! i := nth_error (d_indexs v) (ind / 51) in nth_error (rows d) i.
Definition infos (d : dataset) (v : view) (ind : nat) : option (row * list row) :=
  let! r := pointed d v ind in
  let! t := compute_index (map track (rows d)) in
  let! nb := nth_error (snd t) (track r) in
  let! i_first := nth_error (fst t) (track r) in
  let n := length (rows d) in
  Some (r, slice (rows d) (pybound n i_first) (pybound n (i_first + Z.of_nat nb)%Z)).
