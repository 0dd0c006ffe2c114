(** Model of the identification of eddies on a grid: eddy_feature.py (Amplitude,
    detect_local_minima_, Contours.iter) and dataset/grid.py (eddy_identification, get_uavg,
    get_amplitude).  Heights and coordinates are exact rationals. *)
From Coq Require Import List Arith ZArith QArith Qabs Qround Bool.
From Verif Require Import Base Qaux Obs_model Corr_model Solver_model Grid_model Poly_model Pix_model.
Import ListNotations.
Local Close Scope Q_scope.
Local Open Scope nat_scope.

(** ** Local extrema, eddy_feature.py lines 204-285 *)

Definition nth2 {A} (g : list (list A)) (i j : nat) : option A := let! r := nth_error g i in nth_error r j.

(** Lines 216-233: value of a neighbour in the footprint. *)
Definition foot (grid : list (list Q)) (mask : list (list bool)) (sign : Q) (i j : nat) : option Q :=
  let! m := nth2 mask i j in
  if m : bool then Some (inject_Z 20000000000) else let! v := nth2 grid i j in Some (v * sign)%Q.
Fixpoint feet (grid : list (list Q)) (mask : list (list bool)) (sign : Q) (ps : list (nat * nat)) : option (list Q) :=
  match ps with
  | [] => Some []
  | p :: ps' => let! v := foot grid mask sign (fst p) (snd p) in let! vs := feet grid mask sign ps' in Some (v :: vs)
  end.
Definition around (i j : nat) : list (nat * nat) :=
  [(i-1, j-1); (i-1, j); (i-1, j+1); (i, j-1); (i, j); (i, j+1); (i+1, j-1); (i+1, j); (i+1, j+1)].
Definition lowest (l : list Q) : option Q := match l with [] => None | v :: l' => Some (fold_left (fun m x => if Qlt_bool x m then x else m) l' v) end.
(** Lines 231-234. *)
Definition is_extremum (grid : list (list Q)) (mask pixel_mask : list (list bool)) (sign : Q) (p : nat * nat) : option bool :=
  let '(i, j) := p in
  let! g := feet grid mask sign (around i j) in
  let! g_min := lowest g in
  let! v := nth2 grid i j in
  let! m := nth2 pixel_mask i j in
  Some (Qeq_bool g_min (v * sign) && m).
Fixpoint filter_opt {A} (f : A -> option bool) (l : list A) : option (list A) :=
  match l with
  | [] => Some []
  | x :: l' => let! b := f x in let! r := filter_opt f l' in Some (if b : bool then x :: r else r)
  end.
(** Rows and columns from 1 to the last but one, line by line (lines 220-221). *)
Definition inner_cells (nb_x nb_y : nat) : list (nat * nat) := list_prod (seq 1 (nb_x - 2)) (seq 1 (nb_y - 2)).
(** Size of the second axis. *)
Definition width {A} (g : list (list A)) : nat := match g with [] => 0 | r :: _ => length r end.

(** Lines 239-257: groups of neighbours; 0 is no group. *)
Definition manhattan (p q : nat * nat) : nat := (Nat.max (fst p) (fst q) - Nat.min (fst p) (fst q)) + (Nat.max (snd p) (snd q) - Nat.min (snd p) (snd q)).
Definition group_step (pts : list (nat * nat)) (st : option (list nat * nat)) (ij : nat * nat) : option (list nat * nat) :=
  let! s := st in
  let '(gr, nb) := s in
  let! p := nth_error pts (fst ij) in
  let! q := nth_error pts (snd ij) in
  if manhattan p q =? 1 then
    let! a := nth_error gr (fst ij) in
    let! b := nth_error gr (snd ij) in
    if (a =? 0) && (b =? 0) then
      let! gr1 := store gr (fst ij) nb in
      let! gr2 := store gr1 (snd ij) nb in
      Some (gr2, S nb)
    else if (a =? 0) && negb (b =? 0) then let! gr' := store gr (fst ij) b in Some (gr', nb)
    else if (b =? 0) && negb (a =? 0) then let! gr' := store gr (snd ij) a in Some (gr', nb)
    else Some (map (fun g => if g =? a then b else g) gr, nb)
  else Some (gr, nb).
Definition pairs_lt (n : nat) : list (nat * nat) := flat_map (fun i0 => map (fun i1 => (i0, i1)) (seq (S i0) (n - S i0))) (seq 0 (n - 1)).
Definition groups_of (pts : list (nat * nat)) : option (list nat) :=
  let! s := fold_left (group_step pts) (pairs_lt (length pts)) (Some (repeat 0 (length pts), 1)) in Some (fst s).
(** Lines 269-283: barycentre of a group, rounded to the nearest, half to even. *)
Definition barycentre (pts : list (nat * nat)) (gr : list nat) (g : nat) : nat * nat :=
  let mine := map fst (filter (fun pg => snd pg =? g) (combine pts gr)) in
  let mean f := (inject_Z (Z.of_nat (sum_list (map f mine))) / inject_Z (Z.of_nat (length mine)))%Q in
  (Z.to_nat (qround (mean fst)), Z.to_nat (qround (mean snd))).
(** Lines 258-284. *)
Definition separate (pts : list (nat * nat)) : option (list (nat * nat)) :=
  let! gr := groups_of pts in
  let alone := map fst (filter (fun pg => snd pg =? 0) (combine pts gr)) in
  Some (alone ++ map (barycentre pts gr) (usort (filter (fun g => negb (g =? 0)) gr))).
(** Lines 204-285. *)
Definition detect_local_minima (grid : list (list Q)) (mask pixel_mask : list (list bool)) (mle : nat) (sign : Q) : option (list (nat * nat)) :=
  let! pts := filter_opt (is_extremum grid mask pixel_mask sign) (inner_cells (length grid) (width grid)) in
  if mle <? length pts then separate pts else Some pts.

(** ** Amplitude, eddy_feature.py lines 48-201 *)

(** [grid[i, j] = v]. *)
Definition put2 {A} (g : list (list A)) (p : Z * Z) (v : A) : option (list (list A)) :=
  let! r := pyget g (fst p) in
  let! r' := pystore r (snd p) v in
  pystore g (fst p) r'.
Fixpoint put_all {A} (g : list (list A)) (ps : list (Z * Z)) (v : A) : option (list (list A)) :=
  match ps with [] => Some g | p :: ps' => let! g' := put2 g p v in put_all g' ps' v end.
Fixpoint get_all {A} (g : list (list A)) (ps : list (Z * Z)) : option (list A) :=
  match ps with [] => Some [] | p :: ps' => let! v := get2 g p in let! vs := get_all g ps' in Some (v :: vs) end.

(** Lines 77-91: window of the grid. *)
Definition extract {A} (data : list (list A)) (box : (Z * Z) * (Z * Z)) : list (list A) :=
  let '((x_start, x_stop), (y_start, y_stop)) := box in
  map (fun r => pyslice r (Some y_start) (Some y_stop))
    (if (x_stop <? x_start)%Z then pyslice data (Some x_start) None ++ pyslice data None (Some x_stop)
     else pyslice data (Some x_start) (Some x_stop)).
(** Lines 92-98: the pixels of the contour in the window. *)
Definition window_pixels (n : nat) (box : (Z * Z) * (Z * Z)) (pixels : list (Z * Z)) : list (Z * Z) :=
  let '((x_start, x_stop), (y_start, y_stop)) := box in
  map (fun p => ((if (x_stop <? x_start)%Z then (fst p - x_start) mod Z.of_nat n else fst p - x_start)%Z, (snd p - y_start)%Z)) pixels.
Definition pixel_mask {A} (data : list (list A)) (box : (Z * Z) * (Z * Z)) (pixels : list (Z * Z)) : option (list (list bool)) :=
  put_all (map (map (fun _ => false)) (extract data box)) (window_pixels (length data) box pixels) true.

(** all_pixels_below_h0 ([below]) and all_pixels_above_h0, lines 113-201: [None]
    inside is False, else the centre of the eddy and the amplitude.  An amplitude which is
    not set is 0. *)
Definition epsilon : Q := 1 # 100000000.
Definition all_pixels (below : bool) (data : list (list Q)) (mask : list (list bool)) (box : (Z * Z) * (Z * Z)) (pixels : list (Z * Z))
  (h_0 level interval_min_secondary : Q) (mle : nat) : option (option ((Z * Z) * Q)) :=
  let! pm := pixel_mask data box pixels in
  let! sla := get_all data pixels in
  let! sla_mask := get_all mask pixels in
  if existsb (fun b => b) sla_mask || existsb (fun v => Qlt_bool epsilon (if below then v - h_0 else h_0 - v)%Q) sla then Some None
  else
    let grid := extract data box in
    let! lmi := detect_local_minima grid (extract mask box) pm mle (if below then 1 else -(1))%Q in
    let! values := sequence (map (fun p => nth2 grid (fst p) (snd p)) lmi) in
    let found :=
      match lmi with
      | [] => Some None
      | [p] => Some (Some p)
      | _ =>
          let real := filter (fun v => Qle_bool interval_min_secondary (if below then level - v else v - level)%Q) values in
          if mle <? length real then Some None
          else
            let! index := argmin (map (fun v => Some (if below then v else - v)%Q) values) in
            let! p := nth_error lmi index in
            Some (Some p)
      end in
    let! f := found in
    match f with
    | None => Some None
    | Some (i, j) =>
        let! v := nth2 grid i j in
        let '((x_start, _), (y_start, _)) := box in
        Some (Some ((Z.of_nat i + x_start, Z.of_nat j + y_start)%Z, Qabs (v - h_0)%Q))
    end.

(** ** eddy_identification, dataset/grid.py lines 627-980 *)

(** [collections[start::step]] for a step of 1 or -1 (Contours.iter, eddy_feature.py
    line 526): the ranks of the levels. *)
Definition iter_levels (n : nat) (start : option Z) (up : bool) : list nat :=
  let len := Z.of_nat n in
  if up then
    let a := match start with None => 0%Z | Some s => if (s <? 0)%Z then Z.max (s + len) 0 else Z.min s len end in
    seq (Z.to_nat a) (n - Z.to_nat a)
  else
    let a := match start with None => (len - 1)%Z | Some s => if (s <? 0)%Z then Z.max (s + len) (-1) else Z.min s (len - 1) end in
    rev (seq 0 (Z.to_nat (a + 1))).

(** What is kept of an observation: the level and the rank of the effective
    contour, the amplitude, the centre, the average speed, the contours of largest speed and
    the inner one with their levels as signed indices, the profile, the heights and the contours of the profile. *)
Record eddy := { e_level : nat; e_path : nat; e_amplitude : Q; e_lon : Q; e_lat : Q; e_speed : Q;
  e_speed_contour : nat * nat; e_inner_contour : nat * nat; e_profile : list Q;
  e_height : Q; e_height_speed : Q; e_height_inner : Q; e_contours : list (nat * nat) }.

(** Contours still free, reasons of reject, mask of the grid. *)
Record state := { used : list (list bool); reject : list (list nat); sea : list (list bool) }.

(** What the identification is given.  [path]: a closed contour.  [shape_error_of]: contour.fit_circle (None is
    nan).  [pixels_of], [box_of]: contour.pixels_in and contour.bbox_slice.  [speed_of]: speed_coef_mean.
    [nearest]: get_nearest_path_bbox_contain_pt.  [contain]: poly_contain_poly.  [paths]: the contours
    by level; [cvalues], [levels]: of matplotlib.  [xs], [ys]: centres of a regular grid, [circular] if it goes
    around the earth, [data] the heights.  Then the parameters of the function. *)
Record setting (path : Type) := { g_shape_error_of : path -> option Q; g_pixels_of : path -> list (Z * Z); g_box_of : path -> (Z * Z) * (Z * Z);
  g_speed_of : path -> Q; g_nearest : nat -> Q -> Q -> option nat; g_contain : path -> path -> bool;
  g_paths : list (list path); g_cvalues : list Q; g_levels : list Q; g_xs : list Q; g_ys : list Q; g_circular : bool; g_data : list (list Q);
  g_shape_error : Q; g_pixel_min : nat; g_pixel_max : nat; g_step : Q; g_mle : nat; g_nb_step_min : Q; g_nb_step_to_be_mle : Q }.
Arguments g_shape_error_of {path} _.
Arguments g_pixels_of {path} _.
Arguments g_box_of {path} _.
Arguments g_speed_of {path} _.
Arguments g_nearest {path} _.
Arguments g_contain {path} _.
Arguments g_paths {path} _.
Arguments g_cvalues {path} _.
Arguments g_levels {path} _.
Arguments g_xs {path} _.
Arguments g_ys {path} _.
Arguments g_circular {path} _.
Arguments g_data {path} _.
Arguments g_shape_error {path} _.
Arguments g_pixel_min {path} _.
Arguments g_pixel_max {path} _.
Arguments g_step {path} _.
Arguments g_mle {path} _.
Arguments g_nb_step_min {path} _.
Arguments g_nb_step_to_be_mle {path} _.

Section Identification.
Context {path : Type} (G : setting path).

Definition path_at (k : nat * nat) : option path := nth2 (g_paths G) (fst k) (snd k).

(** get_uavg, lines 997-1031: loop on the next levels; the ranks [i] of enumerate,
    -1 before the first. *)
Record profile := { p_max : Q; p_speeds : list Q; p_contours : list (nat * nat); p_inner : nat * nat; p_selected : nat * nat; p_i_inner : Z; p_i_max : Z }.
Fixpoint uavg_loop (original : path) (lon lat : Q) (i : Z) (ls : list nat) (s : profile) : option profile :=
  match ls with
  | [] => Some s
  | l :: ls' =>
      match (g_nearest G) l lon lat with
      | None => Some s
      | Some k =>
          let! c := path_at (l, k) in
          if (g_contain G) original c then
            let v := (g_speed_of G) c in
            let better := ((g_pixel_min G) <? length ((g_pixels_of G) c)) && Qle_bool (p_max s) v in
            uavg_loop original lon lat (i + 1) ls'
              {| p_max := if better then v else p_max s; p_speeds := p_speeds s ++ [v]; p_contours := p_contours s ++ [(l, k)];
                 p_inner := (l, k); p_selected := if better then (l, k) else p_selected s;
                 p_i_inner := i; p_i_max := if better then i else p_i_max s |}
          else Some s
      end
  end.
(** Lines 982-1043: the profile, the contours used, the signed levels. *)
Definition get_uavg (lon lat : Q) (k : nat * nat) (anticyclonic : bool) (level_start : Z) : option (profile * Z * Z) :=
  let! c := path_at k in
  let stp := if anticyclonic then 1%Z else (-1)%Z in
  let! p := uavg_loop c lon lat 0 (iter_levels (length (g_paths G)) (Some (level_start + stp)%Z) anticyclonic)
    {| p_max := (g_speed_of G) c; p_speeds := [(g_speed_of G) c]; p_contours := [k]; p_inner := k; p_selected := k; p_i_inner := -1; p_i_max := -1 |} in
  Some (p, (level_start + stp + stp * p_i_max p)%Z, (level_start + stp + stp * p_i_inner p)%Z).

Definition set2 {A} (g : list (list A)) (k : nat * nat) (v : A) : option (list (list A)) :=
  let! r := nth_error g (fst k) in let! r' := store r (snd k) v in store g (fst k) r'.
Fixpoint set_all {A} (g : list (list A)) (ks : list (nat * nat)) (v : A) : option (list (list A)) :=
  match ks with [] => Some g | k :: ks' => let! g' := set2 g k v in set_all g' ks' v end.

Definition rejected (s : state) (k : nat * nat) (r : nat) : option (state * option eddy) :=
  let! rj := set2 (reject s) k r in Some ({| used := used s; reject := rj; sea := sea s |}, None).

(** Lines 770-919, one contour: [level] is its level, [ci] the index used by the code. *)
Definition examine (anticyclonic : bool) (level : nat) (ci : Z) (cvalue : Q) (rank : nat) (s : state) : option (state * option eddy) :=
  let k := (level, rank) in
  let! u := nth2 (used s) level rank in
  if u : bool then Some (s, None)
  else
    let! c := path_at k in
    let ok := match (g_shape_error_of G) c with None => false | Some e => negb (Qlt_bool e 0) && negb (Qlt_bool (g_shape_error G) e) end in
    if negb ok then rejected s k 1
    else
      let px := (g_pixels_of G) c in
      let! masked := get_all (sea s) px in
      if existsb (fun b => b) masked then
        let! r := nth2 (reject s) level rank in
        if r =? 0 then rejected s k 2 else Some (s, None)
      else
        let! values := get_all (g_data G) px in
        if existsb (fun v => if anticyclonic then Qlt_bool v cvalue else Qlt_bool cvalue v) values then Some (s, None)
        else if (length px <? (g_pixel_min G)) || ((g_pixel_max G) <? length px) then rejected s k 3
        else
          let! lv := pyget (g_levels G) ci in
          let! amp := all_pixels (negb anticyclonic) (g_data G) (sea s) ((g_box_of G) c) px cvalue lv ((g_step G) * (g_nb_step_to_be_mle G)) (g_mle G) in
          match amp with
          | None => rejected s k 4
          | Some (centre, a) =>
              if negb (Qle_bool ((g_step G) * (g_nb_step_min G)) a) || Qeq_bool a 0 then rejected s k 4
              else
                let! lon := pyget (g_xs G) (if (g_circular G) then fst centre mod Z.of_nat (length (g_xs G)) else fst centre)%Z in
                let! lat := pyget (g_ys G) (snd centre) in
                let! r := get_uavg lon lat k anticyclonic ci in
                let '(p, i_speed, i_inner) := r in
                let! us := set_all (used s) (p_contours p) true in
                let! h_s := pyget (g_cvalues G) i_speed in
                let! h_i := pyget (g_cvalues G) i_inner in
                let! sea' := put_all (sea s) px true in
                Some ({| used := us; reject := reject s; sea := sea' |},
                      Some {| e_level := level; e_path := rank; e_amplitude := a; e_lon := lon; e_lat := lat; e_speed := p_max p;
                              e_speed_contour := p_selected p; e_inner_contour := p_inner p; e_profile := p_speeds p;
                              e_height := cvalue; e_height_speed := h_s; e_height_inner := h_i; e_contours := p_contours p |})
          end.
Fixpoint examine_all (anticyclonic : bool) (level : nat) (ci : Z) (cvalue : Q) (ranks : list nat) (s : state) (acc : list eddy) : option (state * list eddy) :=
  match ranks with
  | [] => Some (s, acc)
  | r :: ranks' =>
      let! x := examine anticyclonic level ci cvalue r s in
      examine_all anticyclonic level ci cvalue ranks' (fst x) (match snd x with None => acc | Some e => acc ++ [e] end)
  end.
(** Lines 752-769: the levels in order, [ind] the rank of enumerate. *)
Fixpoint search (anticyclonic : bool) (ind : nat) (ls : list nat) (s : state) (acc : list eddy) : option (state * list eddy) :=
  match ls with
  | [] => Some (s, acc)
  | l :: ls' =>
      let ci := if anticyclonic then Z.of_nat ind else (- Z.of_nat ind - 1)%Z in
      let! ps := nth_error (g_paths G) l in
      match ps with
      | [] => search anticyclonic (S ind) ls' s acc
      | _ =>
          let! cv := pyget (g_cvalues G) ci in
          let! r := examine_all anticyclonic l ci cv (seq 0 (length ps)) s acc in
          search anticyclonic (S ind) ls' (fst r) (snd r)
      end
  end.
(** Lines 742-755: anticyclones, then cyclones with what the first search left. *)
Definition identification (sea0 : list (list bool)) : option (list eddy * list eddy) :=
  let s0 := {| used := map (map (fun _ => false)) (g_paths G); reject := map (map (fun _ => 0)) (g_paths G); sea := sea0 |} in
  let! a := search true 0 (iter_levels (length (g_paths G)) None true) s0 [] in
  let! c := search false 0 (iter_levels (length (g_paths G)) None false) (fst a) [] in
  Some (snd a, snd c).
End Identification.

(** Lines 718-719: [arange(z_min - z_min % step, z_max - z_max % step + 2 * step, step)]. *)
Definition levels_of (z_min z_max step : Q) : list Q :=
  let a := (z_min - Qmod z_min step)%Q in
  let b := (z_max - Qmod z_max step + 2 * step)%Q in
  map (fun i => (a + inject_Z (Z.of_nat i) * step)%Q) (seq 0 (Z.to_nat (Qceiling ((b - a) / step)%Q))).
