(** * Spectra of a regular grid, dataset/grid.py lines 1606-1671
    (RegularGridDataset.spectrum_lonlat).

    Numbers are rationals.  A cell is what is stored, [None] for a nan, and its
    mask.  scipy welch and the distance on the sphere are parameters; welch gives
    the frequencies and the power, [None] for a nan.  [None] as outcome is an
    exception.  Not modelled: the default area (line 1608), the warnings (lines
    1627, 1650), the options of welch other than the scaling. *)
From Coq Require Import List Arith Bool ZArith QArith.
From Verif Require Import Base Qaux Corr_model Resamp_model Obs_model Pix_model.
Import ListNotations.
Local Close Scope Q_scope.
Local Open Scope nat_scope.

Definition cell := (option Q * bool)%type.
(** First bounds, steps, latitudes of the centers and cells by columns. *)
Record grid := { g_x0 : Q; g_y0 : Q; g_xstep : Q; g_ystep : Q; g_lat : list Q; g_cells : list (list cell) }.
Inductive scaling := Density | Spectrum.
Definition series := list (option Q).
Definition welch_fun := scaling -> series -> Q -> list Q * list (option Q).
(** Wavelengths and power; a wavelength is [None] for an infinity, the power is
    [None] for a nan in place of the array. *)
Definition content := (list (option Q) * option (list Q))%type.

(** 1 / f *)
Definition wave (f : Q) : option Q := if Qeq_bool f 0 then None else Some (/ f)%Q.
(** array(pws).mean(axis=0): value [k] of the mean, with [n] values by row. *)
Definition mean_rows (n : nat) (pws : list (list Q)) : option (list Q) :=
  match pws with
  | [] => None
  | _ => Some (map (fun k => Qsum (map (fun p => nth k p 0%Q) pws) / nq (length pws))%Q (seq 0 n))
  end.
(** welch begins with numpy asarray: what is stored is used, the mask is dropped. *)
Definition stored (l : list cell) : series := map fst l.
(** Lines 1621-1625 and 1637-1648: spectra with a nan are dropped. *)
Fixpoint kept (l : list (list Q * list (option Q))) : list (list Q * list Q) :=
  match l with
  | [] => []
  | (f, pw) :: l' => match sequence pw with None => kept l' | Some p => (f, p) :: kept l' end
  end.

(** Lines 1617-1629: along the latitudes; [f] is that of the last column. *)
Definition lat_spectrum (welch : welch_fun) (sc : scaling) (fs : Q) (columns : list (list cell)) : option content :=
  match columns with
  | [] => None
  | _ =>
      let ws := map (fun c => welch sc (stored c) fs) columns in
      let f := fst (last ws ([], [])) in
      Some (map wave f, mean_rows (length f) (map snd (kept ws)))
  end.

(** f.min() and f.max() *)
Definition lowest_f (f : list Q) : Q := fold_left (fun a b => if Qle_bool a b then a else b) f (nth 0 f 0%Q).
Definition highest_f (f : list Q) : Q := fold_left (fun a b => if Qle_bool b a then a else b) f (nth 0 f 0%Q).
(** Lines 1641-1646: highest of the first frequencies, lowest of the last ones. *)
Definition common (fs : list (list Q)) : option (Q * Q) :=
  match fs with
  | [] => None
  | f :: fs' => Some (fold_left (fun b g => (if Qle_bool (lowest_f g) (fst b) then fst b else lowest_f g, if Qle_bool (snd b) (highest_f g) then snd b else highest_f g)) fs' (lowest_f f, highest_f f))
  end.
(** scipy interp1d(x, y, fill_value=0, bounds_error=False) at [v]: linear, index
    searchsorted(x, v) clipped between 1 and the last; [None] without two points. *)
Definition interp1d (x y : list Q) (v : Q) : option Q :=
  if length x <? 2 then None
  else if Qlt_bool v (nth 0 x 0%Q) || Qlt_bool (last x 0%Q) v then Some 0%Q
  else
    let hi := Nat.max 1 (Nat.min (length (filter (fun a => Qlt_bool a v) x)) (length x - 1)) in
    let lo := hi - 1 in
    Some ((nth hi y 0 - nth lo y 0) / (nth hi x 0 - nth lo x 0) * (v - nth lo x 0) + nth lo y 0)%Q.

(** Lines 1632-1659: along the longitudes; [km lat] is the step in kilometers at a
    latitude. *)
Definition row_of (columns : list (list cell)) (i : nat) : list cell := map (fun c => nth i c (None, true)) columns.
Definition lon_spectrum (welch : welch_fun) (sc : scaling) (km : Q -> Q) (lats : list Q) (columns : list (list cell)) : option content :=
  let ws := map (fun p : nat * Q => welch sc (stored (row_of columns (fst p))) (1 / km (snd p))%Q) (combine (seq 0 (length lats)) lats) in
  let ks := kept ws in
  let! b := common (map fst ks) in
  let n := length (fst (last ws ([], []))) in
  let fi := linspace (fst b) (snd b) n in
  let! pws := sequence (map (fun k => sequence (map (interp1d (fst k) (snd k)) fi)) ks) in
  Some (map wave fi, mean_rows n pws).

(** The area: longitudes and latitudes of the lower left and upper right corners. *)
Record area := { ll_lon : Q; ll_lat : Q; ur_lon : Q; ur_lat : Q }.
Definition columns_in (g : grid) (a : area) : list (list cell) :=
  let '(i0, j0) := nearest_grd_indice (ll_lon a) (ll_lat a) (g_x0 g) (g_y0 g) (g_xstep g) (g_ystep g) in
  let '(i1, j1) := nearest_grd_indice (ur_lon a) (ur_lat a) (g_x0 g) (g_y0 g) (g_xstep g) (g_ystep g) in
  map (fun c => pyslice c (Some j0) (Some j1)) (pyslice (g_cells g) (Some i0) (Some i1)).
Definition lats_in (g : grid) (a : area) : list Q :=
  pyslice (g_lat g) (Some (snd (nearest_grd_indice (ll_lon a) (ll_lat a) (g_x0 g) (g_y0 g) (g_xstep g) (g_ystep g))))
    (Some (snd (nearest_grd_indice (ur_lon a) (ur_lat a) (g_x0 g) (g_y0 g) (g_xstep g) (g_ystep g)))).

(** spectrum_lonlat without reference: lines 1606-1661; [dx lat] and [dy] are one
    degree of longitude at a latitude and one degree of latitude, in meters. *)
Definition spectrum_lonlat (welch : welch_fun) (dx : Q -> Q) (dy : Q) (sc : scaling) (g : grid) (a : area) : option (content * content) :=
  let columns := columns_in g a in
  let! lat := lat_spectrum welch sc (1 / (g_ystep g * dy / 1000))%Q columns in
  let! lon := lon_spectrum welch sc (fun y => g_xstep g * dx y / 1000)%Q (lats_in g a) columns in
  Some (lon, lat).

(** The quotient of the powers, [None] where it is not a number; arrays of other
    sizes raise, though numpy accepts a size of one. *)
Definition quotient (a b : content) : option (list (option Q) * list (option Q)) :=
  match snd a, snd b with
  | Some p, Some q => if length p =? length q then Some (fst a, map (fun c : Q * Q => if Qeq_bool (snd c) 0 then None else Some (fst c / snd c)%Q) (combine p q)) else None
  | Some p, None => Some (fst a, map (fun _ => None) p)
  | None, Some q => Some (fst a, map (fun _ => None) q)
  | None, None => Some (fst a, [None])
  end.
(** With a reference, lines 1662-1671: the scaling was taken out of the options
    (line 1609), so the reference has the default one. *)
Definition spectrum_ratio (welch : welch_fun) (dx : Q -> Q) (dy : Q) (sc : scaling) (g ref : grid) (a : area)
  : option ((list (option Q) * list (option Q)) * (list (option Q) * list (option Q))) :=
  let! s := spectrum_lonlat welch dx dy sc g a in
  let! r := spectrum_lonlat welch dx dy Density ref a in
  let! lon := quotient (fst s) (fst r) in
  let! lat := quotient (snd s) (snd r) in
  Some (lon, lat).
