(** Model of bessel_band_filter (dataset/grid.py, lines 1560-1568): the grid is replaced
    by its filter at the short wavelength, and the filter of this new grid at the long
    wavelength is taken off.  The filters are those of Filt_model.v. *)
From Coq Require Import List Arith ZArith Bool QArith.
Import ListNotations.
From Verif Require Import Base Qaux Corr_model Filt_spec Filt_model.
Local Close Scope Q_scope.
Local Open Scope nat_scope.

(** A filtered value stored in the grid; the grids of Filt_model.v hold no nan, so what
    follows a nan is not modelled. *)
Definition to_cell (c : filtered) : option (option Q) := match c with Masked => Some None | Val q => Some (Some q) | Nan => None end.
(** Line 1564: the filtered lines stored as the columns of the grid. *)
Definition to_grid (nx : nat) (lines : list (list filtered)) : option grid :=
  sequence (map (fun x => sequence (map (fun line => let! c := nth_error line x in to_cell c) lines)) (seq 0 nx)).
(** Lines 1560-1568; [short] and [long] are the kernels of the two wavelengths. *)
Definition band_filter (circular : bool) (data : grid) (y_c : list Q) (short long : Q -> option (list (list Q))) (lat_max : Q) (extend : option Q) : option (list (list filtered)) :=
  let! low := convolve circular data y_c short lat_max extend in
  let! g := to_grid (length data) low in
  let! out := convolve circular g y_c long lat_max extend in
  Some (minus_columns low out).
