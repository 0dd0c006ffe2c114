(** Model of the filters of regular grids, src/py_eddy_tracker/dataset/grid.py:
    convolve_filter_with_dynamic_kernel and the filters which call it.  Values
    are exact rationals. *)
From Coq Require Import List Arith ZArith QArith Qabs Bool.
From Verif Require Import Base Qaux Obs_model Corr_model Filt_spec.
Import ListNotations.
Local Close Scope Q_scope.
Local Open Scope nat_scope.

(** A masked array [data[x][y]]: [None] is masked. *)
Definition grid := list (list (option Q)).
(** [m[:, a:b] = src] on one row. *)
Definition put_cols {A} (a b : nat) (row src : list A) : option (list A) :=
  if (length src =? b - a) && (b <=? length row) then Some (firstn a row ++ src ++ skipn b row) else None.
Fixpoint put_rows {A} (ca cb : nat) (rows src : list (list A)) : option (list (list A)) :=
  match rows, src with
  | [], [] => Some []
  | r :: rows', s :: src' => let! r' := put_cols ca cb r s in let! rest := put_rows ca cb rows' src' in Some (r' :: rest)
  | _, _ => None
  end.
(** [m[a:b, ca:cb] = src]: [None] when the shapes differ (numpy repeats a source
    of one row; this is not modelled). *)
Definition assign_block {A} (m : list (list A)) (a b : option Z) (ca cb : nat) (src : list (list A)) : option (list (list A)) :=
  let n := length m in
  let i := start_of n a in
  let j := Nat.max i (stop_of n b) in
  let! mid := put_rows ca cb (slice m i j) src in
  Some (firstn i m ++ mid ++ skipn j m).

(** Lines 1487-1504: the values around the line of latitude [i], with [d_lon]
    columns added on each side. *)
Definition tmp_matrix (circular : bool) (data : grid) (ny i d_lon d_lat k1 : nat) : option grid :=
  let tmp := repeat (repeat None k1) (2 * d_lon + length data) in
  let start := i - d_lat in
  let stop := Nat.min (i + d_lat + 1) ny in
  let in_start := d_lat - (i - start) in
  let in_stop := d_lat + (stop - i) in
  let cols (l : grid) := map (fun r => slice r start stop) l in
  let zd := Z.of_nat d_lon in
  let! tmp := (if circular
               then let! t1 := assign_block tmp None (Some zd) in_start in_stop (cols (pyslice data (Some (- zd)%Z) None)) in
                    assign_block t1 (Some (- zd)%Z) None in_start in_stop (cols (pyslice data None (Some zd)))
               else Some tmp) in
  assign_block tmp (Some zd) (Some (- zd)%Z) in_start in_stop (cols data).

(** filter2D (cv2): correlation centred on the middle of the kernel; row [x]
    after the cut [demi_x:-demi_x] and column [demi_y] read the cells [(x + a, b)]
    of the matrix.  A cell outside is [None]; the extension at the edges of
    filter2D is not used. *)
Definition correlate (kernel m : list (list Q)) (x : nat) : option Q :=
  let! terms := sequence (concat (map (fun a => map (fun b =>
      let! kr := nth_error kernel a in let! k := nth_error kr b in
      let! mr := nth_error m (x + a) in let! v := nth_error mr b in Some (k * v)%Q)
    (seq 0 (length (hd [] kernel)))) (seq 0 (length kernel)))) in
  Some (Qsum terms).

(** Lines 1477-1522, one line of latitude; [extend] is [None] for False. *)
Definition filter_line (circular : bool) (data : grid) (ny i : nat) (extend : option Q) (kernel : list (list Q)) : option (list filtered) :=
  let k0 := length kernel in
  let k1 := length (hd [] kernel) in
  let d_lat := (k1 - 1) / 2 in
  let d_lon := (k0 - 1) / 2 in
  let! tmp := tmp_matrix circular data ny i d_lon d_lat k1 in
  let vals := map (map (fun o => match o with Some v => v | None => 0%Q end)) tmp in
  let m := map (map (fun o => match o with Some _ => 1%Q | None => 0%Q end)) tmp in
  let demi_x := k0 / 2 in
  if negb (length tmp - 2 * demi_x =? length data) || (demi_x =? 0) then None
  else
    sequence (map (fun x =>
      let! values_sum := correlate kernel vals x in
      let! kernel_sum := correlate kernel m x in
      let r := if Qeq_bool kernel_sum 0 then Nan else Val (values_sum / kernel_sum)%Q in
      Some (match extend with
            | None => r
            | Some e => if Qlt_bool kernel_sum (e * Qsum (map Qsum kernel))%Q then Masked else r
            end)) (seq 0 (length data))).

(** Column [i] of the grid. *)
Definition column (data : grid) (i : nat) : option (list (option Q)) := sequence (map (fun r => nth_error r i) data).
Definition is_masked (o : option Q) : bool := match o with None => true | Some _ => false end.

(** convolve_filter_with_dynamic_kernel, lines 1439-1532: the filtered columns, by
    line of latitude.  [kernel] is the kernel of a latitude, [None] when it is
    refused (line 1353).  The conversion to the type of the data is not modelled. *)
Definition filter_one (circular : bool) (data : grid) (y_c : list Q) (kernel : Q -> option (list (list Q))) (lat_max : Q) (extend : option Q) (i : nat) : option (list filtered) :=
  let! lat := nth_error y_c i in
  let! col := column data i in
  if Qlt_bool lat_max (Qabs lat) || forallb is_masked col then Some (repeat Masked (length data))
  else
    let! k := kernel lat in
    let! out := filter_line circular data (length y_c) i extend k in
    Some (match extend with
          | Some _ => out
          | None => map (fun p => if is_masked (fst p) then Masked else snd p) (combine col out)
          end).
Definition convolve (circular : bool) (data : grid) (y_c : list Q) (kernel : Q -> option (list (list Q))) (lat_max : Q) (extend : option Q) : option (list (list filtered)) :=
  sequence (map (filter_one circular data y_c kernel lat_max extend) (seq 0 (length y_c))).

(** Difference of masked arrays. *)
Definition minus (a : filtered) (b : filtered) : filtered :=
  match a, b with
  | Masked, _ | _, Masked => Masked
  | Val x, Val y => Val (x - y)%Q
  | _, _ => Nan
  end.
Definition of_data (o : option Q) : filtered := match o with None => Masked | Some v => Val v end.
Definition minus_columns (a b : list (list filtered)) : list (list filtered) := map (fun p => map (fun q => minus (fst q) (snd q)) (combine (fst p) (snd p))) (combine a b).
Definition columns (data : grid) (ny : nat) : option (list (list filtered)) :=
  let! cs := sequence (map (column data) (seq 0 ny)) in Some (map (map of_data) cs).
(** high_filter, lanczos_high_filter and bessel_high_filter: lines 599-606, 1546,
    1593; low_filter lines 608-615; lanczos_low_filter and bessel_low_filter
    lines 1558, 1604: the filtered grid itself. *)
Definition high_filter (circular : bool) (data : grid) (y_c : list Q) (kernel : Q -> option (list (list Q))) (lat_max : Q) (extend : option Q) : option (list (list filtered)) :=
  let! r := convolve circular data y_c kernel lat_max extend in
  let! d := columns data (length y_c) in
  Some (minus_columns d r).
Definition low_filter (circular : bool) (data : grid) (y_c : list Q) (kernel : Q -> option (list (list Q))) (lat_max : Q) (extend : option Q) : option (list (list filtered)) :=
  let! r := convolve circular data y_c kernel lat_max extend in
  let! d := columns data (length y_c) in
  Some (minus_columns d (minus_columns d r)).
