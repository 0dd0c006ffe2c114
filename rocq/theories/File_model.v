(** Model of the load and the storage of the columns of a dataset
    (observations/observation.py): rows asked for, blocks, packed values and
    rotation sign.  A column is the list of its rows. *)
From Coq Require Import String List Arith ZArith Bool QArith Qround.
Import ListNotations.
From Verif Require Import Base Qaux Obs_model.
Local Close Scope Q_scope.
Local Close Scope string_scope.
Local Open Scope list_scope.
Local Open Scope nat_scope.

(** ** Rows loaded *)
(** range(a, b, step) with a positive step. *)
Definition range_step (a b step : Z) : list Z := map (fun k => (a + Z.of_nat k * step)%Z) (seq 0 (Z.to_nat ((b - a + step - 1) / step))).
(** Argument indexs["obs"], a slice without or with a step. *)
Record obs_slice := ObsSlice { sl_start : option Z; sl_stop : option Z; sl_step : option Z }.
(** Number of observations of the new dataset, observation.py lines 819-832 (zarr)
    and 969-980 (netcdf): min(None, nb) raises; the slice built again has no step. *)
Definition load_size (nb : nat) (indexs : option obs_slice) : option Z :=
  match indexs with
  | None => Some (Z.of_nat nb)
  | Some sl =>
      let! stop := sl_stop sl in
      let stop := Z.min stop (Z.of_nat nb) in
      Some (match sl_start sl with None => stop | Some a => stop - a end)%Z
  end.

Section Rows.
Context {A : Type}.
(** Initial value of the rows of a dataset (zeros), and change of units and raw
    values of one row. *)
Variables (zero : A) (conv : A -> A).
(** zeros(size): a negative size raises. *)
Definition zeros (size : Z) : option (list A) := if (size <? 0)%Z then None else Some (repeat zero (Z.to_nat size)).
(** Loop of copy_data_to_zarr, lines 916-930. *)
Fixpoint copy_blocks (col : list A) (out : list A) (i_start i_stop buffer : Z) (blocks : list Z) : option (list A) :=
  match blocks with
  | [] => Some out
  | i :: r =>
      let data := pyslice col (Some i) (Some (Z.min (i + buffer) i_stop)) in
      let! out := assign out (Some (i - i_start)%Z) (Some (i - i_start + buffer)%Z) (map conv data) in
      copy_blocks col out i_start i_stop buffer r
  end.
(** copy_data_to_zarr, lines 888-930; range raises on a zero step, and a negative
    buffer is not modelled. *)
Definition copy_data_to_zarr (col out : list A) (sl : obs_slice) (buffer : Z) : option (list A) :=
  let i_start := match sl_start sl with None => 0%Z | Some a => a end in
  let i_stop := match sl_stop sl with None => Z.of_nat (length col) | Some b => b end in
  if (buffer <=? 0)%Z then None else
  copy_blocks col out i_start i_stop buffer (range_step i_start i_stop buffer).
(** load_from_zarr for one column, lines 819-880. *)
Definition load_zarr (col : list A) (indexs : option obs_slice) (buffer : Z) : option (list A) :=
  let! size := load_size (length col) indexs in
  let! out := zeros size in
  copy_data_to_zarr col out (match indexs with None => ObsSlice None None None | Some sl => sl end) buffer.
(** col[a:b:step] with a positive step. *)
Definition strided (col : list A) (a b : option Z) (step : Z) : list A :=
  let r := pyslice col a b in
  flat_map (fun k => match nth_error r (Z.to_nat k) with Some x => [x] | None => [] end) (range_step 0 (Z.of_nat (length r)) step).
(** load_from_netcdf for one column, lines 969-1029; a step which is not positive
    is not modelled. *)
Definition load_netcdf (col : list A) (indexs : option obs_slice) : option (list A) :=
  let! size := load_size (length col) indexs in
  let! out := zeros size in
  let! data := match indexs with
               | None => Some col
               | Some sl => match sl_step sl with
                            | None => Some (pyslice col (sl_start sl) (sl_stop sl))
                            | Some step => if (step <=? 0)%Z then None else Some (strided col (sl_start sl) (sl_stop sl) step)
                            end
               end in
  assign out None None (map conv data).
(** Raw values stored by blocks, create_variable_zarr lines 1741-1747:
    [bloc] is the size of the chunks, zero makes the division fail. *)
Fixpoint store_blocks (data out : list A) (bloc : nat) (blocks : list nat) : option (list A) :=
  match blocks with
  | [] => Some out
  | i :: r =>
      let a := Some (Z.of_nat (i * bloc)) in
      let b := Some (Z.of_nat ((i + 1) * bloc)) in
      let! out := assign out a b (map conv (pyslice data a b)) in
      store_blocks data out bloc r
  end.
Definition store_raw (data : list A) (bloc : nat) : option (list A) :=
  if bloc =? 0 then None else
  store_blocks data (repeat zero (length data)) bloc (seq 0 ((length data + bloc - 1) / bloc)).
End Rows.

(** ** Packed values *)
(** numpy around: nearest integer, even when halfway. *)
Definition around (x : Q) : Z :=
  let f := Qfloor x in
  let d := (x - inject_Z f)%Q in
  if Qlt_bool d (1#2) then f else if Qlt_bool (1#2) d then (f + 1)%Z else if Z.even f then f else (f + 1)%Z.
(** Cast of a float to an integer: towards zero. *)
Definition trunc (x : Q) : Z := if Qle_bool 0 x then Qfloor x else Qceiling x.
(** Description of a variable stored as integers between [low] and [high]: scale_factor
    and add_offset of VAR_DESCR (__init__.py lines 123-689). *)
Record packing := Packing { scale : option Q; offset : option Q; low : Z; high : Z }.
Inductive format := Netcdf | Zarr.
(** Integer of the file; a value which does not fit (the cast is not specified) is an error. *)
Definition fits (p : packing) (k : Z) : option Z := if (low p <=? k)%Z && (k <=? high p)%Z then Some k else None.
Definition off (p : packing) : Q := match offset p with None => 0%Q | Some o => o end.
(** create_variable lines 1651-1660 with the packing of netCDF4 ((x - offset) / scale,
    then around for integers, only when the scale is set), and create_variable_zarr
    lines 1713-1751 with the filter FixedScaleOffset ((x - offset) * (1 / scale), then
    around).  Raw values are written before the scale is set in netcdf, and unpacked
    then packed again by the filter in zarr.  zarr raises when there is an offset
    without scale (1 / None), netcdf ignores the offset. *)
Definition write_value (f : format) (raw : bool) (p : packing) (x : Q) : option Z :=
  match f, scale p with
  | Netcdf, None => fits p (trunc x)
  | Netcdf, Some s => if raw then fits p (trunc x) else fits p (around ((x - off p) / s)%Q)
  | Zarr, None => match offset p with Some _ => None | None => fits p (trunc x) end
  | Zarr, Some s => let y := if raw then (x * s + off p)%Q else x in fits p (around ((y - off p) * (1 / s))%Q)
  end.
(** load_from_netcdf lines 1004-1029 (set_auto_maskandscale, factor of the units when
    not raw) and copy_data_to_zarr lines 918-930 (decoding of the filter k / (1 / scale)
    + offset, factor, then raw values); raw values are cast to the integer type of the file. *)
Definition read_value (f : format) (raw : bool) (factor : Q) (p : packing) (k : Z) : Q :=
  let y := match f, scale p with
           | _, None => inject_Z k
           | Netcdf, Some s => (inject_Z k * s + off p)%Q
           | Zarr, Some s => (inject_Z k / (1 / s) + off p)%Q
           end in
  match f, raw with
  | Netcdf, true => inject_Z k
  | Netcdf, false => (y * factor)%Q
  | Zarr, false => (y * factor)%Q
  | Zarr, true =>
      let y := (y * factor)%Q in
      let y := match offset p with None => y | Some o => (y - o)%Q end in
      inject_Z (trunc (match scale p with None => y | Some s => (y / s)%Q end))
  end.

(** ** Rotation sign *)
(** Attributes of a file about the rotation: title and rotation_type. *)
Record rotation := Rotation { title : option string; rotation_type : option Z }.
Inductive kind := Plain | Tracks.
(** set_global_attr_netcdf (observation.py lines 1803-1805, observations/tracking.py
    lines 225-243) and set_global_attr_zarr (lines 1799-1801).  A sign which is not
    set cannot be an attribute of a netcdf file. *)
Definition write_sign (f : format) (k : kind) (sign : option Z) : option rotation :=
  match f, k with
  | Netcdf, Tracks => Some (Rotation (Some (if match sign with Some z => (z =? -1)%Z | None => false end then "Cyclonic" else "Anticyclonic")%string) None)
  | _, _ => let! z := sign in Some (Rotation None (Some z))
  end.
(** Lines 1031-1043 (netcdf) and 882-885 (zarr); [type_cyc] is the column of this name
    when it is loaded. *)
Definition read_sign (f : format) (type_cyc : option (list Z)) (r : rotation) : option Z :=
  let! s := match f with
            | Zarr => Some (match rotation_type r with Some z => z | None => 0%Z end)
            | Netcdf =>
                match type_cyc with
                | Some col => nth_error col 0
                | None => Some (match title r with
                                | Some t => if String.eqb t "Cyclonic" then (-1)%Z else 1%Z
                                | None => match rotation_type r with Some z => z | None => 0%Z end
                                end)
                end
            end in
  Some (if (s =? 0)%Z then (-1)%Z else s).
(** sign_legend, line 260: name used in the file names. *)
Definition sign_legend (sign : option Z) : string := (if match sign with Some z => negb (z =? 1)%Z | None => true end then "Cyclonic" else "Anticyclonic")%string.
