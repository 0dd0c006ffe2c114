(** Model of what to_netcdf leaves in an open file, src/py_eddy_tracker/observations/observation.py
    lines 1576-1619 (netcdf_create_dimensions, to_netcdf) and 1621-1645 (create_variable,
    up to the creation): the dimensions, the attributes of the extra and array variables,
    the variables and their chunks.  An error leaves the file as it is at that point.  The
    packing of the values is in File_model.v; the global attributes of line 1619 and the
    attributes of variables are not modelled.  Names are numbers in their alphabetical
    order; texts are lists of them. *)
From Coq Require Import List Arith ZArith Bool.
Import ListNotations.
From Verif Require Import Base.
Local Open Scope nat_scope.

Section Write.
Variable D : Type.
(** A field: its name in the file, whether it has a second dimension NbSample (nc_dims)
    and its values. *)
Record field := Field { f_name : nat; f_matrix : bool; f_data : D }.
(** A dataset: number of rows, track_array_variables, the lists joined in the attributes
    and the fields. *)
Record dataset := Dataset { d_rows : nat; d_samples : nat; d_extra : list nat; d_arrays : list nat; d_fields : list field }.
(** A variable of the file; its chunk is given for two dimensions. *)
Record var := Var { v_name : nat; v_matrix : bool; v_chunk : option (Z * Z); v_data : D }.
Record file := File { h_obs : option nat; h_sample : option nat; h_extra : option (list nat); h_arrays : option (nat * list nat); h_vars : list var }.
Definition new_file : file := File None None None None [].

(** netcdf_create_dimensions, lines 1576-1585; [None] raises. *)
Definition dimension (old : option nat) (nb : nat) : option nat :=
  match old with None => Some nb | Some o => if nb =? o then Some o else None end.
(** The fields in the order of their names, lines 1599-1601. *)
Fixpoint insert (f : field) (l : list field) : list field :=
  match l with [] => [f] | g :: r => if f_name f <=? f_name g then f :: l else g :: insert f r end.
Fixpoint sorted (l : list field) : list field := match l with [] => [] | f :: r => insert f (sorted r) end.
(** Chunks, lines 1633-1641, for dimensions (obs, NbSample). *)
Definition chunk (obs sample : nat) : Z * Z := (Z.min (400000 / Z.of_nat sample) (Z.of_nat obs), Z.of_nat sample).
(** create_variable, lines 1621-1645: fails when a dimension is missing or when the name
    is already in the file. *)
Definition create (h : file) (f : field) : option file :=
  if existsb (fun v => v_name v =? f_name f) (h_vars h) then None
  else
    let! obs := h_obs h in
    let! c := (if f_matrix f then let! s := h_sample h in Some (Some (chunk obs s)) else Some None) in
    Some (File (h_obs h) (h_sample h) (h_extra h) (h_arrays h) (h_vars h ++ [Var (f_name f) (f_matrix f) c (f_data f)])).
(** The file when it ends, and whether it went to its end. *)
Fixpoint create_all (h : file) (l : list field) : file * bool :=
  match l with [] => (h, true) | f :: r => match create h f with None => (h, false) | Some h => create_all h r end end.
(** to_netcdf, lines 1587-1619. *)
Definition to_netcdf (h : file) (d : dataset) : file * bool :=
  match dimension (h_obs h) (d_rows d) with
  | None => (h, false)
  | Some obs =>
      let h := File (Some obs) (h_sample h) (Some (d_extra d)) (h_arrays h) (h_vars h) in
      if d_samples d =? 0 then create_all h (sorted (d_fields d))
      else match dimension (h_sample h) (d_samples d) with
           | None => (h, false)
           | Some s => create_all (File (h_obs h) (Some s) (h_extra h) (Some (d_samples d, d_arrays d)) (h_vars h)) (sorted (d_fields d))
           end
  end.
(** Datasets written one after the other, errors being caught. *)
Fixpoint write_all (h : file) (l : list dataset) : file := match l with [] => h | d :: r => write_all (fst (to_netcdf h d)) r end.
End Write.
Arguments Field {D}. Arguments f_name {D}. Arguments f_matrix {D}. Arguments f_data {D}.
Arguments Dataset {D}. Arguments d_rows {D}. Arguments d_samples {D}. Arguments d_extra {D}. Arguments d_arrays {D}. Arguments d_fields {D}.
Arguments Var {D}. Arguments v_name {D}. Arguments v_matrix {D}. Arguments v_chunk {D}. Arguments v_data {D}.
Arguments File {D}. Arguments h_obs {D}. Arguments h_sample {D}. Arguments h_extra {D}. Arguments h_arrays {D}. Arguments h_vars {D}.
Arguments new_file {D}. Arguments insert {D}. Arguments sorted {D}. Arguments create {D}. Arguments create_all {D}. Arguments to_netcdf {D}. Arguments write_all {D}.
