(** Model of the names of the variables (__init__.py, table VAR_DESCR), of the access to
    a field by one of its names, and of the names and units met when a file is loaded
    (observations/observation.py, load_from_netcdf). *)
From Coq Require Import List Arith Bool String QArith.
Import ListNotations.
From Verif Require Import Base.
From Verif Require Corr_model.
Notation length := List.length.
Open Scope string_scope.
Open Scope nat_scope.
Open Scope list_scope.

(** One entry of VAR_DESCR: name of the field, name in the files (nc_name), older names
    in the files (old_nc_name) and units (nc_attr); the types, the dimensions and the
    packing are not modelled here. *)
Record descr := Descr { key : string; nc_name : string; old : list string; units : option string }.
(** VAR_DESCR, __init__.py lines 123-689. *)
Definition table : list descr :=
  [
   Descr "time" "time" ["j1"] (Some "days since 1950-01-01 00:00:00");
   Descr "type_cyc" "cyclonic_type" ["cyc"] None;
   Descr "segment_size" "segment_size" [] None;
   Descr "dlon" "dlon" [] None;
   Descr "dlat" "dlat" [] None;
   Descr "distance_next" "distance_next" [] (Some "m");
   Descr "virtual" "observation_flag" ["virtual"] None;
   Descr "cost_association" "cost_association" [] None;
   Descr "lon" "longitude" ["lon"; "Lon"] (Some "degrees_east");
   Descr "lat" "latitude" ["lat"; "Lat"] (Some "degrees_north");
   Descr "lon_max" "longitude_max" ["lon_max"] (Some "degrees_east");
   Descr "lat_max" "latitude_max" ["lat_max"] (Some "degrees_north");
   Descr "amplitude" "amplitude" ["A"] (Some "m");
   Descr "speed_area" "speed_area" [] (Some "m^2");
   Descr "effective_area" "effective_area" [] (Some "m^2");
   Descr "speed_average" "speed_average" ["U"] (Some "m/s");
   Descr "uavg_profile" "uavg_profile" [] (Some "m/s");
   Descr "i" "i" [] None;
   Descr "j" "j" [] None;
   Descr "eke" "Teke" [] (Some "m^2/s^2");
   Descr "radius_e" "effective_radius" ["radius_e"; "Dia"] (Some "m");
   Descr "radius_s" "speed_radius" ["L"; "radius_s"] (Some "m");
   Descr "track" "track" ["Eddy_id"] None;
   Descr "segment" "segment" [] None;
   Descr "previous_obs" "previous_obs" [] None;
   Descr "next_obs" "next_obs" [] None;
   Descr "previous_cost" "previous_cost" [] None;
   Descr "next_cost" "next_cost" [] None;
   Descr "n" "observation_number" ["n"; "Eddy_tsp"] None;
   Descr "contour_lon_e" "effective_contour_longitude" ["contour_lon_e"] (Some "degrees_east");
   Descr "contour_lat_e" "effective_contour_latitude" ["contour_lat_e"] (Some "degrees_east");
   Descr "num_point_e" "num_point_e" [] (Some "ordinal");
   Descr "contour_lon_s" "speed_contour_longitude" ["contour_lon_s"] (Some "degrees_east");
   Descr "contour_lat_s" "speed_contour_latitude" ["contour_lat_s"] (Some "degrees_east");
   Descr "num_point_s" "num_point_s" [] (Some "ordinal");
   Descr "shape_error_e" "effective_contour_shape_error" ["shape_error_e"] (Some "%");
   Descr "score" "score" [] (Some "%");
   Descr "index_other" "index_other" [] None;
   Descr "shape_error_s" "speed_contour_shape_error" ["shape_error_s"] (Some "%");
   Descr "height_max_speed_contour" "speed_contour_height" ["height_max_speed_contour"] (Some "m");
   Descr "height_external_contour" "effective_contour_height" ["height_external_contour"] (Some "m");
   Descr "height_inner_contour" "inner_contour_height" ["height_inner_contour"] (Some "m");
   Descr "chl" "chl" ["Chl"] (Some "Log(Chl/[mg/m^3])");
   Descr "dchl" "dchl" ["dChl"] (Some "Log(Chl/[mg/m^3])");
   Descr "chl_bg" "chl_bg" ["Chl_bg"] (Some "Log(Chl/[mg/m^3])");
   Descr "year" "year" ["Year"] (Some "year");
   Descr "month" "month" ["Month"] (Some "month");
   Descr "day" "day" ["Day"] (Some "day");
   Descr "nb_contour_selected" "num_contours" ["nb_contour_selected"] None
  ].

(** A dict whose keys are strings: [put] is d[k] = v and [get] is d[k]. *)
Fixpoint put {A} (d : list (string * A)) (k : string) (v : A) : list (string * A) :=
  match d with [] => [(k, v)] | (x, w) :: r => if k =? x then (x, v) :: r else (x, w) :: put r k v end%string.
Fixpoint get {A} (d : list (string * A)) (k : string) : option A :=
  match d with [] => None | (x, w) :: r => if k =? x then Some w else get r k end%string.
Definition mem (x : string) (l : list string) : bool := existsb (String.eqb x) l.

(** VAR_DESCR_inv, __init__.py lines 695-699. *)
Definition inverse (t : list descr) : list (string * string) :=
  fold_left (fun d e => fold_left (fun d o => put d o (key e)) (old e) (put d (nc_name e) (key e))) t [].
Definition field_of (name : string) : option string := get (inverse table) name.
(** VAR_DESCR[k] *)
Definition entry (k : string) : option descr := find (fun e => String.eqb (key e) k) table.

(** What an access gives: a column, a computed attribute of the class (lifetime, age),
    the error of the class (KeyError for eddies[name], AttributeError for eddies.name),
    or the error of the array which has no such field (ValueError). *)
Inductive access (C : Type) := Column (c : C) | Attribute (a : string) | Unknown | No_field.
Arguments Column {C}. Arguments Attribute {C}. Arguments Unknown {C}. Arguments No_field {C}.
(** self.obs[k] *)
Definition of_obs {C} (obs : list (string * C)) (k : string) : access C := match get obs k with Some c => Column c | None => No_field end.
(** __getitem__, observation.py lines 391-398; [elements] is the property of that name. *)
Definition getitem {C} (elements : list string) (obs : list (string * C)) (name : string) : access C :=
  if mem name elements then of_obs obs name else
  match field_of name with
  | Some k => of_obs obs k
  | None => if mem name ["lifetime"; "age"] then Attribute name else Unknown
  end.
(** __getattr__, lines 400-407, called for the names which the class does not have. *)
Definition getattr {C} (elements : list string) (obs : list (string * C)) (name : string) : access C :=
  if mem name elements then of_obs obs name else
  match field_of name with Some k => of_obs obs k | None => Unknown end.
(** hasattr(eddies, name) for the same names: only an AttributeError gives False, any
    other error goes through (None). *)
Definition has_attr {C} (elements : list string) (obs : list (string * C)) (name : string) : option bool :=
  match getattr elements obs name with Column _ | Attribute _ => Some true | Unknown => Some false | No_field => None end.

(** obs_dimension, lines 413-417: None when there is no candidate. *)
Definition obs_dimension (dims : list (string * nat)) : option string :=
  find (fun c => match get dims c with Some _ => true | None => false end) ["obs"; "Nobs"; "observation"; "i"].

Section Load.
(** Units of the library pint: [parse] reads an expression (None when it raises
    UndefinedUnitError or TokenError) and [convert] gives the factor between two units
    (None when their dimensions differ, which raises). *)
Context {U : Type}.
Variables (parse : string -> option U) (convert : U -> U -> option Q).
(** compare_units, lines 1055-1080; the message is not modelled. *)
Definition compare_units (input output : option string) : option Q :=
  match output, input with
  | Some o, Some i =>
      if String.eqb o i then Some 1%Q else
      match parse i, parse o with Some a, Some b => convert a b | _, _ => Some 1%Q end
  | _, _ => Some 1%Q
  end.

(** A variable of a file: its name, whether it has the dimension NbSample, its attributes
    unit and units, and its rows; a row is the list of its samples (one when the variable
    is not an array).  All the values are there (no fill value) and they are exact. *)
Record variable := Var { v_name : string; v_array : bool; v_unit : option string; v_units : option string; rows : list (list Q) }.
Record file := File { dims : list (string * nat); vars : list variable }.

(** ELEMENTS, lines 179-197. *)
Definition base : list string :=
  ["lon"; "lat"; "radius_s"; "radius_e"; "amplitude"; "speed_average"; "time"; "shape_error_e"; "shape_error_s"; "speed_area"; "effective_area";
   "nb_contour_selected"; "num_point_e"; "num_point_s"; "height_max_speed_contour"; "height_external_contour"; "height_inner_contour"].
(** Property elements, lines 509-520. *)
Definition elements (samples : nat) (arrays extra : list string) (only : option (list string)) : list string :=
  let l := base ++ (if 0 <? samples then arrays else []) ++ extra in
  nodup string_dec (match only with None => l | Some o => filter (fun x => mem x o) l end).
(** build_var_list, lines 1047-1053. *)
Definition build_var_list (l : list variable) (remove include : option (list string)) : list variable :=
  match include, remove with
  | Some i, _ => filter (fun v => mem (v_name v) i) l
  | None, Some r => filter (fun v => negb (mem (v_name v) r)) l
  | None, None => l
  end.
(** eddies.obs[k] = c: the field must exist and the column must have its length (numpy
    would also repeat a column of one row, and checks the number of samples: not
    modelled). *)
Fixpoint set_column (obs : list (string * list (list Q))) (k : string) (c : list (list Q)) : option (list (string * list (list Q))) :=
  match obs with
  | [] => None
  | (x, w) :: r => if (k =? x)%string then (if length c =? length w then Some ((x, c) :: r) else None) else let! r := set_column r k c in Some ((x, w) :: r)
  end.
(** Factor of a variable, lines 1008-1015; nothing is converted with raw_data. *)
Definition factor (raw : bool) (v : variable) (k : string) : option Q :=
  if raw then Some 1%Q else
  let input := match v_unit v with Some u => Some u | None => v_units v end in
  let! e := entry k in compare_units input (units e).
(** Loop on the variables, lines 997-1025, without the part of the file asked by indexs. *)
Fixpoint fill (raw : bool) (l : list variable) (obs : list (string * list (list Q))) : option (list (string * list (list Q))) :=
  match l with
  | [] => Some obs
  | v :: r =>
      let! k := field_of (v_name v) in
      let! f := factor raw v k in
      let c := if Qeq_bool f 1 then rows v else map (map (fun x => Qmult x f)) (rows v) in
      let! obs := set_column obs k c in fill raw r obs
  end.
(** load_from_netcdf, lines 961-1025, for the class EddiesObservations: names, fields and
    values; neither the rotation, nor the version, nor indexs, nor the packing. *)
Definition load (f : file) (raw : bool) (remove include : option (list string)) : option (list (string * list (list Q))) :=
  let l := build_var_list (vars f) remove include in
  let! dim := obs_dimension (dims f) in
  let! n := get (dims f) dim in
  let! samples_arrays :=
    match get (dims f) "NbSample" with
    | Some m => let! a := Corr_model.sequence (map (fun v => field_of (v_name v)) (filter v_array l)) in Some (m, a)
    | None => Some (0, [])
    end in
  let samples := fst samples_arrays in
  let arrays := snd samples_arrays in
  let! keys := Corr_model.sequence (map (fun v => field_of (v_name v)) l) in
  let extra := filter (fun k => negb (mem k base) && negb (mem k arrays)) keys in
  let! only := match include with None => Some None | Some i => let! o := Corr_model.sequence (map field_of i) in Some (Some o) end in
  let zero := fun k => if mem k arrays then repeat 0%Q samples else [0%Q] in
  fill raw l (map (fun k => (k, repeat (zero k) n)) (elements samples arrays extra only)).
End Load.

(** Variables of a file written by to_netcdf, lines 1586-1618: each field under its
    nc_name with its units; the order is the one of the names (here any order), the
    dimension NbSample belongs to the fields which are arrays, and the packing is not
    modelled. *)
Definition written (arrays : list string) (obs : list (string * list (list Q))) : option (list variable) :=
  Corr_model.sequence (map (fun p : string * list (list Q) => let! e := entry (fst p) in Some (Var (nc_name e) (mem (fst p) arrays) None (units e) (snd p))) obs).
