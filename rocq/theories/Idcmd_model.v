(** * The command of identification: appli/grid.py lines 50-58 (DictAction),
    108-117 (the wavelengths) and 157-184 (identification), with what it uses of
    dataset/grid.py: the reading of a variable (519-566), add_uv (1844-1906), the
    filters (1570-1604) and the methods each class of grids has.

    A field is any type; the filter, the gradients and the detection are parameters.
    [None] as outcome is an exception.  Not modelled: argparse itself, the read of
    the coordinates, the date (see C143), the names of the files (see C131). *)
From Coq Require Import List Arith Bool ZArith QArith String Ascii.
From Verif Require Import Base.
Import ListNotations.
Local Close Scope Q_scope.
Local Open Scope nat_scope.

(** value.split("="), line 56. *)
Fixpoint split_eq (s : string) : list string :=
  match s with
  | EmptyString => [""%string]
  | String c r =>
      if Ascii.eqb c "=" then ""%string :: split_eq r
      else match split_eq r with [] => [String c ""] | p :: ps => String c p :: ps end
  end.
(** A dict: the last value given for a key is the one kept. *)
Definition dict := list (string * Z).
Definition dict_get (d : dict) (k : string) : option Z := option_map snd (find (fun p => String.eqb (fst p) k) d).
Definition dict_set (d : dict) (k : string) (v : Z) : dict := (k, v) :: d.
(** DictAction, lines 51-58; [parse_int] is int(). *)
Fixpoint read_indexs (parse_int : string -> option Z) (values : list string) (d : dict) : option dict :=
  match values with
  | [] => Some d
  | value :: values' =>
      match split_eq value with
      | [k; v] => let! n := parse_int v in read_indexs parse_int values' (dict_set d k n)
      | _ => None
      end
  end.
Definition dict_action (parse_int : string -> option Z) (values : list string) : option (option dict) :=
  match values with
  | [] => Some None
  | _ => let! d := read_indexs parse_int values [] in Some (Some d)
  end.

(** What is read along a dimension. *)
Inductive part := Whole | At (i : Z).
(** grid, lines 536-549 with no index of its own: [sl] for each dimension. *)
Definition slices (coordinates : list string) (indexs : dict) (dims : list string) : list part :=
  map (fun d => match dict_get indexs d with
                | Some i => At i
                | None => if existsb (String.eqb d) coordinates then Whole else At 0
                end) dims.

Section Grid.
  Context {field eddies : Type}.
  (** convolve_filter_with_dynamic_kernel with the Bessel kernel: order, latitude and wavelength. *)
  Variable convolve : Z -> Q -> Q -> field -> field.
  Variable minus : field -> field -> field.
  (** The two gradients of add_uv. *)
  Variable grad_u grad_v : field -> field.
  (** eddy_identification of a height and two speeds. *)
  Variable detect : field -> field -> field -> eddies.

  (** The file: dimensions of each variable and what is read of it. *)
  Record source := { s_coordinates : list string; s_dims : string -> option (list string); s_read : string -> list part -> field }.
  Record grid := { g_source : source; g_indexs : dict; g_vars : list (string * field); g_regular : bool }.
  Definition cached (g : grid) (name : string) : option field := option_map snd (find (fun p => String.eqb (fst p) name) (g_vars g)).
  Definition set_var (g : grid) (name : string) (f : field) : grid :=
    {| g_source := g_source g; g_indexs := g_indexs g; g_vars := (name, f) :: g_vars g; g_regular := g_regular g |}.
  (** grid, lines 519-566: what is in memory, otherwise what is in the file, then kept in memory. *)
  Definition get (g : grid) (name : string) : option (field * grid) :=
    match cached g name with
    | Some f => Some (f, g)
    | None =>
        let! dims := s_dims (g_source g) name in
        let f := s_read (g_source g) name (slices (s_coordinates (g_source g)) (g_indexs g) dims) in
        Some (f, set_var g name f)
    end.
  (** add_uv, lines 1844-1906: [v] first, then [u]. *)
  Definition add_uv (g : grid) (h : string) : option grid :=
    if g_regular g then
      let! r := get g h in
      let data := fst r in
      Some (set_var (set_var (snd r) "v" (grad_v data)) "u" (grad_u data))
    else None.
  (** bessel_low_filter, lines 1595-1604, and bessel_high_filter, lines 1570-1593;
      only regular grids have them. *)
  Definition bessel_low (g : grid) (h : string) (w : Q) (order : Z) (lat_max : Q) : option grid :=
    if g_regular g then let! r := get g h in Some (set_var (snd r) h (convolve order lat_max w (fst r))) else None.
  Definition bessel_high (g : grid) (h : string) (w : Q) (order : Z) (lat_max : Q) : option grid :=
    if g_regular g then let! r := get g h in Some (set_var (snd r) h (minus (fst r) (convolve order lat_max w (fst r)))) else None.
  (** eddy_identification, lines 653 and 674: the speeds then the height. *)
  Definition eddy_identification (g : grid) (h u v : string) : option eddies :=
    let! ru := get g u in
    let! rv := get (snd ru) v in
    let! rh := get (snd rv) h in
    Some (detect (fst rh) (fst ru) (fst rv)).
  (** identification, lines 157-184. *)
  Definition identification (s : source) (h u v : string) (unregular : bool) (cut_wavelength cut_highwavelength lat_max : Q) (filter_order : Z) (indexs : option dict) : option eddies :=
    let g := {| g_source := s; g_indexs := match indexs with Some d => d | None => [] end; g_vars := []; g_regular := negb unregular |} in
    let none := String.eqb u "None" && String.eqb v "None" in
    let! g := if none then add_uv g h else Some g in
    let u := if none then "u"%string else u in
    let v := if none then "v"%string else v in
    let! g := if negb (Qeq_bool cut_highwavelength 0) then bessel_low g h cut_highwavelength filter_order lat_max else Some g in
    let! g := if negb (Qeq_bool cut_wavelength 0) then bessel_high g h cut_wavelength filter_order lat_max else Some g in
    eddy_identification g h u v.
  (** eddy_id, lines 103-152: the checks of the options, then the call. *)
  Definition eddy_id (parse_int : string -> option Z) (s : source) (h u v : string) (unregular : bool) (cut_wavelength : list Q) (lat_max : Q) (filter_order : Z) (pixel_limit : list Z) (indexs : option (list string)) : option eddies :=
    let! indexs := match indexs with None => Some None | Some values => dict_action parse_int values end in
    if negb (List.length pixel_limit =? 2) then None
    else
      match cut_wavelength with
      | [w] => identification s h u v unregular w 0 lat_max filter_order indexs
      | [w_inf; w_sup] => identification s h u v unregular w_sup w_inf lat_max filter_order indexs
      | _ => None
      end.
End Grid.
