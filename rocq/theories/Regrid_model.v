(** A field brought to another grid and land removed, dataset/grid.py lines 1968-1990 (regrid)
    and 1322-1328 (clean_land), with the variables written later, lines 368-402 (write).

    A field is the list of its columns, one for each longitude; a value is [None] when it is
    masked. The interpolation of a grid at a place ([None] is nan) is a parameter: it is the
    subject of other models. *)
From Coq Require Import List Arith Bool QArith.
Import ListNotations.
From Verif Require Import Base Store_model.
Local Open Scope nat_scope.

Definition field := list (list (option Q)).

(** numpy: [reshape(-1)] is [concat]; [reshape] to [n] rows of [w]; [.T] of rows of [w]. *)
Fixpoint reshape {A} (n w : nat) (l : list A) : list (list A) :=
  match n with O => [] | S n => firstn w l :: reshape n w (skipn w l) end.
Definition transpose {A} (w : nat) (rows : list (list A)) : list (list A) :=
  map (fun i => flat_map (fun r => match nth_error r i with Some v => [v] | None => [] end) rows) (seq 0 w).
(** meshgrid: longitudes and latitudes, one row for each latitude. *)
Definition mesh_x (xs ys : list Q) : list (list Q) := map (fun _ => xs) ys.
Definition mesh_y (xs ys : list Q) : list (list Q) := map (fun y => map (fun _ => y) xs) ys.

(** Lines 1980-1984 of regrid, and 1325-1326 with 1328 of clean_land: value at all the places
    of the grid. *)
Definition on_grid {A} (interp : Q -> Q -> A) (xs ys : list Q) : list (list A) :=
  let values := map (fun p => interp (fst p) (snd p)) (combine (concat (mesh_x xs ys)) (concat (mesh_y xs ys))) in
  transpose (length xs) (reshape (length ys) (length xs) values).

(** Description of a variable: its name in a file, its dimensions, and if it is transposed
    when it is written (variables_description: args, kwargs, infos). *)
Record desc := Desc { d_name : nat; d_dims : list nat; d_tr : bool }.
(** A grid: coordinates, dimensions, fields and descriptions. The coordinates among the
    variables are not modelled. *)
Record gridset := Gridset { g_x : list Q; g_y : list Q; g_dims : list nat; g_vars : list (nat * field); g_desc : list (nat * desc) }.

(** regrid, lines 1968-1990: [None] is a KeyError (variable unknown in the other grid). *)
Definition regrid (interp : Q -> Q -> option Q) (g : gridset) (other_desc : list (nat * desc)) (grid_name : nat) (new_name : option nat) : option gridset :=
  let new_name := match new_name with Some n => n | None => grid_name end in
  let v := on_grid interp (g_x g) (g_y g) in
  let! d := lookup grid_name other_desc in
  Some (Gridset (g_x g) (g_y g) (g_dims g) (put new_name v (g_vars g)) (put new_name d (g_desc g))).

(** write, lines 373-399: for each variable described and present, one variable in the file
    under the name of the description; [None] is the error of netcdf for a dimension which
    does not exist in the file (those of the grid used by a variable present, lines 374-385)
    or a name already used. *)
Definition write_one (g : gridset) (acc : option (list (nat * (list nat * field)))) (p : nat * desc) : option (list (nat * (list nat * field))) :=
  let! file := acc in
  match lookup (fst p) (g_vars g) with
  | None => Some file
  | Some a =>
      let d := snd p in
      if negb (forallb (fun dim => existsb (Nat.eqb dim) (g_dims g)) (d_dims d)) then None
      else if existsb (fun q => fst q =? d_name d) file then None
      else Some (file ++ [(d_name d, (d_dims d, if d_tr d then transpose (length (g_y g)) a else a))])
  end.
Definition write (g : gridset) : option (list (nat * (list nat * field))) := fold_left (write_one g) (g_desc g) (Some []).

(** clean_land, lines 1322-1328: [land] is the value of the nearest pixel of the grid of
    land, [None] out of it (nan, which is true as a mask); a mask is added to the one of the
    field. *)
Definition is_land (v : option Q) : bool := match v with None => true | Some q => negb (Qeq_bool q 0) end.
Fixpoint zip2 {A B C} (f : A -> B -> C) (l : list A) (m : list B) : list C :=
  match l, m with a :: l, b :: m => f a b :: zip2 f l m | _, _ => [] end.
Definition clean_land (land : Q -> Q -> option Q) (g : gridset) (name : nat) : option gridset :=
  let! data := lookup name (g_vars g) in
  let m := on_grid land (g_x g) (g_y g) in
  Some (Gridset (g_x g) (g_y g) (g_dims g) (put name (zip2 (zip2 (fun v l => if is_land l then None else v)) data m) (g_vars g)) (g_desc g)).
