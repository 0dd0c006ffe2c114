(** * The file of correspondences: tracking.py lines 278-280 (append), 405-489
    (to_netcdf), 515-558 (from_netcdf), and the part of merge_correspondance,
    lines 182-213, which looks for the common file and extends the list.

    A masked cell of an array is [None].  [None] as outcome is an exception.  Not
    modelled: the class and its options, the virtual observations saved next to the
    links (see C09), prepare_merging before the save (see C05), the renumbering
    of merge_correspondance (see C10). *)
From Coq Require Import List Arith Bool ZArith QArith String.
From Verif Require Import Base.
Import ListNotations.
Local Close Scope Q_scope.
Local Open Scope nat_scope.
Notation length := List.length.

(** What may be given as a dataset: a name, bytes, or a member of an archive. *)
Inductive dataset := Name (s : string) | Bytes (s : string) | Member (s : string).
Definition is_str (d : dataset) : bool := match d with Name _ => true | _ => false end.
Definition is_bytes (d : dataset) : bool := match d with Bytes _ => true | _ => false end.
Definition text_of (d : dataset) : string := match d with Name s | Bytes s | Member s => s end.

(** A link: the fields of correspondance_dtype, lines 80-86 and 117-122. *)
Record link := mklink { l_in : Z; l_out : Z; l_id : Z; l_cost : Q; l_virtual : bool; l_vlen : Z }.
(** Conversions to u2, u4 and u1. *)
Definition u2 (z : Z) : Z := (z mod 65536)%Z.
Definition u4 (z : Z) : Z := (z mod 4294967296)%Z.
Definition u1 (z : Z) : Z := (z mod 256)%Z.
(** store_correspondance, lines 222-229: indices put in the fields of a link. *)
Definition new_link (i_previous i_current id : Z) (cost : Q) (virtual : bool) (vlen : Z) : link :=
  mklink (u2 i_previous) (u2 i_current) (u4 id) cost virtual (u1 vlen).

(** datasets, the list itself, nb_link_max, nb_virtual and current_id. *)
Record run := { r_datasets : list dataset; r_links : list (list link); r_max : nat; r_nbv : Z; r_id : Z }.
(** append, lines 278-280. *)
Definition append (r : run) (c : list link) : run :=
  {| r_datasets := r_datasets r; r_links := r_links r ++ [c]; r_max := Nat.max (r_max r) (length c); r_nbv := r_nbv r; r_id := r_id r |}.
Definition set_id (r : run) (id : Z) : run := {| r_datasets := r_datasets r; r_links := r_links r; r_max := r_max r; r_nbv := r_nbv r; r_id := id |}.

(** The file: names, number of links by step, and an array by field; the two last
    fields are there when virtual observations are used. *)
Record file := {
  f_in : list string; f_out : list string; f_nb : list (option Z);
  v_in : list (list (option Z)); v_out : list (list (option Z)); v_id : list (list (option Z)); v_cost : list (list (option Q));
  v_virtual : option (list (list (option Z))); v_vlen : option (list (list (option Z)));
  f_nbv : Z; f_id : Z
}.
(** get_filename, lines 429-432. *)
Definition get_filename (d : dataset) : string := if negb (is_str d) || negb (is_bytes d) then "In memory file" else text_of d.

(** Rows of an array: a step after the other, then masked rows. *)
Definition pad {A} (n : nat) (l : list A) : list (option A) := map Some l ++ repeat None (n - length l).
Definition column {A} (g : link -> A) (nlink nb_step : nat) (links : list (list link)) : list (list (option A)) :=
  map (fun c => pad nlink (map g c)) links ++ repeat (repeat None nlink) (nb_step - length links).
(** to_netcdf, lines 405-489.  A step beyond the dimension, or with more links than
    it, is an exception, as is the minimum (line 472) of an array without cell. *)
Definition to_netcdf (r : run) : option file :=
  let nb_step := length (r_datasets r) - 1 in
  let links := r_links r in
  if nb_step <? length links then None
  else if existsb (fun c => r_max r <? length c) links then None
  else if (nb_step =? 0) || (r_max r =? 0) then None
  else
    let col {A} (g : link -> A) := column g (r_max r) nb_step links in
    let virtual := (0 <? r_nbv r)%Z in
    Some {| f_in := map get_filename (removelast (r_datasets r)); f_out := map get_filename (tl (r_datasets r));
            f_nb := pad nb_step (map (fun c => u2 (Z.of_nat (length c))) links);
            v_in := col l_in; v_out := col l_out; v_id := col l_id; v_cost := col l_cost;
            v_virtual := if virtual then Some (col (fun l => if l_virtual l then 1 else 0)%Z) else None;
            v_vlen := if virtual then Some (col l_vlen) else None;
            f_nbv := r_nbv r; f_id := r_id r |}.

(** Cells [:nb] of a row; what is under the mask is the fill value [d]. *)
Definition cells {A} (d : A) (row : list (option A)) (nb : Z) : list A :=
  map (fun o => match o with Some a => a | None => d end) (firstn (Z.to_nat nb) row).
(** The links of step [i], lines 541-555; without virtual observations the two
    last fields do not exist, they are [false] and 0 here. *)
Definition links_of (f : file) (i : nat) (nb : Z) : option (list link) :=
  let! a := nth_error (v_in f) i in
  let! b := nth_error (v_out f) i in
  let! c := nth_error (v_id f) i in
  let! q := nth_error (v_cost f) i in
  let ins := cells 65535%Z a nb in
  let outs := cells 65535%Z b nb in
  let ids := cells 4294967295%Z c nb in
  let costs := cells 0%Q q nb in
  let! vs := if (0 <? f_nbv f)%Z then let! v := v_virtual f in let! v := nth_error v i in Some (map (fun x => negb (x =? 0)%Z) (cells 255%Z v nb)) else Some (map (fun _ => false) ins) in
  let! ls := if (0 <? f_nbv f)%Z then let! v := v_vlen f in let! v := nth_error v i in Some (cells 255%Z v nb) else Some (map (fun _ => 0%Z) ins) in
  Some (map (fun t => let '(((((a, b), c), q), v), l) := t in mklink a b c q v l) (combine (combine (combine (combine (combine ins outs) ids) costs) vs) ls)).
(** ["id"].max(), an exception without link. *)
Definition max_id (l : list link) : option Z :=
  match l with [] => None | a :: l' => Some (fold_left (fun m b => Z.max m (l_id b)) l' (l_id a)) end.
(** Loop of lines 538-556. *)
Fixpoint load_steps (f : file) (i : nat) (nbs : list (option Z)) (id_max : Z) (r : run) : option (run * Z) :=
  match nbs with
  | [] => Some (r, id_max)
  | nb :: nbs' =>
      let! nb := nb in
      let! c := links_of f i nb in
      let! m := max_id c in
      load_steps f (S i) nbs' (Z.max id_max m) (append r c)
  end.
(** from_netcdf, lines 515-558. *)
Definition from_netcdf (f : file) : option run :=
  match f_out f with
  | [] => None
  | _ =>
      let r0 := {| r_datasets := map Name (f_in f ++ [last (f_out f) ""%string]); r_links := []; r_max := 0; r_nbv := f_nbv f; r_id := 0 |} in
      let! s := load_steps f 0 (f_nb f) 0 r0 in
      Some (set_id (fst s) (snd s + 1)%Z)
  end.

(** merge_correspondance, lines 184-190: number of the common file. *)
Definition same_name (a b : dataset) : bool := String.eqb (text_of a) (text_of b).
Definition junction (self other : run) : option nat :=
  if negb (r_nbv self =? r_nbv other)%Z then None
  else
    let! d := nth_error (rev (r_datasets self)) 0 in
    match filter (fun p => same_name (snd p) d) (combine (seq 0 (length (r_datasets other))) (r_datasets other)) with
    | [p] => Some (fst p)
    | _ => None
    end.
(** Lines 207-213: the steps, once renumbered, and the names are put after those
    of [self]; nb_link_max is not looked at. *)
Definition extend (self : run) (steps : list (list link)) (names : list dataset) (id : Z) : run :=
  {| r_datasets := r_datasets self ++ names; r_links := r_links self ++ steps; r_max := r_max self; r_nbv := r_nbv self; r_id := id |}.
