(** * Files and table of the quick comparison of identifications,
    appli/eddies.py lines 452-582 (run_compare, display_compare, quick_compare).

    Parameters: [load] is EddiesObservations.load_file, [match_] is the method
    match of two datasets (links with their scores).  The file system is the list
    of the files written, by name; mkdir is not modelled. *)
From Coq Require Import List Arith ZArith QArith Bool Ascii String.
From Verif Require Import Base Qaux Atl_model Fname_model.
Import ListNotations.
Local Close Scope Q_scope.
Local Open Scope nat_scope.

(** Equality of names. *)
Definition same (a b : text) : bool := if list_eq_dec ascii_dec a b then true else false.

(** The families in the order of the dictionaries of get_group, lines 394-447
    ("multi_match" comes before "parent"). *)
Definition labelled (g : groups) : list (text * list nat) :=
  [(chars "nomatch", nomatch g); (chars "low", g_low g); (chars "intermediate", g_intermediate g); (chars "high", g_high g);
   (chars "multi_match", multi_match g); (chars "parent", parent g); (chars "twin", twin g); (chars "complex", complex g)].

Section Compare.
Context {A : Type}.
Variables (load : text -> list A) (match_ : list A -> list A -> list (nat * nat * Q)).
Variables (invalid low high : Q).

(** Body of the loop of run_compare, lines 454-465, for a dataset. *)
Definition compare (ref other : list A) : option (groups * groups) :=
  get_group (List.length ref) (List.length other) (match_ ref other) invalid low high.
(** run_compare, lines 452-466: the dictionaries of the groups, by name. *)
Fixpoint run_compare (ref : list A) (others : list text) : option (list (text * (groups * groups))) :=
  match others with
  | [] => Some []
  | o :: others' =>
      let! g := compare ref (load o) in
      let! gs := run_compare ref others' in
      Some ((o, g) :: gs)
  end.

(** [other_.replace('/', '_')], line 570. *)
Definition flat (name : text) : text := map (fun c => if eqa c "/" then "_"%char else c) name.
(** Name of a file, lines 570-578. *)
Definition out_name (path_out other side label : text) : text :=
  path_out ++ chars "/" ++ flat other ++ chars "/" ++ chars "/" ++ side ++ label ++ chars ".nc".

(** A file is made or replaced (Dataset(filename, "w")). *)
Fixpoint put (fs : list (text * list A)) (name : text) (rows : list A) : list (text * list A) :=
  match fs with
  | [] => [(name, rows)]
  | f :: fs' => if same (fst f) name then (name, rows) :: fs' else f :: put fs' name rows
  end.
Fixpoint find (fs : list (text * list A)) (name : text) : option (list A) :=
  match fs with
  | [] => None
  | f :: fs' => if same (fst f) name then Some (snd f) else find fs' name
  end.

(** Loops of lines 573-575 and 576-578: the rows of each family are written;
    [sign] and [prod] are what write_file puts in the name. *)
Fixpoint save_groups (sign prod : text) (path_out other side : text) (rows : list A) (gs : list (text * list nat)) (fs : list (text * list A)) : option (list (text * list A)) :=
  match gs with
  | [] => Some fs
  | g :: gs' =>
      let! r := gather rows (snd g) in
      let! w := write_file (chars "./") sign prod (out_name path_out other side (fst g)) false in
      save_groups sign prod path_out other side rows gs' (put fs (fst w) r)
  end.
(** Lines 566-579. *)
Fixpoint save_all (sign prod path_out : text) (ref : list A) (gs : list (text * (groups * groups))) (others : list text) (fs : list (text * list A)) : option (list (text * list A)) :=
  match others with
  | [] => Some fs
  | o :: others' =>
      let! g := option_map snd (List.find (fun p => same (fst p) o) gs) in
      let! fs1 := save_groups sign prod path_out o (chars "other_") (load o) (labelled (snd g)) fs in
      let! fs2 := save_groups sign prod path_out o (chars "ref_") ref (labelled (fst g)) fs1 in
      save_all sign prod path_out ref gs others' fs2
  end.
Definition quick_compare (sign prod path_out ref : text) (others : list text) (fs : list (text * list A)) : option (list (text * list A)) :=
  let! gs := run_compare (load ref) others in
  save_all sign prod path_out (load ref) gs others fs.

(** display_compare, lines 469-522: the values of lines 490-497 (numbers of
    eddies, or with [area] sums of areas, whose unit is left out) and the
    percentages of lines 477-484; [None] when the reference is 0, where the
    values alone are written. *)
Definition weight (area : option (A -> Q)) (rows : list A) : Q :=
  match area with
  | None => inject_Z (Z.of_nat (List.length rows))
  | Some f => fold_right (fun r s => f r + s)%Q 0%Q rows
  end.
Definition percents (area : option (A -> Q)) (rows : list A) (g : groups) : option (list (text * option Q)) :=
  let total := weight area rows in
  let! vs := (fix values (l : list (text * list nat)) := match l with
     | [] => Some []
     | x :: l' => let! r := gather rows (snd x) in let! vs := values l' in Some ((fst x, weight area r) :: vs)
     end) (labelled g) in
  Some (map (fun v => (fst v, if Qeq_bool total 0 then None else Some (snd v / total * 100)%Q)) vs).
End Compare.
