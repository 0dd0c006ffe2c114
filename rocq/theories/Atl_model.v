(** Model of src/py_eddy_tracker/appli/eddies.py: get_group, which sorts the eddies
    of two datasets in families from the links between them. *)
From Coq Require Import List Arith ZArith QArith Bool.
From Verif Require Import Base Qaux Generic_model Corr_model NetGroup_model.
Import ListNotations.
Local Close Scope Q_scope.
Local Open Scope nat_scope.

Record groups := { nomatch : list nat; g_low : list nat; g_intermediate : list nat; g_high : list nat;
  multi_match : list nat; parent : list nat; twin : list nat; complex : list nat }.

(** get_twin, lines 428-437: [bincount(l)[x]] is [gather]; [m[m] = m_]. *)
Definition get_twin (j2 j1 : list nat) : option (list bool) :=
  let! c1 := gather (bincount j1) j1 in
  let m := map (fun c => c =? 1) c1 in
  let j2_ := select m j2 in
  let! a := gather (bincount j2_) j2_ in
  let! b := gather (bincount j2) j2_ in
  let m_ := map (fun p => (fst p =? 2) && (snd p =? 2)) (combine a b) in
  mask_store m m m_.

(** unique with return_counts, lines 400-403: the values seen twice at least. *)
Definition seen_twice (l : list nat) : list nat := filter (fun x => 2 <=? occurrences x l) (usort l).

(** get_group, lines 384-449.  The three arrays of the links (index1, index2,
    score), of the same size in the code, are the list of their rows. *)
Definition get_group (n1 n2 : nat) (links : list (nat * nat * Q)) (invalid low high : Q) : option (groups * groups) :=
  let valid := filter (fun l => Qle_bool invalid (snd l * 100)%Q) links in
  let i1 := map (fun l => fst (fst l)) valid in
  let i2 := map (fun l => snd (fst l)) valid in
  let score := map (fun l => (snd l * 100)%Q) valid in
  let! no1 := reverse_index i1 n1 in
  let! no2 := reverse_index i2 n2 in
  let i1_multi := seen_twice i1 in
  let i2_multi := seen_twice i2 in
  let m_multi := map (fun p => mem (fst p) i1_multi || mem (snd p) i2_multi) (combine i1 i2) in
  let family f := map (fun p => f (fst p) && negb (snd p)) (combine score m_multi) in
  let m_low := family (fun s => Qlt_bool s low) in
  let m_i := family (fun s => Qle_bool low s && Qlt_bool s high) in
  let m_high := family (fun s => Qle_bool high s) in
  let! m1 := get_twin i1 i2 in
  let! m2 := get_twin i2 i1 in
  let m := map (fun p => negb (fst (fst p)) && negb (snd (fst p)) && snd p) (combine (combine m1 m2) m_multi) in
  let side no (i : list nat) mp mt := {| nomatch := no; g_low := select m_low i; g_intermediate := select m_i i; g_high := select m_high i;
    multi_match := usort (select m_multi i); parent := usort (select mp i); twin := select mt i; complex := usort (select m i) |} in
  Some (side no1 i1 m1 m2, side no2 i2 m2 m1).
