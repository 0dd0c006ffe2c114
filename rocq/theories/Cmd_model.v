(** The command of tracking: choice of the files, tracking, and the three
    datasets written.

    Simplifications: a file is its name (a number with the order of the names),
    its date in seconds (what the regular expression and [identify_time] find, any
    value when they find nothing: the code leaves this cell uninitialised) and its
    observations; a run without previous correspondences; the observations of the
    outputs are (rank of the file, row), as in [Corr_model]. *)
From Coq Require Import List Arith ZArith Bool QArith.
From Verif Require Import Base Corr_model.
Import ListNotations.
Local Close Scope Q_scope.
Local Open Scope nat_scope.

Section Cmd.
Context {Obs V : Type}.
Record file := mkfile { f_name : Z; f_date : Z; f_obs : list Obs }.

(** [sort(order=["date", "filename"])], appli/eddies.py line 277. *)
Definition before (a b : file) : bool := ((f_date a <? f_date b) || ((f_date a =? f_date b) && (f_name a <=? f_name b)))%Z.
Fixpoint finsert (a : file) (l : list file) : list file :=
  match l with [] => [a] | b :: l' => if before a b then a :: l else b :: finsert a l' end.
Definition fsort (l : list file) : list file := fold_right finsert [] l.

(** Lines 278-280: [unique] of the time steps. *)
Fixpoint diffs (l : list file) : list Z :=
  match l with a :: ((b :: _) as l') => (f_date b - f_date a)%Z :: diffs l' | _ => [] end.
Definition one_step (l : list file) : bool :=
  match diffs l with [] => true | s :: r => forallb (Z.eqb s) r end.

(** [l[::k]], line 284; a null step is an error. *)
Fixpoint stride_from {A} (k wait : nat) (l : list A) : list A :=
  match l with
  | [] => []
  | a :: l' => match wait with 0 => a :: stride_from k (k - 1) l' | S w => stride_from k w l' end
  end.

(** browse_dataset_in, lines 226-296.  The filter on dates reads the first and the
    last file (an error when there is none) and compares with both bounds (a missing
    one is an error). *)
Definition browse (sub : nat) (start_date end_date : option Z) (files : list file) : option (list file) :=
  let l := fsort files in
  if negb (one_step l) then None
  else
    let! l := if sub =? 1 then Some l else if sub =? 0 then None else Some (stride_from sub 0 l) in
    match start_date, end_date with
    | None, None => Some l
    | _, _ =>
        if length l =? 0 then None
        else
          let! a := start_date in
          let! b := end_date in
          Some (filter (fun f => ((a <=? f_date f) && (f_date f <=? b))%Z) l)
    end.

(** What is written: links, then observations out of any track, long and short
    tracks. *)
Record outputs := mkoutputs { o_untracked : list (nat * nat); o_long : list row; o_short : list row }.

Variables (as_obs : V -> Obs) (extrapolate : Obs -> Obs -> V) (prolong : V -> V)
  (associate : list Obs -> list Obs -> option (list (nat * nat * Q))) (nbv : nat).

(** get_unused_data of all the files, tracking.py lines 724-755. *)
Definition all_unused (links : list (list corr)) (ds : list (list Obs)) : option (list (nat * nat)) :=
  let! l := sequence (map (fun p => option_map (map (pair (fst p))) (unused_at links (length ds) (fst p) (length (snd p)))) (combine (seq 0 (length ds)) ds)) in
  Some (concat l).

(** track, lines 299-382.  The greatest length of no track at all is an error
    (line 343); the filling of the virtual observations is left out (C48). *)
Definition command (nb_obs_min blank_period : nat) (correspondances_only : bool) (files : list file)
  : option (list (list corr) * option outputs) :=
  let! datasets := browse 1 None None files in
  let datasets := if 0 <? blank_period then firstn (length datasets - blank_period) datasets else datasets in
  if length datasets <? nb_obs_min then None
  else
    let ds := map f_obs datasets in
    let! c := track as_obs extrapolate prolong associate nbv ds in
    let! _ := save c in
    let links := rev (s_links c) in
    if correspondances_only then Some (links, None)
    else
      let! nb := nb_obs_by_tracks (0 <? nbv) (s_id c) links in
      if length nb =? 0 then None
      else
        let! untracked := all_unused links ds in
        let! (nb_s, links_s) := shorter_than nb_obs_min nb links in
        let! short := merge (0 <? nbv) nb_s links_s in
        let! long :=
          if existsb (fun n => nb_obs_min <=? n) nb then
            let! (nb_l, links_l) := longer_than nb_obs_min nb links in
            merge (0 <? nbv) nb_l links_l
          else Some [] in
        Some (links, Some (mkoutputs untracked long short)).
End Cmd.
Arguments file : clear implicits.
