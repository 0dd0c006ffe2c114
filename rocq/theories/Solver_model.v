(** Model of the association solvers:
    [src/py_eddy_tracker/observations/observation.py] lines 1404-1546 and
    2636-2648, [featured_tracking/old_tracker_reference.py] lines 44-67,
    [featured_tracking/area_tracker.py] lines 35-78.

    A masked array is a matrix of [option Q]: [None] is a masked cell.  Costs
    are finite numbers (masked argmin fills masked cells with +inf). *)
From Coq Require Import List Arith Bool QArith.
From Verif Require Import Base Qaux.
Import ListNotations.

(** ** Matrix primitives (numpy) *)
Definition mat (A : Type) := list (list A).

(** [M[i, j]] *)
Definition get {A} (M : mat A) (i j : nat) : option A :=
  match nth_error M i with Some r => nth_error r j | None => None end.

(** [M[i] = v] (whole row), [M[:, j] = v] (whole column), [M[i, j] = v]. *)
Fixpoint upd_with {A} (f : A -> A) (l : list A) (i : nat) : list A :=
  match l, i with
  | [], _ => []
  | a :: l', O => f a :: l'
  | a :: l', S i' => a :: upd_with f l' i'
  end.
Definition set_row {A} (M : mat A) (i : nat) (v : A) : mat A := upd_with (map (fun _ => v)) M i.
Definition set_col {A} (M : mat A) (j : nat) (v : A) : mat A := map (fun r => upd r j v) M.
Definition set_cell {A} (M : mat A) (i j : nat) (v : A) : mat A := upd_with (fun r => upd r j v) M i.

Definition is_some {A} (o : option A) : bool := match o with Some _ => true | None => false end.

(** ** sum_row_column, observation.py lines 2636-2648.
    Columns are counted for [j < m], [m] being the declared number of columns. *)
Definition row_sum (M : mat bool) : list nat := map count_true M.
Definition cell_true (r : list bool) (j : nat) : bool :=
  match nth_error r j with Some true => true | _ => false end.
Definition column_sum (m : nat) (M : mat bool) : list nat :=
  map (fun j => count_true (map (fun r => cell_true r j) M)) (seq 0 m).

(** [mask[rows].any(axis=0)], lines 1428: rows selected by a boolean list. *)
Definition any_col (m : nat) (M : mat bool) : list bool :=
  map (fun j => existsb (fun r => cell_true r j) M) (seq 0 m).
(** [mask[:, cols].any(axis=1)], line 1429. *)
Definition any_row (cols : list bool) (M : mat bool) : list bool :=
  map (fun r => existsb (fun b => b) (select cols r)) M.

Definition orb_list (a b : list bool) : list bool := map (fun p => fst p || snd p) (combine a b).

(** Rows and columns in conflict, lines 1422-1431 (and 1480-1488). *)
Definition separation (M : mat bool) : list bool := map (fun k => 1 <? k) (row_sum M).
Definition merging (m : nat) (M : mat bool) : list bool := map (fun k => 1 <? k) (column_sum m M).
Definition self_keep (m : nat) (M : mat bool) : list nat :=
  where_ (orb_list (any_row (merging m M) M) (separation M)).
Definition other_keep (m : nat) (M : mat bool) : list nat :=
  where_ (orb_list (any_col m (select (separation M) M)) (merging m M)).

(** [cost[i_self_keep][:, i_other_keep]], line 1434. *)
Fixpoint gather_rows {A} (rows : mat A) (ix : list nat) : option (mat A) :=
  match rows with
  | [] => Some []
  | r :: rows' => let! r' := gather r ix in let! rest := gather_rows rows' ix in Some (r' :: rest)
  end.
Definition submatrix {A} (M : mat A) (ki kj : list nat) : option (mat A) :=
  let! rows := gather M ki in gather_rows rows kj.

(** ** Masked argmin on a flat array: position of the first smallest unmasked
    cell.  [None] when every cell is masked (numpy would return 0; the code
    tests for an unmasked cell before the call). *)
Fixpoint argmin_from (p : nat) (best : option (nat * Q)) (l : list (option Q)) : option (nat * Q) :=
  match l with
  | [] => best
  | None :: l' => argmin_from (S p) best l'
  | Some c :: l' =>
      match best with
      | Some (_, b) => if Qlt_bool c b then argmin_from (S p) (Some (p, c)) l' else argmin_from (S p) best l'
      | None => argmin_from (S p) (Some (p, c)) l'
      end
  end.
Definition argmin (l : list (option Q)) : option nat := option_map fst (argmin_from 0 None l).

(** State of the conflict resolution: result mask and reduced cost. *)
Definition take_link (ki kj : list nat) (st : mat bool * mat (option Q)) (i j : nat)
  : option (mat bool * mat (option Q)) :=
  let '(mask, red) := st in
  let! gi := nth_error ki i in
  let! gj := nth_error kj j in
  (* lines 1455-1460 *)
  let mask := set_col (set_row mask gi false) gj false in
  let red := set_col (set_row red i None) j None in
  Some (set_cell mask gi gj true, red).

(** Loop of lines 1447-1461.  [fuel] is the number of turns left before
    [security_increment > max_iteration], i.e. [max_iteration + 1] at first;
    [None] is the exception of line 1451 (or an indexing error). *)
Fixpoint resolve (fuel : nat) (ki kj : list nat) (st : mat bool * mat (option Q)) : option (mat bool) :=
  match argmin (concat (snd st)) with
  | None => Some (fst st)
  | Some p =>
      match fuel with
      | O => None
      | S fuel' =>
          (* i = floor(p / shape[1]), j = p % shape[1] *)
          let! st' := take_link ki kj st (p / length kj)%nat (p mod length kj)%nat in
          resolve fuel' ki kj st'
      end
  end.

(** ** solve_simultaneous, observation.py lines 1404-1464. [m] is shape[1]. *)
Definition solve_simultaneous (m : nat) (cost : mat (option Q)) : option (mat bool) :=
  let mask := map (map is_some) cost in
  if (length cost * m =? 0)%nat then Some mask       (* mask.size == 0 *)
  else if existsb (fun b => b) (separation mask) || existsb (fun b => b) (merging m mask) then
    let ki := self_keep m mask in
    let kj := other_keep m mask in
    let! red := submatrix cost ki kj in
    resolve (Nat.max (length ki) (length kj) + 1) ki kj (mask, red)
  else Some mask.

(** ** solve_first, observation.py lines 1466-1514.
    [cost_reduce[i].argmin()] is inspected row after row; a masked cell there
    means the whole row is masked and the row is skipped (line 1501). *)
Definition take_first (multiple : bool) (ki kj : list nat) (st : mat bool * mat (option Q)) (i : nat)
  : option (mat bool * mat (option Q)) :=
  let '(mask, red) := st in
  let! r := nth_error red i in
  match argmin r with
  | None => Some st
  | Some j =>
      let! gi := nth_error ki i in
      let! gj := nth_error kj j in
      let mask := set_row mask gi false in
      let red := set_row red i None in
      let mask := if multiple then mask else set_col mask gj false in
      let red := if multiple then red else set_col red j None in
      Some (set_cell mask gi gj true, red)
  end.
Fixpoint first_loop (multiple : bool) (ki kj : list nat) (rows : list nat) (st : mat bool * mat (option Q))
  : option (mat bool * mat (option Q)) :=
  match rows with
  | [] => Some st
  | i :: rows' => let! st' := take_first multiple ki kj st i in first_loop multiple ki kj rows' st'
  end.
(** An empty matrix raises ([max] of an empty array): [None]. *)
Definition solve_first (multiple : bool) (m : nat) (cost : mat (option Q)) : option (mat bool) :=
  let mask := map (map is_some) cost in
  if (length cost * m =? 0)%nat then None
  else if existsb (fun b => b) (separation mask) || existsb (fun b => b) (merging m mask) then
    let ki := self_keep m mask in
    let kj := other_keep m mask in
    let! red := submatrix cost ki kj in
    let! st := first_loop multiple ki kj (seq 0 (length ki)) (mask, red) in
    Some (fst st)
  else Some mask.

(** ** where on a matrix (numba_where, line 2628): pairs in C order. *)
Fixpoint where_rows (i : nat) (M : mat bool) : list (nat * nat) :=
  match M with
  | [] => []
  | r :: M' => map (fun j => (i, j)) (where_ r) ++ where_rows (S i) M'
  end.
Definition where2 (M : mat bool) : list (nat * nat) := where_rows 0 M.

(** [unique(x).shape[0] == x.shape[0]] *)
Fixpoint all_distinct (l : list nat) : bool :=
  match l with [] => true | a :: l' => negb (existsb (Nat.eqb a) l') && all_distinct l' end.

(** ** EddiesObservations.tracking, lines 1524-1546, from the cost matrix on
    (distance, mask_function and cost_function are inputs, as [cost]);
    post_process_link of lines 1519-1522 raises on a repeated [i_other]. *)
Definition tracking (m : nat) (cost : mat (option Q)) : option (list (nat * nat)) :=
  let! mask := solve_simultaneous m cost in
  let links := where2 mask in
  if all_distinct (map snd links) then Some links else None.

(** ** CheltonTracker.post_process_link, old_tracker_reference.py lines 48-67.
    [amplitude] is the field of the current observations. *)
Fixpoint argmax_from (p : nat) (best : nat * Q) (l : list Q) : nat * Q :=
  match l with
  | [] => best
  | c :: l' => if Qlt_bool (snd best) c then argmax_from (S p) (p, c) l' else argmax_from (S p) best l'
  end.
Definition argmax (l : list Q) : option nat :=
  match l with [] => None | c :: l' => Some (fst (argmax_from 1 (0%nat, c) l')) end.

(** Links dropped for one target [o] (lines 57-61): every link to [o] but the
    one whose source has the largest amplitude. *)
Definition drop_for (amplitude : list Q) (links : list (nat * nat)) (o : nat) (mask : list bool) : option (list bool) :=
  let m := map (fun l => (o =? snd l)%nat) links in
  let! a := gather amplitude (map fst (select m links)) in
  let! k := argmax a in
  let! p := nth_error (where_ m) k in
  let! m' := store m p false in
  Some (map (fun q => fst q && negb (snd q)) (combine mask m')).
Fixpoint drop_all (amplitude : list Q) (links : list (nat * nat)) (os : list nat) (mask : list bool) : option (list bool) :=
  match os with
  | [] => Some mask
  | o :: os' => let! mask' := drop_for amplitude links o mask in drop_all amplitude links os' mask'
  end.
Definition list_max_nat (l : list nat) : nat := fold_right Nat.max 0%nat l.
Definition chelton_post_process (amplitude : list Q) (links : list (nat * nat)) : option (list (nat * nat)) :=
  if all_distinct (map snd links) then Some links
  else
    (* where(bincount(i_other) > 1)[0] *)
    let nb o := count_true (map (fun l => (snd l =? o)%nat) links) in
    let os := filter (fun o => (1 <? nb o)%nat) (seq 0 (S (list_max_nat (map snd links)))) in
    let! mask := drop_all amplitude links os (repeat true (length links)) in
    Some (select mask links).

Definition chelton_tracking (amplitude : list Q) (m : nat) (cost : mat (option Q)) : option (list (nat * nat)) :=
  let! mask := solve_first true m cost in
  chelton_post_process amplitude (where2 mask).

(** ** mask_cmin, area_tracker.py lines 70-78: cost matrix of the overlap
    tracker from the candidate list [(i, j, c)]. *)
Fixpoint mask_cmin (cmin : Q) (cand : list (nat * nat * Q)) (cost : mat (option Q)) : mat (option Q) :=
  match cand with
  | [] => cost
  | (i, j, c) :: cand' =>
      mask_cmin cmin cand' (if Qlt_bool cmin c then set_cell cost i j (Some (1 - c)%Q) else cost)
  end.
Definition area_cost (cmin : Q) (n m : nat) (cand : list (nat * nat * Q)) : mat (option Q) :=
  mask_cmin cmin cand (repeat (repeat None m) n).
Definition area_tracking (cmin : Q) (n m : nat) (cand : list (nat * nat * Q)) : option (list (nat * nat)) :=
  tracking m (area_cost cmin n m cand).
