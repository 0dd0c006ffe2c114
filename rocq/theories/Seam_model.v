(** Model of find_wrapcut_path_and_join, src/py_eddy_tracker/eddy_feature.py lines 322-398:
    on a grid which goes round the earth, the contours cut at the first and last meridian
    are put together.  One level; coordinates are exact rationals. *)
From Coq Require Import List Arith ZArith QArith Qabs Bool.
From Verif Require Import Base Qaux Ctr_model.
Import ListNotations.
Local Close Scope Q_scope.
Local Open Scope nat_scope.

(** [vertices[0]] and [vertices[-1]]: an empty path is refused by [classify], before
    these are used. *)
Definition first_pt (p : list (Q * Q)) : Q * Q := hd (0, 0)%Q p.
Definition last_pt (p : list (Q * Q)) : Q * Q := last p (0, 0)%Q.
Definition near (a b : Q) : bool := Qlt_bool (Qabs (a - b)) DELTA_PREC.
(** [vertices[:, 0] -= 360]. *)
Definition west (p : list (Q * Q)) : list (Q * Q) := map (fun v => (fst v - 360, snd v)%Q) p.
(** [vertices[-1] = vertices[0]]. *)
Definition close_path (p : list (Q * Q)) : list (Q * Q) := upd p (length p - 1) (first_pt p).

(** Lines 346-360: the paths of the first meridian, those of the last, the others. *)
Fixpoint classify (x0 x1 : Q) (paths : list (list (Q * Q))) : option (list (list (Q * Q)) * list (list (Q * Q)) * list (list (Q * Q))) :=
  match paths with
  | [] => Some ([], [], [])
  | p :: paths' =>
      if length p =? 0 then None
      else
        let x_start := fst (first_pt p) in
        let x_end := fst (last_pt p) in
        let! r := classify x0 x1 paths' in
        let '(l, r, o) := r in
        Some (if near x_start x0 && near x_end x0 then (p :: l, r, o)
              else if near x_start x1 && near x_end x1 then (l, p :: r, o)
              else (l, r, p :: o))
  end.

(** A loop with a [pop] of the first element which fits. *)
Fixpoint take_first {A} (f : A -> bool) (l : list A) : option (A * list A) :=
  match l with
  | [] => None
  | a :: l' => if f a then Some (a, l') else match take_first f l' with None => None | Some (b, r) => Some (b, a :: r) end
  end.
(** Lines 362-384: the contours in two parts; the paths of the first meridian left, those of the last left. *)
Definition fits (path_left path_right : list (Q * Q)) : bool :=
  near (snd (first_pt path_left)) (snd (last_pt path_right)) && near (snd (last_pt path_left)) (snd (first_pt path_right)).
Fixpoint pair_up (lefts rights : list (list (Q * Q))) : list (list (Q * Q)) * list (list (Q * Q)) * list (list (Q * Q)) :=
  match lefts with
  | [] => ([], [], rights)
  | l :: lefts' =>
      match take_first (fits l) rights with
      | Some (r, rights') => let '(s, ls, rs) := pair_up lefts' rights' in (close_path (l ++ tl (west r)) :: s, ls, rs)
      | None => let '(s, ls, rs) := pair_up lefts' rights in (s, l :: ls, rs)
      end
  end.
(** check_closing, lines 335-336. *)
Definition check_closing (p : list (Q * Q)) : bool := near (snd (first_pt p)) (snd (last_pt p)).
(** get_next, lines 322-333: success, the path, the two lists.  [fuel] bounds the recursion. *)
Fixpoint get_next (fuel : nat) (origin : list (Q * Q)) (paths_left paths_right : list (list (Q * Q))) : option (bool * list (Q * Q) * list (list (Q * Q)) * list (list (Q * Q))) :=
  match fuel with
  | 0 => None
  | S fuel' =>
      match take_first (fun path => near (snd (last_pt origin)) (snd (first_pt path))) paths_right with
      | None => Some (false, origin, paths_left, paths_right)
      | Some (path, paths_right') =>
          let path := if Qlt_bool 1 (fst (first_pt path) - fst (last_pt origin)) then west path else path in
          let origin := origin ++ path in
          if check_closing origin then Some (true, close_path origin, paths_left, paths_right')
          else
            let! r := get_next fuel' origin paths_right' paths_left in
            let '(b, o, pr, pl) := r in Some (b, o, pl, pr)
      end
  end.
(** Lines 385-390. *)
Fixpoint chain_up (fuel : nat) (lefts rights : list (list (Q * Q))) : option (list (list (Q * Q)) * list (list (Q * Q))) :=
  match lefts with
  | [] => Some ([], rights)
  | origin :: lefts' =>
      match fuel with
      | 0 => None
      | S fuel' =>
          let! r := get_next (S (length lefts' + length rights)) origin lefts' rights in
          let '(b, o, ls, rs) := r in
          let! r' := chain_up fuel' ls rs in
          let '(solved, rs') := r' in
          Some (if b : bool then (o :: solved, rs') else (solved, rs'))
      end
  end.
Definition join_level (x0 x1 : Q) (paths : list (list (Q * Q))) : option (list (list (Q * Q))) :=
  let! c := classify x0 x1 paths in
  let '(lefts, rights, out) := c in
  if (length lefts =? 0) || (length rights =? 0) then Some paths
  else
    let '(solved, lefts, rights) := pair_up lefts rights in
    if (length lefts =? 0) || (length rights =? 0) then Some (out ++ solved ++ lefts ++ rights)
    else
      let! r := chain_up (length lefts) lefts rights in
      let '(solved', rights) := r in
      Some (out ++ solved ++ solved' ++ rights).
