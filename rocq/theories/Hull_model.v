(** Model of the convex hull of a contour: [src/py_eddy_tracker/poly.py] get_convex_hull
    (lines 145-192).

    Simplifications: coordinates are exact rationals; a contour is the list of its
    vertices (arrays [x] and [y] together, of the same size); [None] is an exception, or
    a loop which goes on after [fuel] turns (lines 169-188 have no bound; the proofs
    show that this does not happen). *)
From Coq Require Import List QArith Bool Arith.
From Verif Require Import Base Qaux Poly_model.
Import ListNotations.
Local Open Scope nat_scope.

(** argmin of line 160: the first of the smallest; [i]: current index, [best]: its
    index, [m]: its value. *)
Fixpoint argmin_loop (i best : nat) (m : Q) (l : list point) : nat :=
  match l with
  | [] => best
  | p :: l' => if Qlt_bool (fst p) m then argmin_loop (S i) i (fst p) l' else argmin_loop (S i) best m l'
  end.
Definition argmin_x (l : list point) : option nat :=
  match l with [] => None | p :: l' => Some (argmin_loop 1 0 (fst p) l') end.

Section Hull.
Variable poly : list point.
Variables nb i_first : nat.
(** [x[i], y[i]]; the indices are below [nb] by the modulo. *)
Definition at_ (i : nat) : point := nth i poly (0, 0)%Q.
(** Lines 172-184, one inner loop from [i_test]: [Some None] when it reaches
    [i_first] (break), [Some (Some i)] when position [i] is not on the left. *)
Fixpoint scan (fuel : nat) (p0 p1 : point) (i_test : nat) : option (option nat) :=
  if is_left p0 p1 (at_ i_test) then
    match fuel with
    | 0 => None
    | S fuel' => let i_test := (i_test + 1) mod nb in if i_test =? i_first then Some None else scan fuel' p0 p1 i_test
    end
  else Some (Some i_test).
(** Lines 169-188; result: the indices which are appended. *)
Fixpoint turns (fuel : nat) (p0 p1 : point) (i_next : nat) : option (list nat) :=
  match fuel with
  | 0 => None
  | S fuel' =>
      let! r := scan nb p0 p1 ((i_next + 1) mod nb) in
      let '(p0', kept, i_next') :=
        match r with
        | None => (p1, [i_next], (i_next + 1) mod nb)  (* lines 176-181 *)
        | Some i_test => if negb (i_test =? i_first) then (p0, [], i_test) else (p0, [], i_next)  (* lines 183-185 *)
        end in
      let p1' := at_ i_next' in
      if i_next' =? (i_first + nb - 1) mod nb then  (* lines 186-189 *)
        Some (kept ++ (if is_left p0' p1' (at_ i_first) then [i_next'] else []))
      else let! l := turns fuel' p0' p1' i_next' in Some (kept ++ l)
  end.
End Hull.

(** get_convex_hull, lines 158-192: the indices, and the vertices. *)
Definition hull_indices (poly : list point) : option (list nat) :=
  let nb := length poly - 1 in
  let! i_first := argmin_x (firstn nb poly) in
  let i_next := (i_first + 1) mod nb in
  let! l := turns poly nb i_first (nb + 1) (at_ poly i_first) (at_ poly i_next) i_next in
  Some (i_first :: l ++ [i_first]).
Definition get_convex_hull (poly : list point) : option (list point) :=
  let! l := hull_indices poly in Some (map (at_ poly) l).
