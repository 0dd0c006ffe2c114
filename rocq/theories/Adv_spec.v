(** Specification of advection: each particle alone, without memory of cells. *)
From Coq Require Import List Arith ZArith QArith Qround Bool.
From Verif Require Import Base Adv_model.
Import ListNotations.
Local Close Scope Q_scope.
Local Open Scope nat_scope.

(** Result of moving a particle: a value, lost (no valid velocity), or out of what
    the code handles. *)
Inductive outcome (A : Type) : Type := At (a : A) | Lost | Broken.
Arguments At {A}. Arguments Lost {A}. Arguments Broken {A}.
Definition obind {A B} (o : outcome A) (k : A -> outcome B) : outcome B :=
  match o with At a => k a | Lost => Lost | Broken => Broken end.

(** Matrix of [nx] columns of [ny] values. *)
Definition matrix {A} (g : list (list A)) (nx ny : Z) : Prop :=
  Z.of_nat (length g) = nx /\ Forall (fun r => Z.of_nat (length r) = ny) g.
(** Value at column [i], row [j]. *)
Definition node {A} (d : A) (g : list (list A)) (i j : Z) : A := nth (Z.to_nat j) (nth (Z.to_nat i) g []) d.

Section Spec.
Variable f : frame.
(** Cell of a position and place in the cell. *)
Definition cell_x (p : Q * Q) : Z := Qfloor ((fst p - f_x0 f) / f_xs f).
Definition cell_y (p : Q * Q) : Z := Qfloor ((snd p - f_y0 f) / f_ys f).
Definition place_x (p : Q * Q) : Q := ((fst p - f_x0 f) / f_xs f - inject_Z (cell_x p))%Q.
Definition place_y (p : Q * Q) : Q := ((snd p - f_y0 f) / f_ys f - inject_Z (cell_y p))%Q.
(** Columns wrap on a circular grid.  Rows below the first one are counted from
    the last one (what the code does). *)
Definition col (i : Z) : Z := if f_circ f then (i mod f_nx f)%Z else i.
Definition row (j : Z) : Z := if (j <? 0)%Z then (j + f_ny f)%Z else j.
(** The four corners of cell (i, j). *)
Definition four {A} (d : A) (g : list (list A)) (i j : Z) : A * A * A * A :=
  (node d g (col i) (row j), node d g (col i) (row (j + 1)), node d g (col (i + 1)) (row j), node d g (col (i + 1)) (row (j + 1))).
Definition quad_of (c : Q * Q * Q * Q) : quad :=
  let '(a, b, c, d) := c in {| q00 := a; q01 := b; q10 := c; q11 := d |}.
(** Values of the corners of a cell: lost outside of the grid or next to a masked
    value. *)
Definition cell_value (g : fields) (i j : Z) : outcome (quad * quad) :=
  let '(u, v, m) := g in
  if negb (f_circ f) && ((i <? 0) || (f_nx f <=? i + 1))%Z then Lost
  else if (f_ny f <=? j + 1)%Z then Lost
  else if (j <? - f_ny f)%Z then Broken
  else let '(a, b, c, d) := four true m i j in
       if a || b || c || d then Lost else At (quad_of (four 0%Q u i j), quad_of (four 0%Q v i j)).
Definition cell_values (g0 g1 : fields) (i j : Z) : outcome ((quad * quad) * (quad * quad)) :=
  match cell_value g0 i j, cell_value g1 i j with
  | At a, At b => At (a, b)
  | Broken, _ | _, Broken => Broken
  | _, _ => Lost
  end.

(** Bilinear interpolation: along x on both sides, then along y. *)
Definition mix (t a b : Q) : Q := (a * (1 - t) + b * t)%Q.
Definition bilinear (xd yd : Q) (q : quad) : Q := mix yd (mix xd (q00 q) (q10 q)) (mix xd (q01 q) (q11 q)).
Definition speed (xd yd : Q) (q : quad * quad) : Q * Q := (bilinear xd yd (fst q), bilinear xd yd (snd q)).
(** Two dates: weight [w] for the first one. *)
Definition speed_t (w : Q) (xd yd : Q) (q : (quad * quad) * (quad * quad)) : Q * Q :=
  let a := speed xd yd (fst q) in
  let b := speed xd yd (snd q) in
  (fst a * w + fst b * (1 - w), snd a * w + snd b * (1 - w))%Q.

(** Velocity at a position.  The cell (s, s) of a grid which does not wrap is the
    one used by the code for "no cell": broken. *)
Section Move.
Context {P W : Type}.
Variables (s : Z) (vals : Z -> Z -> outcome P) (vel : W -> Q -> Q -> P -> Q * Q).
Definition sample (w : W) (p : Q * Q) : outcome (Q * Q) :=
  if negb (f_circ f) && ((cell_x p =? s) && (cell_y p =? s))%Z then Broken
  else obind (vals (cell_x p) (cell_y p)) (fun q => At (vel w (place_x p) (place_y p) q)).
(** One step of the first order scheme. *)
Definition euler (w : W) (p : Q * Q) : outcome (Q * Q) :=
  obind (sample w p) (fun d => At (fst p + fst d, snd p + snd d)%Q).
(** One step of the classical Runge-Kutta scheme of order four. *)
Variable half : W -> W.
Definition rk4 (w : W) (p : Q * Q) : outcome (Q * Q) :=
  obind (sample w p) (fun k1 =>
  obind (sample (half w) (fst p + fst k1 * (1 # 2), snd p + snd k1 * (1 # 2))%Q) (fun k2 =>
  obind (sample (half w) (fst p + fst k2 * (1 # 2), snd p + snd k2 * (1 # 2))%Q) (fun k3 =>
  obind (sample (half (half w)) (fst p + fst k3, snd p + snd k3)%Q) (fun k4 =>
  At (fst p + (fst k1 + 2 * fst k2 + 2 * fst k3 + fst k4) / 6, snd p + (snd k1 + 2 * snd k2 + 2 * snd k3 + snd k4) / 6)%Q)))).
End Move.
End Spec.

(** Successive steps. *)
Fixpoint journey {W} (step : W -> Q * Q -> outcome (Q * Q)) (ws : list W) (p : Q * Q) : outcome (Q * Q) :=
  match ws with [] => At p | w :: ws' => obind (step w p) (journey step ws') end.
(** What becomes of a particle; [None]: out of what the code handles. *)
Definition fate {W} (step : W -> Q * Q -> outcome (Q * Q)) (ws : list W) (a : particle) : option particle :=
  match a with
  | (pos, true) => Some (pos, true)
  | (None, false) => None
  | (Some p, false) =>
      match journey step ws p with At p' => Some (Some p', false) | Lost => Some (None, true) | Broken => None end
  end.

(** The four schemes. *)
Definition fate_euler (f : frame) (g : fields) (n : nat) : particle -> option particle :=
  fate (euler f (-100000) (cell_value f g) (fun _ => speed)) (repeat tt n).
Definition fate_rk4 (f : frame) (g : fields) (n : nat) : particle -> option particle :=
  fate (rk4 f (-1000000) (cell_value f g) (fun _ => speed) (fun w => w)) (repeat tt n).
Definition fate_t (f : frame) (g0 g1 : fields) (ws : list Q) : particle -> option particle :=
  fate (euler f (-100000) (cell_values f g0 g1) speed_t) ws.
Definition fate_t_rk4 (f : frame) (g0 g1 : fields) (half_w : Q) (ws : list Q) : particle -> option particle :=
  fate (rk4 f (-1000000) (cell_values f g0 g1) speed_t (fun w => w - half_w)%Q) ws.

(** The three matrices of a date have the size of the grid. *)
Definition fits (f : frame) (g : fields) : Prop :=
  let '(u, v, m) := g in
  matrix u (f_nx f) (f_ny f) /\ matrix v (f_nx f) (f_ny f) /\ matrix m (f_nx f) (f_ny f) /\ (0 < f_nx f)%Z /\ (0 < f_ny f)%Z.

(** Positions equal up to [c] degrees of longitude. *)
Definition apart (c : Q) (p q : Q * Q) : Prop := (fst q == fst p + c)%Q /\ (snd q == snd p)%Q.
Definition both_apart (c : Q) (a b : outcome (Q * Q)) : Prop :=
  match a, b with
  | At p, At q => apart c p q
  | Lost, Lost | Broken, Broken => True
  | _, _ => False
  end.
(** All the values of a matrix are between two numbers. *)
Definition all_between (lo hi : Q) (g : list (list Q)) : Prop :=
  forall r q, In r g -> In q r -> (lo <= q /\ q <= hi)%Q.
Definition no_mask (m : list (list bool)) : Prop := forall r b, In r m -> In b r -> b = false.

(** ** Interpolation at one point *)

(** Value at a point: bilinear in its cell, nothing if the cell is not inside the
    grid or has a masked corner. *)
Definition value_at (f : frame) (z : list (list Q)) (m : list (list bool)) (p : Q * Q) : option Q :=
  let i := cell_x f p in
  let j := cell_y f p in
  if negb (f_circ f) && ((i <? 0) || (f_nx f <=? i + 1))%Z then None
  else if ((j <? 0) || (f_ny f <=? j + 1))%Z then None
  else let '(a, b, c, d) := four f true m i j in
       if a || b || c || d then None else Some (bilinear (place_x f p) (place_y f p) (quad_of (four f 0%Q z i j))).

(** ** Dates *)

(** Successive dates in the direction [d] (1 or -1): each one after the one
    before, by at least [gap]. *)
Fixpoint dated (d gap : Q) (l : list Q) : Prop :=
  match l with
  | a :: (b :: _) as l' => (0 < d * (b - a) /\ gap <= d * (b - a))%Q /\ dated d gap l'
  | _ => True
  end.
(** Each interval is a whole number of [gap]. *)
Fixpoint multiples (d gap : Q) (l : list Q) : Prop :=
  match l with
  | a :: (b :: _) as l' => (exists k, (0 < k)%Z /\ d * (b - a) == inject_Z k * gap)%Q /\ multiples d gap l'
  | _ => True
  end.
