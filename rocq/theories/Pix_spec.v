(** What a search of pixels must give. *)
From Coq Require Import List Arith ZArith QArith Bool.
From Verif Require Import Base Qaux Spec Poly_model Poly_spec Pix_model.
Import ListNotations.
Local Close Scope Q_scope.
Local Open Scope nat_scope.

Definition half : Q := 1 # 2.
(** Centres in the middle of cells of the same size. *)
Definition even_cells (x0 step : Q) (c : list Q) : Prop :=
  (0 < step)%Q /\ forall i x, nth_error c i = Some x -> (x == x0 + (inject_Z (Z.of_nat i) + half) * step)%Q.
Definition good_grid (g : rgrid) : Prop :=
  even_cells (g_x0 g) (g_xstep g) (g_x g) /\ even_cells (g_y0 g) (g_ystep g) (g_y g) /\ (1 <= g_N g)%Z.
(** The cells of a circular grid make one turn. *)
Definition one_turn (g : rgrid) : Prop :=
  g_circular g = true /\ (inject_Z (Z.of_nat (length (g_x g))) * g_xstep g == 360)%Q.

(** The pixel [(i, j)] of the grid has its centre [p]. *)
Definition centre (g : rgrid) (i j : nat) (p : point) : Prop :=
  nth_error (g_x g) i = Some (fst p) /\ nth_error (g_y g) j = Some (snd p).

(** The pixels [ps] are those whose centre satisfies [P], each once, in the
    order of the lines. *)
Definition exactly (g : rgrid) (P : point -> Prop) (ps : list (Z * Z)) : Prop :=
  exists l, ps = map (fun q => (Z.of_nat (fst q), Z.of_nat (snd q))) l /\ NoDup l /\
  forall i j, In (i, j) l <-> exists p, centre g i j p /\ P p.

(** Every point of the contour is above the centres of the rows of the margin:
    the first row for a margin of one cell. *)
Definition above_margin (g : rgrid) (c : list point) : Prop :=
  forall v, In v c -> (g_y0 g + (inject_Z (g_N g) - half) * g_ystep g < snd v)%Q.
(** The contour lies in the turn which starts at the first bound of the grid. *)
Definition in_turn (g : rgrid) (c : list point) : Prop :=
  forall v, In v c -> (g_x0 g <= fst v < g_x0 g + 360)%Q.
(** Some point of the contour is in this turn, or the contour goes across it. *)
Definition meets_turn (g : rgrid) (c : list point) : Prop :=
  (exists v, In v c /\ (g_x0 g <= fst v)%Q) /\ (exists v, In v c /\ (fst v < g_x0 g + 360)%Q).
(** The contour leaves margins and two cells free around the earth and
    its points are less than half a turn away from the first. *)
Definition narrow (g : rgrid) (c : list point) : Prop :=
  (forall v w, In v c -> In w c -> (fst v - fst w + (2 * inject_Z (g_N g) + 2) * g_xstep g < 360)%Q) /\
  forall v w, nth_error c 0 = Some v -> In w c -> (-180 < fst w - fst v < 180)%Q.

(** [M] holds [v] at column [i], row [j]. *)
Definition at2 {A} (M : list (list A)) (i j : nat) (v : A) : Prop :=
  exists col, nth_error M i = Some col /\ nth_error col j = Some v.
(** [n] elements of [l] satisfy [P]. *)
Definition counts {A} (P : A -> Prop) (l : list A) (n : nat) : Prop :=
  exists bs, Forall2 (fun a b => b = true <-> P a) l bs /\ count_true bs = n.

(** A grid of even cells with a margin of one cell at least; around the
    earth, its columns make one turn and the margins with two cells half a turn at
    most; otherwise it is one turn wide at most. *)
Definition searchable (g : rgrid) : Prop :=
  good_grid g /\
  if g_circular g then (inject_Z (Z.of_nat (length (g_x g))) * g_xstep g == 360 /\ (2 * inject_Z (g_N g) + 2) * g_xstep g <= 180)%Q
  else forall i x, nth_error (g_x g) i = Some x -> (x < g_x0 g + 360)%Q.
(** An eddy (longitude, contour) whose contour can be brought by whole turns
    around its longitude [L], taken in the turn of the grid: around the earth, less than 90
    degrees away, with [L] between its extreme longitudes; otherwise less than 180
    degrees away and within the turn of the grid. *)
Definition good_eddy (g : rgrid) (e : Q * list point) : Prop :=
  (exists p q, In p (snd e) /\ In q (snd e) /\ ~ same p q) /\ above_margin g (snd e) /\
  exists L m k, (L == fst e + 360 * inject_Z m)%Q /\ (g_x0 g <= L < g_x0 g + 360)%Q /\
  let c := map (shift k) (snd e) in
  if g_circular g then (forall v, In v c -> (-90 < fst v - L < 90)%Q) /\ (exists v, In v c /\ (fst v <= L)%Q) /\ (exists v, In v c /\ (L <= fst v)%Q)
  else (forall v, In v c -> (-180 < fst v - L < 180)%Q) /\ in_turn g c.

(** Value and mask of a pixel. *)
Definition pick (grid : list (list Q)) (q : nat * nat) : Q := nth (snd q) (nth (fst q) grid []) 0%Q.
Definition masked (mask : list (list bool)) (q : nat * nat) : bool := nth (snd q) (nth (fst q) mask []) true.
Definition same_shape {A} (g : rgrid) (M : list (list A)) : Prop := rect (length (g_x g)) (length (g_y g)) M.
(** The number of pixels, the mean of those which are not masked, the largest and
    the smallest value, masked or not; [lowest] and its opposite are the results without
    pixel. *)
Definition statistic (lowest : Q) (m : stat_method) (grid : list (list Q)) (mask : list (list bool)) (l : list (nat * nat)) (r : option Q) : Prop :=
  match m with
  | SCount => r = Some (qn (length l))
  | SMean => let u := filter (fun q => negb (masked mask q)) l in
      match r with None => u = [] | Some v => u <> [] /\ (v * qn (length u) == qsum (map (pick grid) u))%Q end
  | SMax => exists v, r = Some v /\ (lowest <= v)%Q /\ (forall q, In q l -> (pick grid q <= v)%Q) /\ (v = lowest \/ exists q, In q l /\ (v == pick grid q)%Q)
  | SMin => exists v, r = Some v /\ (v <= - lowest)%Q /\ (forall q, In q l -> (v <= pick grid q)%Q) /\ (v == - lowest \/ exists q, In q l /\ v == pick grid q)%Q
  end.
