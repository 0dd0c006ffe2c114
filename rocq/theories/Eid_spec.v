(** What the identification of eddies must give. *)
From Coq Require Import List Arith ZArith QArith Qabs Bool Relations.
From Verif Require Import Base Spec Eid_model.
Import ListNotations.
Local Close Scope Q_scope.
Local Open Scope nat_scope.

(** Cell of a grid of [nx] by [ny] reached by an index, negative ones from the end. *)
Definition cell_of (nx ny : nat) (p : Z * Z) : nat * nat :=
  (Z.to_nat (fst p mod Z.of_nat nx), Z.to_nat (snd p mod Z.of_nat ny)).
Definition value_at {A} (g : list (list A)) (c : nat * nat) (v : A) : Prop := exists r, nth_error g (fst c) = Some r /\ nth_error r (snd c) = Some v.

Section Spec.
Context {path : Type} (G : setting path) (nx ny : nat) (sea0 : list (list bool)).

Definition is_path (k : nat * nat) (c : path) : Prop := value_at (g_paths G) k c.
Definition contour_of (e : eddy) : nat * nat := (e_level e, e_path e).
(** The cells inside the effective contour. *)
Definition covers (e : eddy) (cell : nat * nat) : Prop := exists c p, is_path (contour_of e) c /\ In p ((g_pixels_of G) c) /\ cell_of nx ny p = cell.
(** The cell is masked at first or is in one of the eddies. *)
Definition blocked (found : list eddy) (cell : nat * nat) : Prop := value_at sea0 cell true \/ exists e, In e found /\ covers e cell.
Definition mask_after (found : list eddy) (m : list (list bool)) : Prop :=
  rect nx ny m /\ forall cell, value_at m cell true <-> blocked found cell.

(** Criteria on a contour: shape, side of the heights, number of pixels. *)
Definition good_shape (c : path) : Prop := exists err, (g_shape_error_of G) c = Some err /\ (0 <= err <= (g_shape_error G))%Q.
Definition good_side (anticyclonic : bool) (c : path) (height : Q) : Prop :=
  forall p v, In p ((g_pixels_of G) c) -> value_at (g_data G) (cell_of nx ny p) v -> if anticyclonic then (height <= v)%Q else (v <= height)%Q.
Definition good_size (c : path) : Prop := (g_pixel_min G) <= length ((g_pixels_of G) c) <= (g_pixel_max G).
(** The amplitude computed with a mask is enough. *)
Definition good_amplitude (anticyclonic : bool) (m : list (list bool)) (c : path) (height level a : Q) (centre : Z * Z) : Prop :=
  all_pixels (negb anticyclonic) (g_data G) m ((g_box_of G) c) ((g_pixels_of G) c) height level ((g_step G) * (g_nb_step_to_be_mle G)) (g_mle G) = Some (Some (centre, a)) /\
  ((g_step G) * (g_nb_step_min G) <= a)%Q /\ ~ (a == 0)%Q.

(** An eddy made from a contour, [found] being the eddies already found. *)
Definition accepted (anticyclonic : bool) (found : list eddy) (e : eddy) : Prop :=
  exists c m centre level, is_path (contour_of e) c /\
    good_shape c /\ good_side anticyclonic c (e_height e) /\ good_size c /\
    nth_error (g_cvalues G) (e_level e) = Some (e_height e) /\ nth_error (g_levels G) (e_level e) = Some level /\
    mask_after found m /\ good_amplitude anticyclonic m c (e_height e) level (e_amplitude e) centre.

(** The contours of the profile: the effective one, then one per level towards the centre, as far as possible. *)
Definition next_level (anticyclonic : bool) (l : nat) (i : nat) (l' : nat) : Prop :=
  if anticyclonic then l' = l + i /\ l' < length (g_paths G) else l = l' + i.
Definition inner_of (e : eddy) (l k : nat) : Prop :=
  exists c c', is_path (contour_of e) c /\ is_path (l, k) c' /\ (g_nearest G) l (e_lon e) (e_lat e) = Some k /\ (g_contain G) c c' = true.
(** The mean speed of a contour may be the largest one: the effective contour or enough pixels. *)
Definition eligible (e : eddy) (i : nat) : Prop :=
  i = 0 \/ exists k c, nth_error (e_contours e) i = Some k /\ is_path k c /\ (g_pixel_min G) < length ((g_pixels_of G) c).
Definition good_profile (anticyclonic : bool) (e : eddy) : Prop :=
  nth_error (e_contours e) 0 = Some (contour_of e) /\
  (forall i l k, nth_error (e_contours e) (S i) = Some (l, k) -> next_level anticyclonic (e_level e) (S i) l /\ inner_of e l k) /\
  (forall l k, next_level anticyclonic (e_level e) (length (e_contours e)) l -> ~ inner_of e l k) /\
  (** speeds of the profile *)
  length (e_profile e) = length (e_contours e) /\
  (forall i k, nth_error (e_contours e) i = Some k -> exists c, is_path k c /\ nth_error (e_profile e) i = Some ((g_speed_of G) c)) /\
  (** innermost contour *)
  (exists i, S i = length (e_contours e) /\ nth_error (e_contours e) i = Some (e_inner_contour e)) /\
  nth_error (g_cvalues G) (fst (e_inner_contour e)) = Some (e_height_inner e) /\
  (** contour of the largest speed, the innermost if several *)
  nth_error (g_cvalues G) (fst (e_speed_contour e)) = Some (e_height_speed e) /\
  exists m, eligible e m /\ nth_error (e_contours e) m = Some (e_speed_contour e) /\ nth_error (e_profile e) m = Some (e_speed e) /\
    forall i v, eligible e i -> nth_error (e_profile e) i = Some v -> (v <= e_speed e)%Q /\ (m < i -> (v < e_speed e)%Q).

(** Why a contour is not the effective contour of an eddy when it is examined. *)
Definition refused (anticyclonic : bool) (found : list eddy) (k : nat * nat) (c : path) (height level : Q) : Prop :=
  (exists e, In e found /\ In k (e_contours e)) \/
  ~ good_shape c \/
  (exists p, In p ((g_pixels_of G) c) /\ blocked found (cell_of nx ny p)) \/
  ~ good_side anticyclonic c height \/
  ~ good_size c \/
  exists m, mask_after found m /\ forall a centre, ~ good_amplitude anticyclonic m c height level a centre.
End Spec.

(** ** Local extrema *)
Definition near (a b : nat) : Prop := a <= S b /\ b <= S a.
(** No neighbour which is not masked is lower ([s] is 1) or higher ([s] is -1). *)
Definition lowest_around (grid : list (list Q)) (mask : list (list bool)) (s : Q) (c : nat * nat) (v : Q) : Prop :=
  value_at grid c v /\ forall c' w, near (fst c) (fst c') -> near (snd c) (snd c') -> value_at mask c' false -> value_at grid c' w -> (v * s <= w * s)%Q.
(** Extremum among the pixels of a contour, not on the edge of the window. *)
Definition extremum (nb_x nb_y : nat) (grid : list (list Q)) (mask inside : list (list bool)) (s : Q) (c : nat * nat) : Prop :=
  0 < fst c /\ S (fst c) < nb_x /\ 0 < snd c /\ S (snd c) < nb_y /\ value_at inside c true /\ exists v, lowest_around grid mask s c v.
(** Pixels with a common side. *)
Definition adjacent (c d : nat * nat) : Prop :=
  (fst c = fst d /\ (snd d = S (snd c) \/ snd c = S (snd d))) \/ (snd c = snd d /\ (fst d = S (fst c) \/ fst c = S (fst d))).
Definition connected (pts : list (nat * nat)) : nat * nat -> nat * nat -> Prop :=
  Relation_Operators.clos_refl_trans _ (fun c d => In c pts /\ In d pts /\ adjacent c d).
(** [c] is the pixel nearest to the barycentre of [ps]. *)
Definition mean_of (f : nat * nat -> nat) (ps : list (nat * nat)) : Q := (inject_Z (Z.of_nat (sum_list (map f ps))) / inject_Z (Z.of_nat (length ps)))%Q.
Definition central (ps : list (nat * nat)) (c : nat * nat) : Prop :=
  (Qabs (inject_Z (Z.of_nat (fst c)) - mean_of fst ps) <= 1 # 2)%Q /\ (Qabs (inject_Z (Z.of_nat (snd c)) - mean_of snd ps) <= 1 # 2)%Q.
(** Extrema alone and one pixel for each set of extrema connected by their sides. *)
Definition merged (pts r : list (nat * nat)) : Prop :=
  exists alone comps centres, r = alone ++ centres /\ Forall2 central comps centres /\
    NoDup (alone ++ concat comps) /\ (forall c, In c (alone ++ concat comps) <-> In c pts) /\
    (forall c, In c alone -> forall d, In d pts -> ~ adjacent c d) /\
    forall ps, In ps comps -> 2 <= length ps /\ forall c d, In c ps -> (In d ps <-> connected pts c d).

(** ** Centre and amplitude *)
(** A window of the grid: columns from [x_start] to [x_stop] excluded, past the last column to the first if
    [x_stop] is smaller, rows from [y_start] to [y_stop] excluded. *)
Notation box := ((Z * Z) * (Z * Z))%type.
Definition valid_box (nx ny : nat) (b : box) : Prop :=
  let '((x_start, x_stop), (y_start, y_stop)) := b in
  (0 <= x_start < Z.of_nat nx /\ 0 <= x_stop <= Z.of_nat nx /\ 0 <= y_start <= y_stop /\ y_stop <= Z.of_nat ny)%Z.
Definition columns (nx : nat) (b : box) : nat :=
  let '((x_start, x_stop), _) := b in Z.to_nat (if (x_stop <? x_start)%Z then x_stop + Z.of_nat nx - x_start else x_stop - x_start)%Z.
Definition rows (b : box) : nat := let '(_, (y_start, y_stop)) := b in Z.to_nat (y_stop - y_start).
(** Indices in the grid of a cell of the window. *)
Definition place (b : box) (c : nat * nat) : Z * Z := (Z.of_nat (fst c) + fst (fst b), Z.of_nat (snd c) + fst (snd b))%Z.
(** A pixel of the window. *)
Definition in_box (nx ny : nat) (b : box) (p : Z * Z) : Prop :=
  (0 <= fst p < Z.of_nat nx)%Z /\ exists c, fst c < columns nx b /\ snd c < rows b /\ (Z.of_nat (snd c) + fst (snd b) = snd p)%Z /\
    (Z.of_nat (fst c) + fst (fst b) = fst p \/ Z.of_nat (fst c) + fst (fst b) = fst p + Z.of_nat nx)%Z.
(** A pixel of the contour, not on the edge of the window, with no lower ([s] is 1) or higher ([s] is -1)
    pixel among the eight pixels around which are not masked. *)
Definition window_extremum (nx ny : nat) (b : box) (data : list (list Q)) (mask : list (list bool)) (pixels : list (Z * Z)) (s : Q) (c : nat * nat) : Prop :=
  0 < fst c /\ S (fst c) < columns nx b /\ 0 < snd c /\ S (snd c) < rows b /\
  (exists p, In p pixels /\ cell_of nx ny p = cell_of nx ny (place b c)) /\
  exists v, value_at data (cell_of nx ny (place b c)) v /\
    forall c' w, near (fst c) (fst c') -> near (snd c) (snd c') -> value_at mask (cell_of nx ny (place b c')) false ->
      value_at data (cell_of nx ny (place b c')) w -> (v * s <= w * s)%Q.
