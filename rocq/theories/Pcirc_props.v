(** Property C123: circles of a contour given in degrees. *)
From Coq Require Import List Arith Bool ZArith Reals Lra Lia.
From Verif Require Import Base Corr_model Circ_model Circ_proofs Circ_props Sph_model Sph_proofs Sph_props Pcirc_model.
Import ListNotations.
Local Open Scope R_scope.

Definition shift (s : R) (p : pt) : pt := (fst p + s, snd p).
Definition shift_result (s : R) (c : circle_of) : circle_of := match c with Dot => Dot | Circle lon lat r e => Circle (lon + s) lat r e end.

Lemma mean_shift : forall t s, t <> [] -> mean fst (map (shift s) t) = mean fst t + s.
Proof.
  intros t s N. unfold mean. rewrite map_length, sumf_map. unfold shift. cbn [fst]. rewrite sumf_plus, sumf_const. pose proof (length_INR t N). unfold Rdiv. rewrite Rmult_plus_distr_r. f_equal. change (R * R)%type with pt. field. lra.
Qed.
Lemma mean_shift_lat : forall t s, mean snd (map (shift s) t) = mean snd t.
Proof. intros t s. unfold mean. rewrite map_length, sumf_map. reflexivity. Qed.
Lemma maxf_shift : forall {A} (f : A -> R) l s, l <> [] -> maxf (fun a => f a + s) l = maxf f l + s.
Proof.
  intros A f l s. induction l as [|a l IH]; intros N; [congruence|]. destruct l as [|b l]; [reflexivity|]. change (maxf (fun a => f a + s) (a :: b :: l)) with (Rmax (f a + s) (maxf (fun a => f a + s) (b :: l))). rewrite IH by discriminate. change (maxf f (a :: b :: l)) with (Rmax (f a) (maxf f (b :: l))). unfold Rmax. destruct (Rle_dec (f a + s) (maxf f (b :: l) + s)), (Rle_dec (f a) (maxf f (b :: l))); lra.
Qed.
Lemma maxf_map : forall {A B} (f : B -> R) (g : A -> B) l, maxf f (map g l) = maxf (fun a => f (g a)) l.
Proof. intros A B f g. induction l as [|a l IH]; [reflexivity|]. destruct l as [|b l]; [reflexivity|]. change (maxf f (map g (a :: b :: l))) with (Rmax (f (g a)) (maxf f (map g (b :: l)))). rewrite IH. reflexivity. Qed.
Lemma maxf_ext : forall {A} (f g : A -> R) l, (forall a, f a = g a) -> maxf f l = maxf g l.
Proof. intros A f g. induction l as [|a l IH]; intros H; [reflexivity|]. destruct l as [|b l]; [apply H|]. change (Rmax (f a) (maxf f (b :: l)) = Rmax (g a) (maxf g (b :: l))). rewrite H, IH by exact H. reflexivity. Qed.
Lemma extent_shift : forall l s, l <> [] -> extent fst (map (shift s) l) = extent fst l /\ extent snd (map (shift s) l) = extent snd l.
Proof.
  intros l s N. unfold extent. rewrite !maxf_map. unfold shift. cbn [fst snd]. split; [|reflexivity]. rewrite maxf_shift by exact N. rewrite (maxf_ext (fun a : pt => - (fst a + s)) (fun a => - fst a + - s)) by (intros; ring). rewrite (maxf_shift (fun a : pt => - fst a)) by exact N. ring.
Qed.
Lemma is_dot_shift : forall l s, l <> [] -> is_dot (map (shift s) l) = is_dot l.
Proof. intros l s N. unfold is_dot. destruct (extent_shift l s N) as [-> ->]. reflexivity. Qed.
Lemma local_shift : forall lon lat lon0 lat0 s, coordinates_to_local (lon + s) lat (lon0 + s) lat0 = coordinates_to_local lon lat lon0 lat0.
Proof. intros. unfold coordinates_to_local. replace (lon + s - (lon0 + s)) with (lon - lon0) by ring. reflexivity. Qed.
Lemma coord_shift : forall x y lon0 lat0 s, local_to_coordinates x y (lon0 + s) lat0 = (fst (local_to_coordinates x y lon0 lat0) + s, snd (local_to_coordinates x y lon0 lat0)).
Proof. intros. unfold local_to_coordinates. cbn [fst snd]. f_equal. ring. Qed.
Lemma to_local_shift : forall l s, to_local (map (shift s) l) = option_map (fun '(lon0, lat0, c) => (lon0 + s, lat0, c)) (to_local l).
Proof.
  intros l s. unfold to_local. assert (T : tl (map (shift s) l) = map (shift s) (tl l)) by (destruct l; reflexivity). rewrite T, map_length. destruct (length (tl l) =? 0)%nat eqn:E; [reflexivity|]. apply Nat.eqb_neq in E. assert (N : tl l <> []) by (intros Q; rewrite Q in E; apply E; reflexivity).
  cbn [option_map]. rewrite mean_shift by exact N. rewrite mean_shift_lat, map_map. f_equal. f_equal. apply map_ext. intros p. unfold shift. cbn [fst snd]. apply local_shift.
Qed.
(** A contour moved in longitude has its circle moved in the same way, with the same
    latitude, radius and error. *)
Theorem C123_shift : forall lstsq l s,
  fit_circle_vertices lstsq (map (shift s) l) = option_map (shift_result s) (fit_circle_vertices lstsq l) /\
  circle_from_equal_area (map (shift s) l) = option_map (shift_result s) (circle_from_equal_area l).
Proof.
  intros f l s. unfold fit_circle_vertices, circle_from_equal_area. rewrite to_local_shift. destruct (to_local l) as [[[lon0 lat0] c]|] eqn:E; cbn [option_map bind]; [|split; reflexivity].
  assert (N : l <> []) by (intros ->; discriminate E). rewrite is_dot_shift by exact N. destruct (is_dot l); [split; reflexivity|]. split; [|reflexivity].
  destruct (fit_circle f c) as [[[[x y] r] e]|]; cbn [bind option_map]; [|reflexivity]. rewrite coord_shift. destruct (local_to_coordinates x y lon0 lat0) as [lo la]. cbn [fst snd shift_result option_map]. f_equal. f_equal. replace (lo + s - (lon0 + s) + 180) with (lo - lon0 + 180) by ring. ring.
Qed.
Print Assumptions C123_shift.

(** The circle of a contour: unless the contour is one position (less than 1e-7 degree
    in both directions), the centre is within half a turn of the mean of the vertices, its
    local coordinates around this mean are the centre of the best circle of the local
    coordinates of the vertices, and the radius is that of this circle. *)
Theorem C123_fit : forall lstsq l res, least_squares lstsq -> fit_circle_vertices lstsq l = Some res ->
  let lon0 := mean fst (tl l) in let lat0 := mean snd (tl l) in
  let c := map (fun p => coordinates_to_local (fst p) (snd p) lon0 lat0) l in
  match res with
  | Dot => extent fst l < 1 / 10000000 /\ extent snd l < 1 / 10000000
  | Circle lon lat r err =>
      (1 / 10000000 <= extent fst l \/ 1 / 10000000 <= extent snd l) /\
      lon0 - 180 <= lon < lon0 + 180 /\
      exists x y e, err = Some e /\ fit_circle lstsq c = Some (x, y, r, e) /\
        ((exists p q, In p (tl c) /\ In q (tl c) /\ p <> q) -> 0 < r /\ best_circle (tl c) x y r) /\
        (-90 < lat0 < 90 -> sqrt (x ^ 2 + y ^ 2) < PI * RE -> coordinates_to_local lon lat lon0 lat0 = (x, y) /\ distance lon0 lat0 lon lat = sqrt (x ^ 2 + y ^ 2))
  end.
Proof.
  intros f l res LS H. cbn zeta. unfold fit_circle_vertices, to_local in H. destruct (length (tl l) =? 0)%nat; [discriminate H|]. cbn [bind] in H. set (lon0 := mean fst (tl l)) in *. set (lat0 := mean snd (tl l)) in *. set (c := map (fun p => coordinates_to_local (fst p) (snd p) lon0 lat0) l) in *.
  unfold is_dot in H. assert (HH : (extent fst l < 1 / 10000000 /\ extent snd l < 1 / 10000000 /\ Some Dot = Some res) \/ ((1 / 10000000 <= extent fst l \/ 1 / 10000000 <= extent snd l) /\ (let! (centlon, centlat, radius, err) := fit_circle f c in let '(centlon, centlat) := local_to_coordinates centlon centlat lon0 lat0 in Some (Circle (rmod (centlon - lon0 + 180) 360 + lon0 - 180) centlat radius (Some err))) = Some res)).
  { destruct (Rlt_dec (extent fst l) (1 / 10000000)) as [A|A]; [destruct (Rlt_dec (extent snd l) (1 / 10000000)) as [B|B]|]; [left; auto|right; split; [lra|exact H]|right; split; [lra|exact H]]. }
  clear H. destruct HH as [(A & B & E)|(N & H)]; [injection E as <-; auto|]. destruct (fit_circle f c) as [[[[x y] r] e]|] eqn:EF; [|discriminate H]. cbn [bind] in H. destruct (local_to_coordinates x y lon0 lat0) as [lo la] eqn:EL. injection H as <-. split; [exact N|].
  destruct (rmod_range (lo - lon0 + 180) 360 ltac:(lra)) as [RM (k & K)]. split; [lra|]. exists x, y, e. split; [reflexivity|]. split; [reflexivity|]. split.
  - intros D. destruct (C120_best f c LS D) as (x0 & y0 & r0 & B & R0 & _ & _ & U). destruct (U _ _ _ _ EF) as (-> & -> & -> & _). split; assumption.
  - intros L S. pose proof (C122_forth x y lon0 lat0 L S) as F. rewrite EL in F. destruct F as [F _].
    assert (G : coordinates_to_local (rmod (lo - lon0 + 180) 360 + lon0 - 180) la lon0 lat0 = (x, y)).
    { rewrite <- F. assert (E : rmod (lo - lon0 + 180) 360 + lon0 - 180 - lon0 = lo - lon0 + 360 * IZR (- k)) by (rewrite opp_IZR; lra). unfold coordinates_to_local. cbn zeta. rewrite E. replace ((lo - lon0 + 360 * IZR (- k)) * D2R) with ((lo - lon0) * D2R + 2 * PI * IZR (- k)) by (unfold D2R; field). destruct (cos_turn ((lo - lon0) * D2R) (- k)) as [-> ->].
      assert (HS : sin (((lo - lon0) * D2R + 2 * PI * IZR (- k)) * (1 / 2)) ^ 2 = sin ((lo - lon0) * D2R * (1 / 2)) ^ 2). { apply (Rmult_eq_reg_l 2); [|lra]. rewrite !half_sin. rewrite (proj1 (cos_turn _ _)). reflexivity. }
      rewrite HS. reflexivity. }
    split; [exact G|]. symmetry. apply (C122_local_norm _ _ _ _ _ _ G).
Qed.
Print Assumptions C123_fit.
(** The other circle: centre at the mean of the vertices, area of the contour. *)
Theorem C123_equal_area : forall l res, circle_from_equal_area l = Some res ->
  let lon0 := mean fst (tl l) in let lat0 := mean snd (tl l) in
  match res with
  | Dot => extent fst l < 1 / 10000000 /\ extent snd l < 1 / 10000000
  | Circle lon lat r err => lon = lon0 /\ lat = lat0 /\ err = None /\ 0 <= r /\
      PI * r ^ 2 = poly_area (map (fun p => coordinates_to_local (fst p) (snd p) lon0 lat0) l)
  end.
Proof.
  intros l res H. cbn zeta. unfold circle_from_equal_area, to_local in H. destruct (length (tl l) =? 0)%nat; [discriminate H|]. cbn [bind] in H. set (c := map (fun p => coordinates_to_local (fst p) (snd p) (mean fst (tl l)) (mean snd (tl l))) l) in *. unfold is_dot in H.
  destruct (Rlt_dec (extent fst l) (1 / 10000000)) as [A|A]; [destruct (Rlt_dec (extent snd l) (1 / 10000000)) as [B|B]|]; injection H as <-; [auto| |].
  all: split; [reflexivity|]; split; [reflexivity|]; split; [reflexivity|]; split; [apply sqrt_pos|]; pose proof PI_RGT_0; rewrite pow2_sqrt; [field; lra|]; apply Rle_mult_inv_pos; [unfold poly_area; apply Rmult_le_pos; [apply Rabs_pos|lra]|lra].
Qed.
Print Assumptions C123_equal_area.
(** Circles are kept with the contour: asking again gives the same circle, also after the
    vertices were changed; the two methods are independent; another method is an error. *)
Theorem C123_cache : forall lstsq p m c p', fit_circle_path lstsq p m = Some (c, p') ->
  vertices p' = vertices p /\
  (forall v, fit_circle_path lstsq (Path v (params_fit p') (params_area p')) m = Some (c, Path v (params_fit p') (params_area p'))) /\
  (m = Fit -> params_area p' = params_area p /\ (params_fit p = None -> fit_circle_vertices lstsq (vertices p) = Some c)) /\
  (m = EqualArea -> params_fit p' = params_fit p /\ (params_area p = None -> circle_from_equal_area (vertices p) = Some c)) /\ m <> Other.
Proof.
  intros f p m c p' H. destruct m; cbn in H; [| |discriminate H].
  - destruct (params_fit p) as [k|] eqn:E.
    + injection H as <- <-. split; [reflexivity|]. split; [intros v; cbn; rewrite E; reflexivity|]. split; [intros _; split; [reflexivity|discriminate]|]. split; [discriminate|discriminate].
    + destruct (fit_circle_vertices f (vertices p)) as [k|]; cbn in H; [|discriminate H]. injection H as <- <-. cbn. split; [reflexivity|]. split; [reflexivity|]. split; [intros _; split; reflexivity|]. split; [discriminate|discriminate].
  - destruct (params_area p) as [k|] eqn:E.
    + injection H as <- <-. split; [reflexivity|]. split; [intros v; cbn; rewrite E; reflexivity|]. split; [discriminate|]. split; [intros _; split; [reflexivity|discriminate]|discriminate].
    + destruct (circle_from_equal_area (vertices p)) as [k|]; cbn in H; [|discriminate H]. injection H as <- <-. cbn. split; [reflexivity|]. split; [reflexivity|]. split; [discriminate|]. split; [intros _; split; reflexivity|discriminate].
Qed.
Print Assumptions C123_cache.
(** Vertices which are all at the same distance of their mean position: the circle is
    centred on this position, and its radius is this distance. *)
Theorem C123_exact : forall lstsq (l : list pt) rho, least_squares lstsq ->
  let lon0 := mean fst (tl l) in let lat0 := mean snd (tl l) in
  -90 < lat0 < 90 -> 0 < rho -> l <> [] -> In (hd (0, 0) l) (tl l) ->
  (forall p, In p (tl l) -> distance lon0 lat0 (fst p) (snd p) = rho) ->
  not_on_line (tl (map (fun p => coordinates_to_local (fst p) (snd p) lon0 lat0) l)) ->
  (1 / 10000000 <= extent fst l \/ 1 / 10000000 <= extent snd l) ->
  exists e, fit_circle_vertices lstsq l = Some (Circle lon0 lat0 rho (Some e)).
Proof.
  intros f l rho LS lon0 lat0 L R0 NE HD AL NL EX. set (c := map (fun p => coordinates_to_local (fst p) (snd p) lon0 lat0) l) in *.
  assert (CC : forall p, In p (tl l) -> dist2 (coordinates_to_local (fst p) (snd p) lon0 lat0) (0, 0) = rho ^ 2).
  { intros p P. destruct (coordinates_to_local (fst p) (snd p) lon0 lat0) as [x y] eqn:E. pose proof (C122_local_norm _ _ _ _ _ _ E) as D. rewrite (AL p P) in D. unfold dist2. cbn [fst snd]. rewrite <- D. rewrite pow2_sqrt; [ring|]. pose proof (pow2_ge_0 x). pose proof (pow2_ge_0 y). lra. }
  assert (TC : forall q, In q c -> dist2 q (0, 0) = rho ^ 2).
  { intros q Q. unfold c in Q. apply in_map_iff in Q. destruct Q as (p & <- & P). apply CC. destruct l as [|a l]; [contradiction|]. destruct P as [<-|P]; [exact HD|exact P]. }
  assert (D : exists p q, In p (tl c) /\ In q (tl c) /\ p <> q). { destruct NL as (p & q & s & P & Q & _ & N). exists p, q. split; [exact P|]. split; [exact Q|]. intros ->. apply N. ring. }
  assert (TT : forall q, In q (tl c) -> In q c) by (intros q Q; destruct c; [contradiction|right; exact Q]).
  assert (F : exists e, fit_circle f c = Some (0, 0, rho, e)).
  { destruct (C120_best f c LS D) as (x0 & y0 & r0 & B & _ & _ & NN & _). destruct (fit_circle f c) as [[[[x y] r] e]|] eqn:E.
    - destruct (C120_exact f c 0 0 rho LS NL (Rlt_le _ _ R0) (fun q Q => TC q (TT q Q)) _ _ _ _ E) as (-> & -> & ->). exists e. reflexivity.
    - exfalso. assert (B0 : best_circle (tl c) 0 0 rho). { split; [lra|]. intros u v w. unfold misfit. rewrite (sumf_ext _ (fun _ => 0)); [rewrite sumf_const; rewrite Rmult_0_r; apply sumf_nonneg; intros; apply pow2_ge_0|]. intros p P. rewrite (TC p (TT p P)). ring. }
      destruct (C120_unique _ _ _ _ _ _ _ NL B B0) as (-> & -> & _). pose proof (TC _ (proj1 NN eq_refl)) as Z. unfold dist2 in Z. cbn [fst snd] in Z. replace ((0 - 0) ^ 2 + (0 - 0) ^ 2) with 0 in Z by ring. nra. }
  destruct F as (e & F). exists e. unfold fit_circle_vertices, to_local. destruct (length (tl l) =? 0)%nat eqn:E0. { apply Nat.eqb_eq in E0. destruct (tl l); [contradiction|discriminate E0]. }
  cbn [bind]. fold lon0 lat0. fold c. assert (ND : is_dot l = false). { unfold is_dot. destruct (Rlt_dec (extent fst l) (1 / 10000000)); [|reflexivity]. destruct (Rlt_dec (extent snd l) (1 / 10000000)); [lra|reflexivity]. }
  rewrite ND, F. cbn [bind]. assert (LC : local_to_coordinates 0 0 lon0 lat0 = (lon0, lat0)).
  { unfold local_to_coordinates. cbn zeta. replace (0 ^ 2 + 0 ^ 2) with 0 by ring. rewrite sqrt_0. replace (0 / RE) with 0 by (pose proof RE_pos; field; lra). rewrite sin_0, cos_0. rewrite Rmult_1_r, !Rmult_0_r, !Rmult_0_l, Rplus_0_r. pose proof D2R_pos as DP.
    assert (P2 : - (PI / 2) < lat0 * D2R < PI / 2) by (unfold D2R; pose proof PI_RGT_0; nra). rewrite asin_sin by lra. f_equal; [|field; lra]. replace (arctan2 0 (1 - sin (lat0 * D2R) * sin (lat0 * D2R))) with 0; [field; lra|].
    pose proof (sc1 (lat0 * D2R)) as SC. assert (CP : 0 < cos (lat0 * D2R)) by (apply cos_gt_0; lra). unfold arctan2. destruct (Rlt_dec 0 (1 - sin (lat0 * D2R) * sin (lat0 * D2R))) as [_|X]; [|exfalso; apply X; nra]. unfold Rdiv. rewrite Rmult_0_l, atan_0. reflexivity. }
  rewrite LC. f_equal. f_equal. destruct (rmod_range (lon0 - lon0 + 180) 360 ltac:(lra)) as [RM (k & K)]. assert (K0 : k = 0%Z). { assert (-1 < IZR k < 1) by lra. destruct H as [H1 H2]. apply (lt_IZR (-1)) in H1. apply (lt_IZR _ 1) in H2. lia. } rewrite K0 in K. lra.
Qed.
Print Assumptions C123_exact.
(** Four vertices one degree away of a position of the equator. *)
Definition diamond : list pt := [(1, 0); (0, 1); (-1, 0); (0, -1); (1, 0)].
Lemma one_way : forall x t S C, x * x <= D2R * D2R -> t = Rabs x -> sin t * S = sin x -> sin t * C = 0 -> t * S = x /\ t * C = 0.
Proof.
  intros x t S C B -> HS HC. pose proof D2R_pos as DP. assert (D1 : D2R < 1) by (unfold D2R; pose proof PI_4; lra). pose proof PI2_3_2 as P3. unfold Rabs in *. destruct (Rcase_abs x) as [N|N].
  - assert (P : 0 < sin (- x)) by (apply sin_gt_0; nra). rewrite sin_neg in *. assert (S = -1) by nra. assert (C = 0) by nra. subst. split; ring.
  - destruct (Req_dec x 0) as [->|Z]; [split; ring|]. assert (P : 0 < sin x) by (apply sin_gt_0; nra). assert (S = 1) by nra. assert (C = 0) by nra. subst. split; ring.
Qed.
Lemma square_le : forall x, -1 <= x <= 1 -> x * D2R * (x * D2R) <= D2R * D2R.
Proof. intros x H. assert (0 <= (1 - x * x) * (D2R * D2R)) by (apply Rmult_le_pos; nra). lra. Qed.
Lemma local_case : forall lon lat, -1 <= lon <= 1 -> -1 <= lat <= 1 -> lon = 0 \/ lat = 0 -> coordinates_to_local lon lat 0 0 = (RE * (lon * D2R), RE * (lat * D2R)).
Proof.
  intros lon lat LO LA Z. destruct (local_form lon lat 0 0) as (E & SA & CA). cbn zeta in E. rewrite E. clear E. pose proof D2R_pos as DP. pose proof RE_pos as RP. set (A := arctan2 _ _) in *. set (t := angle 0 0 lon lat) in *. destruct (C122_turns 0 0 lon lat) as (_ & _ & _ & M & Q). pose proof (distance_angle 0 0 lon lat) as DA. fold t in DA.
  rewrite Rmult_0_l, cos_0, sin_0 in CA. rewrite !Rminus_0_r in *. destruct Z as [->| ->].
  - rewrite M in DA by (apply Rabs_le; lra). rewrite Rmult_0_l, sin_0 in SA. assert (T : t = Rabs (lat * D2R)). { rewrite Rabs_mult, (Rabs_pos_eq D2R) by lra. nra. }
    destruct (one_way (lat * D2R) t (cos A) (sin A)) as [X Y]; [apply square_le; lra|exact T|lra|lra|]. rewrite !Rmult_assoc. rewrite X, Y. f_equal; ring.
  - rewrite Q in DA by (apply Rabs_le; lra). rewrite Rmult_0_l in SA, CA. rewrite cos_0 in SA, CA. rewrite sin_0 in CA. assert (T : t = Rabs (lon * D2R)). { rewrite Rabs_mult, (Rabs_pos_eq D2R) by lra. nra. }
    destruct (one_way (lon * D2R) t (sin A) (cos A)) as [X Y]; [apply square_le; lra|exact T|lra|lra|]. rewrite !Rmult_assoc. rewrite X, Y. f_equal; ring.
Qed.
Example C123_diamond : forall lstsq, least_squares lstsq -> exists e, fit_circle_vertices lstsq diamond = Some (Circle 0 0 (RE * D2R) (Some e)).
Proof.
  intros f LS. pose proof D2R_pos as DP. pose proof RE_pos as RP. assert (M1 : mean fst (tl diamond) = 0) by (unfold mean, diamond; cbn; field). assert (M2 : mean snd (tl diamond) = 0) by (unfold mean, diamond; cbn; field).
  pose proof (C123_exact f diamond (RE * D2R) LS) as T. cbn zeta in T. rewrite M1, M2 in T. apply T.
  - lra.
  - nra.
  - discriminate.
  - cbn. auto.
  - assert (N : sqrt ((RE * (0 * D2R)) ^ 2 + (RE * (1 * D2R)) ^ 2) = RE * D2R) by (replace ((RE * (0 * D2R)) ^ 2 + (RE * (1 * D2R)) ^ 2) with ((RE * D2R) ^ 2) by ring; apply sqrt_pow2; nra).
    intros p P. destruct (coordinates_to_local (fst p) (snd p) 0 0) as [x y] eqn:E. rewrite <- (C122_local_norm _ _ _ _ _ _ E). cbn in P. destruct P as [<-|[<-|[<-|[<-|[]]]]]; cbn [fst snd] in E; rewrite local_case in E by lra; injection E as <- <-; rewrite <- N; f_equal; ring.
  - unfold diamond. cbn [map tl fst snd]. rewrite !local_case by lra. unfold not_on_line. eexists _, _, _. split; [left; reflexivity|]. split; [right; left; reflexivity|]. split; [right; right; left; reflexivity|]. cbn [fst snd]. assert (0 < (RE * D2R) * (RE * D2R)) by (apply Rmult_lt_0_compat; nra). nra.
  - left. unfold extent, diamond. cbn [maxf fst snd]. pose proof (Rmax_l 1 (Rmax 0 (Rmax (-1) (Rmax 0 1)))). assert (0 <= Rmax (- (1)) (Rmax (- 0) (Rmax (- -1) (Rmax (- 0) (- (1)))))); [|lra]. eapply Rle_trans; [|apply Rmax_r]. eapply Rle_trans; [|apply Rmax_l]. lra.
Qed.
(** A contour reduced to one position; a triangle with equal area circle. *)
Example C123_dot : forall lstsq, fit_circle_vertices lstsq [(3, 4); (3, 4); (3, 4)] = Some Dot.
Proof. intros f. unfold fit_circle_vertices, to_local. cbn [tl length Nat.eqb bind]. unfold is_dot, extent. cbn [maxf fst snd]. assert (M : forall x : R, Rmax x x = x) by (intros x; apply Rmax_left; lra). rewrite !M. repeat (destruct (Rlt_dec _ _); [|lra]). reflexivity. Qed.
Example C123_area_case : exists r, circle_from_equal_area [(0, 0); (1, 0); (0, 1); (0, 0)] = Some (Circle (1 / 3) (1 / 3) r None).
Proof.
  eexists. unfold circle_from_equal_area, to_local. cbn [tl length Nat.eqb bind]. unfold is_dot, extent. cbn [maxf fst snd]. assert (E : Rmax 0 (Rmax 1 (Rmax 0 0)) = 1) by (unfold Rmax; repeat destruct (Rle_dec _ _); lra). assert (E' : Rmax (- 0) (Rmax (- (1)) (Rmax (- 0) (- 0))) = 0) by (unfold Rmax; repeat destruct (Rle_dec _ _); lra). rewrite E, E'. destruct (Rlt_dec (1 + 0) (1 / 10000000)); [lra|].
  replace (mean fst [(1, 0); (0, 1); (0, 0)]) with (1 / 3) by (unfold mean; cbn; field). replace (mean snd [(1, 0); (0, 1); (0, 0)]) with (1 / 3) by (unfold mean; cbn; field). reflexivity.
Qed.
