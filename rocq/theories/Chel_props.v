(** Property C118: the links allowed by the reference tracker. *)
From Coq Require Import List Arith ZArith Bool QArith Qabs Qround Lia Lqa.
From Verif Require Import Base Qaux Spec Solver_model Solver_proofs Solver_props Corr_model Match_props Grid_model Grid_path Chel_model.
Import ListNotations.
Local Open Scope Q_scope.

Lemma nth_combine_some : forall {A B} (l : list A) (m : list B) x a b, nth_error l x = Some a -> nth_error m x = Some b -> nth_error (combine l m) x = Some (a, b).
Proof. intros A B. induction l as [|u l IH]; intros [|v m] [|x] a b H K; cbn in *; try discriminate; [congruence|eauto]. Qed.

(** ** Specification *)
Definition sq (x : Q) : Q := x * x.
(** The ellipse which goes from [west] on the west side of [(lon0, lat0)] to
    [minor] on its east side, of half height [minor]; longitudes are known
    modulo a turn. *)
Definition in_region (minor west lon0 lat0 lon1 lat1 : Q) : Prop :=
  exists turns : Z,
    sq ((lon1 + 360 * inject_Z turns - (lon0 + (minor - west) / 2)) / ((west + minor) / 2)) + sq ((lat1 - lat0) / minor) < 1.

Lemma sq_nonneg : forall x, 0 <= sq x.
Proof. intros x. unfold sq. nra. Qed.
Lemma sq_abs : forall x, sq (Qabs x) == sq x.
Proof. intros x. unfold sq. destruct (Qlt_le_dec x 0); [rewrite Qabs_neg by lra|rewrite Qabs_pos by lra]; ring. Qed.
#[export] Instance sq_wd : Proper (Qeq ==> Qeq) sq.
Proof. intros x y E. unfold sq. rewrite E. reflexivity. Qed.

(** The distance in longitude of the code is the smallest modulo a turn. *)
Definition turn_dist (d : Q) : Q := let dx := Qabs d in if Qlt_bool 180 dx then Qabs (Qmod (dx + 180) 360 - 180) else dx.
Lemma turn_dist_spec : forall d, exists u (q : Z), d == u + 360 * inject_Z q /\ sq (turn_dist d) == sq u /\ -180 <= u <= 180 /\ 0 <= turn_dist d.
Proof.
  intros d. unfold turn_dist. cbv zeta. destruct (Qlt_bool 180 (Qabs d)) eqn:B.
  - destruct (Qmod_range (Qabs d + 180) 360 ltac:(lra)) as [R1 R2]. destruct (Qmod_cong (Qabs d + 180) 360) as [k K]. set (r := Qmod (Qabs d + 180) 360) in *. clearbody r.
    destruct (Qlt_le_dec d 0) as [N|N]; [rewrite (Qabs_neg d) in K by lra|rewrite (Qabs_pos d) in K by lra].
    + exists (- (r - 180)), k. rewrite sq_abs. split; [lra|]. split; [unfold sq; ring|]. split; [lra|apply Qabs_nonneg].
    + exists (r - 180), (- k)%Z. rewrite sq_abs, inject_Z_opp. split; [lra|]. split; [reflexivity|]. split; [lra|apply Qabs_nonneg].
  - apply Qlt_bool_false in B. exists d, 0%Z. change (inject_Z 0) with 0. rewrite sq_abs. split; [ring|]. split; [reflexivity|]. split; [|apply Qabs_nonneg]. apply Qabs_Qle_condition in B. exact B.
Qed.
Lemma turn_least : forall u (k : Z), -180 <= u <= 180 -> sq u <= sq (u + 360 * inject_Z k).
Proof.
  intros u k B. unfold sq. destruct (Z.lt_trichotomy k 0) as [N|[->|P]].
  - assert (inject_Z k <= -1) by (change (-1) with (inject_Z (-1)); rewrite <- Zle_Qle; lia). nra.
  - change (inject_Z 0) with 0. nra.
  - assert (1 <= inject_Z k) by (change 1 with (inject_Z 1); rewrite <- Zle_Qle; lia). nra.
Qed.
Lemma turn_dist_min : forall d, (exists k : Z, sq (turn_dist d) == sq (d + 360 * inject_Z k)) /\ forall k : Z, sq (turn_dist d) <= sq (d + 360 * inject_Z k).
Proof.
  intros d. destruct (turn_dist_spec d) as (u & q & D & S1 & R & _). split.
  - exists (- q)%Z. rewrite S1. rewrite inject_Z_opp. apply sq_wd. lra.
  - intros k. rewrite S1. assert (E : d + 360 * inject_Z k == u + 360 * inject_Z (q + k)) by (rewrite inject_Z_plus; lra). rewrite E. apply turn_least. exact R.
Qed.

Lemma sq_div : forall a b, 0 < b -> sq (a / b) == a * a / (b * b).
Proof. intros a b P. unfold sq. field. lra. Qed.
Lemma sq_le : forall a b, 0 <= a -> 0 < b -> sq (a / b) < 1 -> a <= b.
Proof.
  intros a b A P H. destruct (Qlt_le_dec b a) as [L|L]; [|exact L]. exfalso. unfold sq in H. assert (1 < a / b). { apply Qlt_shift_div_l; lra. } nra.
Qed.
Lemma in_ellipse_spec : forall minor west lon0 lat0 lon1 lat1, 0 < minor -> 0 < west + minor ->
  in_ellipse minor west lon0 lat0 lon1 lat1 = true <-> in_region minor west lon0 lat0 lon1 lat1.
Proof.
  intros minor west lon0 lat0 lon1 lat1 P1 P2. unfold in_ellipse, in_region. cbv zeta.
  set (xc := (lon0 - (west - minor) + lon0) * (1 # 2)). set (M := minor + (1 # 2) * (west - minor)).
  change (if Qlt_bool 180 (Qabs (lon1 - xc)) then Qabs (Qmod (Qabs (lon1 - xc) + 180) 360 - 180) else Qabs (lon1 - xc)) with (turn_dist (lon1 - xc)).
  assert (PM : 0 < M) by (unfold M; lra).
  assert (EM : (west + minor) / 2 == M) by (unfold M; field). assert (EX : lon0 + (minor - west) / 2 == xc) by (unfold xc; field).
  destruct (turn_dist_spec (lon1 - xc)) as (_ & _ & _ & _ & _ & T0). destruct (turn_dist_min (lon1 - xc)) as [(k & K) L]. set (t := turn_dist (lon1 - xc)) in *. clearbody t.
  pose proof (Qabs_nonneg (lat1 - lat0)) as Y0. assert (EY : sq ((lat1 - lat0) / minor) == sq (Qabs (lat1 - lat0) / minor)). { rewrite !sq_div by lra. change (Qabs (lat1 - lat0) * Qabs (lat1 - lat0)) with (sq (Qabs (lat1 - lat0))). rewrite sq_abs. reflexivity. }
  set (y := Qabs (lat1 - lat0)) in *. clearbody y.
  assert (MAIN : (exists turns : Z, sq ((lon1 + 360 * inject_Z turns - (lon0 + (minor - west) / 2)) / ((west + minor) / 2)) + sq ((lat1 - lat0) / minor) < 1) <-> sq (t / M) + sq (y / minor) < 1).
  { split.
    - intros (j & J). rewrite EM, EX, EY in J. specialize (L j). assert (E : lon1 + 360 * inject_Z j - xc == lon1 - xc + 360 * inject_Z j) by ring. rewrite E in J. rewrite sq_div in J by lra. rewrite sq_div by lra.
      assert (t * t / (M * M) <= (lon1 - xc + 360 * inject_Z j) * (lon1 - xc + 360 * inject_Z j) / (M * M)). { apply Qle_shift_div_l; [nra|]. setoid_replace (t * t / (M * M) * (M * M)) with (t * t) by (field; lra). exact L. } lra.
    - intros H. exists k. rewrite EM, EX, EY. assert (E : lon1 + 360 * inject_Z k - xc == lon1 - xc + 360 * inject_Z k) by ring. rewrite E. rewrite sq_div in H |- * by lra. unfold sq at 1 in K. rewrite K in H. exact H. }
  rewrite MAIN. rewrite !sq_div by lra. split.
  - destruct (Qlt_bool minor y); [discriminate|]. destruct (Qlt_bool M t); [discriminate|]. apply Qlt_bool_iff.
  - intros H. assert (H' : sq (t / M) + sq (y / minor) < 1) by (rewrite !sq_div by lra; exact H). pose proof (sq_nonneg (t / M)). pose proof (sq_nonneg (y / minor)).
    replace (Qlt_bool minor y) with false by (symmetry; apply Qlt_bool_false, sq_le; [exact Y0|exact P1|lra]).
    replace (Qlt_bool M t) with false by (symmetry; apply Qlt_bool_false, sq_le; [exact T0|exact PM|lra]). apply Qlt_bool_iff. exact H.
Qed.

(** The pair of row [j] of the first set and row [i] of the second is kept by
    the ellipse exactly when the second is in the region of the first. *)
Theorem C118_region : forall minor major self other, 0 < minor -> (forall w, In w major -> 0 < w + minor) -> length major = length self ->
  rect (length self) (length other) (ellipse_mask minor major self other) /\
  forall j i e o w, nth_error self j = Some e -> nth_error other i = Some o -> nth_error major j = Some w ->
    (get (ellipse_mask minor major self other) j i = Some true <-> in_region minor w (e_lon e) (e_lat e) (e_lon o) (e_lat o)).
Proof.
  intros minor major self other P1 P2 L. split.
  - split; [unfold ellipse_mask; rewrite map_length, combine_length, L; apply Nat.min_id|]. intros row I. apply in_map_iff in I as (p & <- & _). apply map_length.
  - intros j i e o w E O W. unfold get, ellipse_mask. rewrite nth_error_map.
    assert (C : nth_error (combine self major) j = Some (e, w)). { clear - E W. revert j major E W. induction self as [|a s IH]; intros [|j] [|b m] E W; cbn in *; try discriminate; [congruence|eauto]. }
    rewrite C. cbn [option_map fst snd]. rewrite nth_error_map, O. cbn [option_map]. rewrite <- in_ellipse_spec; [|exact P1|apply P2; eapply nth_error_In; eauto]. split; [intros H; apply Some_inj in H; exact H|intros ->; reflexivity].
Qed.
Print Assumptions C118_region.
Example C118_region_case : ellipse_mask 1 [3; 1]%Q [mk_eddy 1 40 1 1; mk_eddy 359 40 1 1] [mk_eddy 359 40 1 1; mk_eddy 357 40 1 1; mk_eddy (3 # 2) 40 1 1; mk_eddy (5 # 2) 40 1 1]
  = [[true; false; true; false]; [true; false; false; false]].
Proof. vm_compute. reflexivity. Qed.

(** Extent of the region: [west] towards the west, [minor] towards the east,
    the north and the south; the eddy itself is inside. *)
Theorem C118_extent : forall minor west lon0 lat0 lon1 lat1, 0 < minor -> 0 < west + minor ->
  (in_region minor west lon0 lat0 lon1 lat1 -> Qabs (lat1 - lat0) < minor /\ exists turns : Z, - west < lon1 + 360 * inject_Z turns - lon0 /\ lon1 + 360 * inject_Z turns - lon0 < minor) /\
  (lat1 == lat0 -> (exists turns : Z, - west < lon1 + 360 * inject_Z turns - lon0 /\ lon1 + 360 * inject_Z turns - lon0 < minor) -> in_region minor west lon0 lat0 lon1 lat1).
Proof.
  intros minor west lon0 lat0 lon1 lat1 P1 P2. assert (D2 : forall z, z / 2 == (1 # 2) * z) by (intros z; field). pose proof (D2 (west + minor)) as W2. pose proof (D2 (minor - west)) as M2.
  assert (LT : forall a b, 0 < b -> sq (a / b) < 1 <-> - b < a /\ a < b).
  { intros a b P. rewrite sq_div by exact P. assert (PP : 0 < b * b) by nra. split.
    - intros H. assert (a * a < b * b). { setoid_replace (a * a) with (a * a / (b * b) * (b * b)) by (field; lra). nra. } nra.
    - intros [A B]. apply Qlt_shift_div_r; [exact PP|]. nra. }
  split.
  - intros (k & H). pose proof (sq_nonneg ((lat1 - lat0) / minor)). pose proof (sq_nonneg ((lon1 + 360 * inject_Z k - (lon0 + (minor - west) / 2)) / ((west + minor) / 2))).
    split.
    + destruct (proj1 (LT (lat1 - lat0) minor P1)) as [A B]; [lra|]. apply Qabs_Qlt_condition. split; assumption.
    + exists k. destruct (proj1 (LT (lon1 + 360 * inject_Z k - (lon0 + (minor - west) / 2)) ((west + minor) / 2) ltac:(lra))) as [A B]; [lra|]. split; lra.
  - intros E (k & A & B). exists k. rewrite E. setoid_replace ((lat0 - lat0) / minor) with 0 by (field; lra). change (sq 0) with 0. rewrite Qplus_0_r. apply LT; [lra|]. split; lra.
Qed.
Print Assumptions C118_extent.
Example C118_extent_case : in_region 1 3 1 40 359 40 /\ ~ in_region 1 3 1 40 357 40.
Proof.
  split.
  - apply (proj2 (C118_extent 1 3 1 40 359 40 eq_refl eq_refl) (Qeq_refl _)). exists (-1)%Z. split; reflexivity.
  - intros H. apply (in_ellipse_spec 1 3 1 40 357 40 eq_refl eq_refl) in H. vm_compute in H. discriminate H.
Qed.

(** Adding turns to any of the longitudes changes nothing. *)
Theorem C118_turns : forall minor west lon0 lat0 lon1 lat1 (a b : Z), 0 < minor -> 0 < west + minor ->
  in_ellipse minor west (lon0 + 360 * inject_Z a) lat0 (lon1 + 360 * inject_Z b) lat1 = in_ellipse minor west lon0 lat0 lon1 lat1.
Proof.
  intros minor west lon0 lat0 lon1 lat1 a b P1 P2. apply eq_true_iff_eq. rewrite !in_ellipse_spec by assumption. unfold in_region. split; intros (k & H).
  - exists (k + b - a)%Z. eapply Qle_lt_trans; [|exact H]. apply Qeq_le. apply Qplus_comp; [|reflexivity]. apply sq_wd. unfold Qdiv. apply Qmult_comp; [|reflexivity]. unfold Zminus. rewrite !inject_Z_plus, inject_Z_opp. ring.
  - exists (k - b + a)%Z. eapply Qle_lt_trans; [|exact H]. apply Qeq_le. apply Qplus_comp; [|reflexivity]. apply sq_wd. unfold Qdiv. apply Qmult_comp; [|reflexivity]. unfold Zminus. rewrite !inject_Z_plus, inject_Z_opp. ring.
Qed.
Print Assumptions C118_turns.

(** Reach towards the west: [cmax] near the equator up to [lat2], [cmin] from
    [lat1] to the poles, and a straight line between the two. *)
Theorem C118_reach : forall cmin cmax lat1 lat2 lat, lat2 < lat1 ->
  let reach := major_axis cmin cmax lat1 lat2 true in
  (Qabs lat <= lat2 -> reach lat == cmax) /\ (lat1 <= Qabs lat -> reach lat == cmin) /\
  (forall s, 0 <= s <= 1 -> Qabs lat == lat2 + s * (lat1 - lat2) -> reach lat == cmax + s * (cmin - cmax)) /\
  (forall lat', cmin <= cmax -> Qabs lat <= Qabs lat' -> cmin <= reach lat' /\ reach lat' <= reach lat /\ reach lat <= cmax) /\
  major_axis cmin cmax lat1 lat2 false lat == (1112 # 10) * reach lat.
Proof.
  intros cmin cmax lat1 lat2 lat D. cbv zeta.
  assert (V : forall x, (Qabs x < lat2 /\ major_axis cmin cmax lat1 lat2 true x = cmax) \/ (lat1 < Qabs x /\ major_axis cmin cmax lat1 lat2 true x = cmin) \/
    (lat2 <= Qabs x /\ Qabs x <= lat1 /\ major_axis cmin cmax lat1 lat2 true x == cmin + (cmax - cmin) / (lat1 - lat2) * (lat1 - Qabs x))).
  { intros x. unfold major_axis. cbv zeta. destruct (Qlt_bool (Qabs x) lat2) eqn:A.
    - left. apply Qlt_bool_iff in A. rewrite orb_true_r. auto.
    - destruct (Qlt_bool lat1 (Qabs x)) eqn:B; cbn [orb].
      + right. left. apply Qlt_bool_iff in B. auto.
      + right. right. apply Qlt_bool_false in A, B. split; [exact A|]. split; [exact B|]. field. lra. }
  assert (K : forall z, z == (z / (lat1 - lat2)) * (lat1 - lat2)) by (intros z; field; lra).
  assert (LIN : forall x s, Qabs x == lat2 + s * (lat1 - lat2) -> (cmax - cmin) / (lat1 - lat2) * (lat1 - Qabs x) == (1 - s) * (cmax - cmin)).
  { intros x s H. rewrite H. field. lra. }
  split; [|split; [|split; [|split]]].
  - intros H. destruct (V lat) as [(A & ->)|[(A & ->)|(A & B & ->)]]; [reflexivity|lra|]. assert (E : Qabs lat == lat2) by lra. rewrite E. field. lra.
  - intros H. destruct (V lat) as [(A & ->)|[(A & ->)|(A & B & ->)]]; [lra|reflexivity|]. assert (E : Qabs lat == lat1) by lra. rewrite E. ring.
  - intros s [S0 S1] H. destruct (V lat) as [(A & _)|[(A & _)|(A & B & ->)]].
    + exfalso. assert (0 <= s * (lat1 - lat2)) by (apply Qmult_le_0_compat; lra). lra.
    + exfalso. assert (0 <= (1 - s) * (lat1 - lat2)) by (apply Qmult_le_0_compat; lra). lra.
    + rewrite (LIN lat s H). ring.
  - intros lat' C H. set (k := (cmax - cmin) / (lat1 - lat2)) in *.
    assert (K0 : 0 <= k). { unfold k. apply Qle_shift_div_l; lra. } assert (KE : k * (lat1 - lat2) == cmax - cmin) by (unfold k; field; lra). clearbody k.
    assert (IN : forall x, cmin <= major_axis cmin cmax lat1 lat2 true x /\ major_axis cmin cmax lat1 lat2 true x <= cmax).
    { intros x. destruct (V x) as [(A & ->)|[(A & ->)|(A & B & ->)]]; [lra|lra|]. assert (0 <= k * (lat1 - Qabs x)) by (apply Qmult_le_0_compat; lra). assert (0 <= k * (Qabs x - lat2)) by (apply Qmult_le_0_compat; lra). lra. }
    split; [apply IN|]. split; [|apply IN].
    destruct (V lat) as [(A & E)|[(A & E)|(A & B & E)]].
    + rewrite E. apply IN.
    + destruct (V lat') as [(A' & E')|[(A' & E')|(A' & B' & E')]]; [lra|rewrite E, E'; lra|lra].
    + destruct (V lat') as [(A' & E')|[(A' & E')|(A' & B' & E')]]; [lra|rewrite E'; apply IN|]. rewrite E, E'. assert (0 <= k * (Qabs lat' - Qabs lat)) by (apply Qmult_le_0_compat; lra). lra.
  - unfold major_axis. cbv zeta. apply Qmult_comm.
Qed.
Print Assumptions C118_reach.
Example C118_reach_case : map (fun l => Qred (major_axis (105 # 100) (15 # 10) 23 5 true l)) [-3; 5; -14; 23; 60]%Q = [3 # 2; 3 # 2; 51 # 40; 21 # 20; 21 # 20].
Proof. vm_compute. reflexivity. Qed.

(** ** The mask of the links *)
(** Reach towards the west at a latitude. *)
Definition west_reach (lat : Q) : Q :=
  if Qle_bool (Qabs lat) 5 then 3 # 2 else if Qle_bool 23 (Qabs lat) then 21 # 20 else (3 # 2) - (Qabs lat - 5) / 40.
(** [b] is neither more than 5/2 times [a] nor less than 2/5 of it. *)
Definition alike (a b : Q) : Prop := 2 # 5 < b / a /\ b / a < 5 # 2.
Section MaskSpec.
Variables (xo yo xs ys : Q) (nb : Z) (ground : Z * Z -> option bool) (dist : eddy -> eddy -> Q).
(** No pixel of the way is on the ground. *)
Definition clear_way (e o : eddy) : Prop :=
  forall p, In p (pixel_path nb (pixel_x xo xs (e_lon e)) (pixel_y yo ys (e_lat e)) (pixel_x xo xs (e_lon o)) (pixel_y yo ys (e_lat o))) -> ground p = Some false.
Definition may_link (e o : eddy) : Prop :=
  in_region (21 # 20) (west_reach (e_lat e)) (e_lon e) (e_lat e) (e_lon o) (e_lat o) /\ alike (e_amp e) (e_amp o) /\ alike (e_rad e) (e_rad o) /\ clear_way e o.
(** Among the eddies of [other] which may be linked with row [j] of [self], row
    [i] is the nearest one, the first of them if there are several. *)
Definition nearest (self other : list eddy) (j i : nat) : Prop :=
  exists e o, nth_error self j = Some e /\ nth_error other i = Some o /\ may_link e o /\
    forall i' o', nth_error other i' = Some o' -> may_link e o' -> dist e o <= dist e o' /\ ((i' < i)%nat -> dist e o < dist e o').
End MaskSpec.

Lemma reach_spec : forall lat, major_axis (105 # 100) (15 # 10) 23 5 true lat == west_reach lat /\ 1 <= west_reach lat.
Proof.
  intros lat. destruct (C118_reach (105 # 100) (15 # 10) 23 5 lat ltac:(reflexivity)) as (A & B & C & _). unfold west_reach.
  destruct (Qle_bool (Qabs lat) 5) eqn:E; [apply Qle_bool_iff in E; rewrite (A E); split; [reflexivity|lra]|]. destruct (Qle_bool 23 (Qabs lat)) eqn:F; [apply Qle_bool_iff in F; rewrite (B F); split; [reflexivity|lra]|].
  apply Qle_bool_false in E, F. assert (D40 : (Qabs lat - 5) / 40 == (1 # 40) * (Qabs lat - 5)) by field. assert (D18 : (Qabs lat - 5) / 18 == (1 # 18) * (Qabs lat - 5)) by field.
  split; [|lra]. rewrite (C ((Qabs lat - 5) / 18)); [field|lra|field].
Qed.
Lemma in_region_wd : forall minor minor' w w' lon0 lat0 lon1 lat1, minor == minor' -> w == w' -> in_region minor w lon0 lat0 lon1 lat1 -> in_region minor' w' lon0 lat0 lon1 lat1.
Proof. intros minor minor' w w' lon0 lat0 lon1 lat1 E0 E (k & H). exists k. rewrite <- E, <- E0. exact H. Qed.
Lemma ratio_ok_spec : forall a b r, ratio_ok a b = Some r -> (r = true <-> alike a b).
Proof.
  intros a b r H. unfold ratio_ok in H. destruct (Qeq_bool a 0) eqn:Z; [discriminate H|]. cbv zeta in H. apply Some_inj in H. subst r. unfold alike. rewrite negb_true_iff, orb_false_iff, !Qle_bool_false. tauto.
Qed.
Lemma ratio_ok_some : forall a b, ~ a == 0 -> exists r, ratio_ok a b = Some r.
Proof. intros a b N. unfold ratio_ok. destruct (Qeq_bool a 0) eqn:Z; [apply Qeq_bool_iff in Z; contradiction|]. cbv zeta. eauto. Qed.
Lemma check_cell_spec : forall b e o r, check_cell b e o = Some r -> (r = true <-> b = true /\ alike (e_amp e) (e_amp o) /\ alike (e_rad e) (e_rad o)).
Proof.
  intros [|] e o r H; unfold check_cell in H.
  - destruct (ratio_ok (e_amp e) (e_amp o)) as [a|] eqn:A; [|discriminate H]. cbn [bind] in H. pose proof (ratio_ok_spec _ _ _ A) as SA. destruct a.
    + pose proof (ratio_ok_spec _ _ _ H) as SB. rewrite SB. tauto.
    + apply Some_inj in H. subst r. split; [discriminate|]. intros (_ & X & _). apply SA in X. discriminate X.
  - apply Some_inj in H. subst r. split; [discriminate|]. intros [X _]. discriminate X.
Qed.
Lemma check_cell_some : forall b e o, ~ e_amp e == 0 -> ~ e_rad e == 0 -> exists r, check_cell b e o = Some r.
Proof.
  intros [|] e o A R; unfold check_cell; [|eauto]. destruct (ratio_ok_some _ (e_amp o) A) as [a ->]. cbn [bind]. destruct a; [|eauto]. apply ratio_ok_some. exact R.
Qed.
Lemma shaped_row : forall {A} n m (M : mat A) j, shaped n m M -> (j < n)%nat -> exists row, nth_error M j = Some row /\ length row = m.
Proof. intros A n m M j [L F] H. subst n. destruct (nth_error_lt_Some M j H) as (row & R). exists row. split; [exact R|]. rewrite Forall_forall in F. apply F. eapply nth_error_In; eauto. Qed.
Lemma check_ratio_spec : forall mask self other m, shaped (length self) (length other) mask -> check_ratio mask self other = Some m ->
  shaped (length self) (length other) m /\
  forall j i e o b, nth_error self j = Some e -> nth_error other i = Some o -> get mask j i = Some b -> exists r, get m j i = Some r /\ check_cell b e o = Some r.
Proof.
  intros mask self other m SH H. unfold check_ratio in H. destruct (Poly_mesh.sequence_map_nth _ _ _ H) as [L N]. rewrite combine_length in L.
  assert (L' : length m = length self) by (destruct SH; lia).
  assert (ROW : forall j e row, nth_error self j = Some e -> nth_error mask j = Some row -> exists r, nth_error m j = Some r /\ check_row e row other = Some r).
  { intros j e row E R. destruct (N j (row, e)) as (r & A & B); [apply nth_combine_some; assumption|]. exists r. split; [exact A|exact B]. }
  split.
  - split; [exact L'|]. apply Forall_forall. intros r I. apply In_nth_error in I as (j & J). pose proof (nth_error_Some_lt _ _ _ J) as JL.
    destruct (shaped_row _ _ _ j SH ltac:(lia)) as (row & R & RL). destruct (nth_error_lt_Some self j ltac:(lia)) as (e & E). destruct (ROW j e row E R) as (r' & R' & C).
    rewrite J in R'. apply Some_inj in R'. subst r'. unfold check_row in C. destruct (Poly_mesh.sequence_map_nth _ _ _ C) as [LC _]. rewrite LC, combine_length, RL. apply Nat.min_id.
  - intros j i e o b E O G. unfold get in G |- *. destruct (nth_error mask j) as [row|] eqn:R; [|discriminate G]. destruct (ROW j e row E R) as (r & R' & C). rewrite R'.
    unfold check_row in C. destruct (Poly_mesh.sequence_map_nth _ _ _ C) as [_ NC]. destruct (NC i (b, o)) as (v & V & W); [apply nth_combine_some; assumption|]. exists v. split; [exact V|exact W].
Qed.
Lemma check_ratio_some : forall mask self other, (forall e, In e self -> ~ e_amp e == 0 /\ ~ e_rad e == 0) -> exists m, check_ratio mask self other = Some m.
Proof.
  intros mask self other NZ. unfold check_ratio. apply Poly_mesh.sequence_map_total. intros [row e] I. apply in_combine_r in I. destruct (NZ e I) as [A R]. cbn [fst snd]. unfold check_row. apply Poly_mesh.sequence_map_total. intros [b o] _. cbn [fst snd]. apply check_cell_some; assumption.
Qed.
Lemma put_cells_shaped : forall n m l mask, shaped n m mask -> shaped n m (put_cells mask l).
Proof. intros n m. induction l as [|[[i j] v] l IH]; intros mask SH; [exact SH|]. cbn [put_cells]. apply IH, shaped_set_cell, SH. Qed.
Lemma put_cells_get : forall (idx : list (nat * nat)) vals mask, NoDup idx -> length vals = length idx -> (forall i j, In (i, j) idx -> get mask i j <> None) ->
  forall i j, (forall v k, nth_error idx k = Some (i, j) -> nth_error vals k = Some v -> get (put_cells mask (combine idx vals)) i j = Some v) /\
              (~ In (i, j) idx -> get (put_cells mask (combine idx vals)) i j = get mask i j).
Proof.
  induction idx as [|[a b] idx IH]; intros [|w vals] mask ND L IN i j; cbn in L; try discriminate L.
  - split; [intros v [|k] H; discriminate H|reflexivity].
  - inversion ND as [|? ? NI ND']; subst. cbn [combine put_cells].
    assert (IN' : forall x y, In (x, y) idx -> get (set_cell mask a b w) x y <> None).
    { intros x y H. rewrite get_set_cell. specialize (IN x y (or_intror H)). destruct (get mask x y); [discriminate|contradiction]. }
    destruct (IH vals (set_cell mask a b w) ND' ltac:(lia) IN' i j) as [H1 H2]. split.
    + intros v [|k] K V; cbn in K, V; [|eapply H1; eauto]. injection K as -> ->. injection V as ->. rewrite H2 by exact NI. rewrite get_set_cell. specialize (IN i j (or_introl eq_refl)). destruct (get mask i j); [|contradiction]. cbn [option_map]. rewrite !Nat.eqb_refl. reflexivity.
    + intros NIN. rewrite H2 by (intros X; apply NIN; right; exact X). rewrite get_set_cell. destruct (get mask i j); [|reflexivity]. cbn [option_map]. destruct ((i =? a)%nat && (j =? b)%nat) eqn:E; [|reflexivity]. apply andb_true_iff in E as [E1 E2]. apply Nat.eqb_eq in E1, E2. subst. exfalso. apply NIN. left. reflexivity.
Qed.
Lemma where2_NoDup : forall M, NoDup (where2 M).
Proof.
  intros M. unfold where2. assert (G : forall M k, NoDup (where_rows k M)); [|apply G]. clear M. induction M as [|r M IH]; intros k; cbn [where_rows]; [constructor|]. apply Corr_proofs.NoDup_app_intro.
  - apply FinFun.Injective_map_NoDup; [intros x y E; injection E; auto|]. unfold where_. apply incr_NoDup, incr_where.
  - apply IH.
  - intros [i j] A B. apply in_map_iff in A as (x & E & _). injection E as <- <-. apply In_where_rows in B as [B _]. lia.
Qed.

(** The steps after the ellipse. *)
Definition mask_from xo yo xs ys nb ground (mk : mat bool) (self other : list eddy) : option (mat bool) :=
  let! mask := check_ratio mk self other in
  let closest := where2 mask in
  let! segs := sequence (map (way self other) closest) in
  let! clear := across_ground xo yo xs ys nb ground segs in
  Some (put_cells mask (combine closest clear)).
Definition first_mask (self other : list eddy) : mat bool := ellipse_mask (105 # 100) (map (fun e => major_axis (105 # 100) (15 # 10) 23 5 true (e_lat e)) self) self other.
Lemma mask_eq : forall xo yo xs ys nb ground self other, chelton_mask xo yo xs ys nb ground self other = mask_from xo yo xs ys nb ground (first_mask self other) self other.
Proof. reflexivity. Qed.
Lemma mask_from_spec : forall xo yo xs ys nb ground mk self other m, shaped (length self) (length other) mk -> mask_from xo yo xs ys nb ground mk self other = Some m ->
  shaped (length self) (length other) m /\
  forall j i e o, nth_error self j = Some e -> nth_error other i = Some o ->
    (get m j i = Some true <-> get mk j i = Some true /\ alike (e_amp e) (e_amp o) /\ alike (e_rad e) (e_rad o) /\ clear_way xo yo xs ys nb ground e o).
Proof.
  intros xo yo xs ys nb ground mk self other m R0 H. unfold mask_from in H.
  destruct (check_ratio mk self other) as [m1|] eqn:C; [|discriminate H]. cbn [bind] in H. destruct (check_ratio_spec _ _ _ _ R0 C) as [R1 G1].
  cbv zeta in H. destruct (sequence (map (way self other) (where2 m1))) as [segs|] eqn:SG; [|discriminate H]. cbn [bind] in H. destruct (across_ground xo yo xs ys nb ground segs) as [cl|] eqn:AG; [|discriminate H]. cbn [bind] in H. apply Some_inj in H. subst m.
  destruct (Poly_mesh.sequence_map_nth _ _ _ SG) as [LS NS]. destruct (across_ground_spec _ _ _ _ _ _ _ _ AG) as [LC NC].
  split; [apply put_cells_shaped, R1|]. intros j i e o E O.
  destruct (put_cells_get (where2 m1) cl m1 (where2_NoDup m1) ltac:(lia)) with (i := j) (j := i) as [P1 P2].
  { intros a b I. apply In_where2 in I. unfold linked in I. rewrite I. discriminate. }
  destruct (shaped_get _ _ mk j i R0) as [b B]; [eapply nth_error_Some_lt; eauto|eapply nth_error_Some_lt; eauto|].
  destruct (G1 j i e o b E O B) as (r & R & CC). apply check_cell_spec in CC.
  assert (RG : get mk j i = Some true <-> b = true) by (rewrite B; split; [intros X; apply Some_inj in X; exact X|intros ->; reflexivity]). rewrite RG. clear RG.
  destruct r.
  - assert (I : In (j, i) (where2 m1)) by (apply In_where2; exact R). apply In_nth_error in I as (k & K). destruct (NS k _ K) as (s & S1 & S2). unfold way in S2. cbn [fst snd] in S2. rewrite E, O in S2. cbn [bind] in S2. apply Some_inj in S2.
    destruct (nth_error_lt_Some cl k) as (v & V); [rewrite LC; eapply nth_error_Some_lt; eauto|]. rewrite (P1 v k K V). specialize (NC k s S1). rewrite V in NC. subst s. rewrite on_segment_eq in NC. cbn [fst snd] in NC. unfold clear_way. rewrite NC. tauto.
  - rewrite P2 by (intros I; apply In_where2 in I; unfold linked in I; rewrite R in I; discriminate I). rewrite R. split; [discriminate|]. intros (X1 & X2 & X3 & _). discriminate (proj2 CC (conj X1 (conj X2 X3))).
Qed.
Lemma first_mask_spec : forall self other, shaped (length self) (length other) (first_mask self other) /\
  forall j i e o, nth_error self j = Some e -> nth_error other i = Some o ->
    (get (first_mask self other) j i = Some true <-> in_region (21 # 20) (west_reach (e_lat e)) (e_lon e) (e_lat e) (e_lon o) (e_lat o)).
Proof.
  intros self other. unfold first_mask. set (f := fun e => major_axis (105 # 100) (15 # 10) 23 5 true (e_lat e)).
  assert (F : forall e, f e == west_reach (e_lat e) /\ 1 <= west_reach (e_lat e)) by (intros e; apply reach_spec). clearbody f. assert (M : 105 # 100 == 21 # 20) by reflexivity. assert (P : 0 < 105 # 100) by reflexivity. set (minor := 105 # 100) in *. clearbody minor.
  destruct (C118_region minor (map f self) self other P) as [R0 G0]; [intros w I; apply in_map_iff in I as (e & <- & _); destruct (F e) as [E G]; rewrite E; lra|apply map_length|].
  split; [apply rect_shaped, R0|]. intros j i e o E O. destruct (F e) as [WE _]. rewrite (G0 j i e o (f e) E O) by (rewrite nth_error_map, E; reflexivity). split; apply in_region_wd; auto using Qeq_sym.
Qed.
(** A cell of the mask is true exactly when the two eddies may be linked. *)
Theorem C118_mask : forall xo yo xs ys nb ground self other m, chelton_mask xo yo xs ys nb ground self other = Some m ->
  rect (length self) (length other) m /\
  forall j i e o, nth_error self j = Some e -> nth_error other i = Some o -> (get m j i = Some true <-> may_link xo yo xs ys nb ground e o).
Proof.
  intros xo yo xs ys nb ground self other m H. rewrite mask_eq in H. destruct (first_mask_spec self other) as [R0 G0]. destruct (mask_from_spec _ _ _ _ _ _ _ _ _ _ R0 H) as [R1 G1].
  split; [apply rect_shaped, R1|]. intros j i e o E O. rewrite (G1 j i e o E O), (G0 j i e o E O). reflexivity.
Qed.
Print Assumptions C118_mask.
(** The mask is computed whenever no amplitude and no radius of the first set is
    null and the ground is known everywhere. *)
Theorem C118_defined : forall xo yo xs ys nb ground self other, (forall p, ground p <> None) -> (forall e, In e self -> ~ e_amp e == 0 /\ ~ e_rad e == 0) ->
  exists m, chelton_mask xo yo xs ys nb ground self other = Some m.
Proof.
  intros xo yo xs ys nb ground self other GR NZ. rewrite mask_eq. destruct (first_mask_spec self other) as [R0 _]. set (mk := first_mask self other) in *. clearbody mk. unfold mask_from. cbv zeta.
  destruct (check_ratio_some mk self other NZ) as [m1 C]. rewrite C. cbn [bind]. destruct (check_ratio_spec _ _ _ _ R0 C) as [R1 _].
  destruct (Poly_mesh.sequence_map_total (way self other) (where2 m1)) as [segs SG].
  { intros [a b] I. apply In_where2 in I. unfold linked in I. destruct (shaped_bound _ _ _ _ _ _ R1 I) as [A B]. destruct (nth_error_lt_Some _ _ A) as (e & E). destruct (nth_error_lt_Some _ _ B) as (o & O). unfold way. cbn [fst snd]. rewrite E, O. cbn [bind]. eauto. }
  rewrite SG. cbn [bind]. unfold across_ground. cbv zeta. destruct (sequence_total ground (fst (compute_pixel_path xo yo xs ys nb segs))) as [data D]; [intros a _; apply GR|]. rewrite D. cbn [bind]. eauto.
Qed.
Print Assumptions C118_defined.
(** A null amplitude raises an error as soon as another eddy is in the region. *)
Theorem C118_null_refuted : forall xo yo xs ys nb ground self other e o, In e self -> In o other -> e_amp e == 0 ->
  in_region (21 # 20) (west_reach (e_lat e)) (e_lon e) (e_lat e) (e_lon o) (e_lat o) -> chelton_mask xo yo xs ys nb ground self other = None.
Proof.
  intros xo yo xs ys nb ground self other e o IE IO Z RG. destruct (chelton_mask xo yo xs ys nb ground self other) as [m|] eqn:H; [|reflexivity]. exfalso. rewrite mask_eq in H. destruct (first_mask_spec self other) as [R0 G0]. set (mk := first_mask self other) in *. clearbody mk. unfold mask_from in H.
  destruct (check_ratio mk self other) as [m1|] eqn:C; [|discriminate H]. destruct (check_ratio_spec _ _ _ _ R0 C) as [_ G1].
  apply In_nth_error in IE as (j & E). apply In_nth_error in IO as (i & O).
  destruct (G1 j i e o true E O (proj2 (G0 j i e o E O) RG)) as (r & _ & CC). unfold check_cell, ratio_ok in CC. rewrite (proj2 (Qeq_bool_iff _ _) Z) in CC. discriminate CC.
Qed.
Print Assumptions C118_null_refuted.

Lemma cost_cell : forall dist mask self other j i c, shaped (length self) (length other) mask ->
  Spec.cell (cost_matrix dist mask self other) j i c <-> exists e o, nth_error self j = Some e /\ nth_error other i = Some o /\ get mask j i = Some true /\ c = dist e o.
Proof.
  intros dist mask self other j i c SH. unfold Spec.cell, cost_matrix. split.
  - intros (row & R & C). rewrite nth_error_map in R. destruct (nth_error (combine mask self) j) as [[mr e]|] eqn:N; [|discriminate R]. cbn [option_map] in R. apply Some_inj in R. subst row. cbn [fst snd] in C.
    rewrite nth_error_map in C. destruct (nth_error (combine mr other) i) as [[b o]|] eqn:M; [|discriminate C]. cbn [option_map fst snd] in C. apply Some_inj in C. destruct b; [|discriminate C]. apply Some_inj in C. subst c.
    apply Split_net.combine_nth_inv in N as [N1 N2]. apply Split_net.combine_nth_inv in M as [M1 M2]. exists e, o. split; [exact N2|]. split; [exact M2|]. split; [unfold get; rewrite N1; exact M1|reflexivity].
  - intros (e & o & E & O & G & ->). unfold get in G. destruct (nth_error mask j) as [mr|] eqn:N; [|discriminate G]. eexists. rewrite nth_error_map, (nth_combine_some _ _ _ _ _ N E). cbn [option_map]. split; [reflexivity|]. cbn [fst snd]. rewrite nth_error_map, (nth_combine_some _ _ _ _ _ G O). reflexivity.
Qed.
(** Each eddy is linked to the nearest of those it may be linked with; when
    several eddies have the same nearest one, the one of greatest amplitude
    (the first of them) keeps the link and the others have none. *)
Theorem C118_links : forall xo yo xs ys nb ground dist self other, (forall p, ground p <> None) -> (forall e, In e self -> ~ e_amp e == 0 /\ ~ e_rad e == 0) ->
  self <> [] -> other <> [] ->
  let near := nearest xo yo xs ys nb ground dist self other in
  exists links, chelton_links xo yo xs ys nb ground dist self other = Some links /\ NoDup (map fst links) /\ NoDup (map snd links) /\
    forall j i, In (j, i) links <->
      near j i /\ forall e j' e', nth_error self j = Some e -> near j' i -> nth_error self j' = Some e' -> e_amp e' <= e_amp e /\ ((j' < j)%nat -> e_amp e' < e_amp e).
Proof.
  intros xo yo xs ys nb ground dist self other GR NZ S0 O0. cbv zeta. destruct (C118_defined xo yo xs ys nb ground self other GR NZ) as [m M]. unfold chelton_links. rewrite M. cbn [bind].
  destruct (C118_mask _ _ _ _ _ _ _ _ _ M) as [R G]. pose proof (proj1 (rect_shaped _ _ _) R) as SH.
  assert (RC : rect (length self) (length other) (cost_matrix dist m self other)).
  { destruct R as [R1 R2]. split; [unfold cost_matrix; rewrite map_length, combine_length, R1; apply Nat.min_id|]. intros row I. apply in_map_iff in I as ([mr e] & <- & I). rewrite map_length, combine_length. cbn [fst]. apply in_combine_l in I. rewrite (R2 mr I). apply Nat.min_id. }
  destruct (C11_chelton_links (length self) (length other) (map e_amp self) _ RC (map_length _ _)) as (links & L & N1 & N2 & IFF); [destruct self; [congruence|cbn; lia]|destruct other; [congruence|cbn; lia]|].
  assert (NE : forall j i, row_minimum (cost_matrix dist m self other) j i <-> nearest xo yo xs ys nb ground dist self other j i).
  { intros j i. unfold row_minimum, nearest. split.
    - intros (c & C & K). apply (cost_cell dist _ _ _ _ _ _ SH) in C as (e & o & E & O & T & ->). exists e, o. split; [exact E|]. split; [exact O|]. split; [apply (G j i e o E O), T|]. intros i' o' O' ML. apply (K i' (dist e o')). apply (cost_cell dist _ _ _ _ _ _ SH). exists e, o'. split; [exact E|]. split; [exact O'|]. split; [apply (G j i' e o' E O'), ML|reflexivity].
    - intros (e & o & E & O & T & K). exists (dist e o). split; [apply (cost_cell dist _ _ _ _ _ _ SH); exists e, o; split; [exact E|]; split; [exact O|]; split; [apply (G j i e o E O), T|reflexivity]|].
      intros i' c' C. apply (cost_cell dist _ _ _ _ _ _ SH) in C as (e1 & o' & E1 & O' & T' & ->). rewrite E in E1. apply Some_inj in E1. subst e1. apply (K i' o' O'). apply (G j i' e o' E O'), T'. }
  exists links. split; [exact L|]. split; [exact N1|]. split; [exact N2|]. intros j i. rewrite IFF, NE. split.
  - intros (A & a & AM & B). split; [exact A|]. intros e j' e' E NJ E'. rewrite nth_error_map, E in AM. cbn [option_map] in AM. apply Some_inj in AM. subst a. apply (B j' (e_amp e')); [apply NE, NJ|]. rewrite nth_error_map, E'. reflexivity.
  - intros (A & B). split; [exact A|]. pose proof A as (e & o & E & _). exists (e_amp e). split; [rewrite nth_error_map, E; reflexivity|]. intros j' a' NJ AJ. rewrite nth_error_map in AJ. destruct (nth_error self j') as [e'|] eqn:E'; [|discriminate AJ]. cbn [option_map] in AJ. apply Some_inj in AJ. subst a'. apply (B e j' e' E); [apply NE, NJ|exact E'].
Qed.
Print Assumptions C118_links.
(** Two eddies near the seam with the same nearest one, and a third one whose
    neighbours are behind the ground or of another size. *)
Example C118_case :
  let self := [mk_eddy 0 40 2 50; mk_eddy (1 # 2) 40 3 60; mk_eddy 10 40 2 50] in
  let other := [mk_eddy (719 # 2) 40 2 50; mk_eddy (21 # 2) 40 2 50; mk_eddy 10 (81 # 2) 2 200] in
  chelton_mask 0 0 (1 # 2) (1 # 2) 720 (fun p => Some (fst p =? 21)%Z) self other = Some [[true; false; false]; [true; false; false]; [false; false; false]] /\
  chelton_links 0 0 (1 # 2) (1 # 2) 720 (fun p => Some (fst p =? 21)%Z) (fun e o => Qabs (e_lat e - e_lat o)) self other = Some [(1%nat, 0%nat)].
Proof. vm_compute. split; reflexivity. Qed.
