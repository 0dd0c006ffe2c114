(** Property C122: distances and local coordinates on the sphere, on real numbers
    (axioms of the real numbers of the standard library). *)
From Coq Require Import List Arith Bool ZArith Reals Lra Lia.
From Verif Require Import Sph_model Sph_proofs.
Import ListNotations.
Local Open Scope R_scope.

(** The distance is the length of the arc of great circle: radius times the angle
    between the two directions seen from the centre of the sphere. *)
Theorem C122_great_circle : forall lon0 lat0 lon1 lat1, exists t, 0 <= t <= PI /\ cos t = dot (place lon0 lat0) (place lon1 lat1) /\ distance lon0 lat0 lon1 lat1 = RE * t.
Proof. intros. exists (angle lon0 lat0 lon1 lat1). destruct (angle_facts lon0 lat0 lon1 lat1) as [A B]. split; [exact A|]. split; [exact B|apply distance_angle]. Qed.
Print Assumptions C122_great_circle.

Lemma place_turn : forall lon lat k, place (lon + 360 * IZR k) lat = place lon lat.
Proof. intros lo la k. unfold place. replace ((lo + 360 * IZR k) * D2R) with (lo * D2R + 2 * PI * IZR k) by (unfold D2R; field). destruct (cos_turn (lo * D2R) k) as [-> ->]. reflexivity. Qed.
Lemma distance_place : forall lon0 lat0 lon1 lat1 lon2 lat2 lon3 lat3, dot (place lon0 lat0) (place lon1 lat1) = dot (place lon2 lat2) (place lon3 lat3) -> distance lon0 lat0 lon1 lat1 = distance lon2 lat2 lon3 lat3.
Proof. intros. rewrite !distance_angle. f_equal. destruct (angle_facts lon2 lat2 lon3 lat3) as [A B]. apply angle_eq; [exact A|congruence]. Qed.
Lemma same_place : forall lon0 lat0 lon1 lat1, -90 < lat0 < 90 -> -90 < lat1 < 90 -> (place lon0 lat0 = place lon1 lat1 <-> lat0 = lat1 /\ exists k, lon1 = lon0 + 360 * IZR k).
Proof.
  intros lon0 lat0 lon1 lat1 L0 L1. pose proof D2R_pos as DP. split.
  - intros E. unfold place in E. injection E as E1 E2 E3. assert (B0 : - (PI / 2) <= lat0 * D2R <= PI / 2) by (unfold D2R; pose proof PI_RGT_0; nra). assert (B1 : - (PI / 2) <= lat1 * D2R <= PI / 2) by (unfold D2R; pose proof PI_RGT_0; nra).
    pose proof (sin_inj _ _ B0 B1 E3) as EL. assert (EL' : lat0 = lat1) by (apply (Rmult_eq_reg_r D2R); lra). split; [exact EL'|]. subst lat1. assert (C : 0 < cos (lat0 * D2R)) by (apply cos_gt_0; unfold D2R; pose proof PI_RGT_0; nra).
    apply Rmult_eq_reg_l in E1; [|lra]. apply Rmult_eq_reg_l in E2; [|lra]. destruct (same_angle (lon1 * D2R) (lon0 * D2R)) as [k K]; [congruence|congruence|]. exists k. apply (Rmult_eq_reg_r D2R); [|lra]. rewrite K. unfold D2R. field.
  - intros (-> & k & ->). symmetry. apply place_turn.
Qed.
(** It is a distance between places of the sphere. *)
Theorem C122_metric : forall lon0 lat0 lon1 lat1 lon2 lat2,
  0 <= distance lon0 lat0 lon1 lat1 <= PI * RE /\
  distance lon0 lat0 lon1 lat1 = distance lon1 lat1 lon0 lat0 /\
  (distance lon0 lat0 lon1 lat1 = 0 <-> place lon0 lat0 = place lon1 lat1) /\
  (-90 < lat0 < 90 -> -90 < lat1 < 90 -> (distance lon0 lat0 lon1 lat1 = 0 <-> lat0 = lat1 /\ exists k, lon1 = lon0 + 360 * IZR k)) /\
  distance lon0 lat0 lon2 lat2 <= distance lon0 lat0 lon1 lat1 + distance lon1 lat1 lon2 lat2.
Proof.
  intros. pose proof RE_pos as RP. destruct (angle_facts lon0 lat0 lon1 lat1) as [A B].
  assert (Z : distance lon0 lat0 lon1 lat1 = 0 <-> place lon0 lat0 = place lon1 lat1).
  { rewrite distance_angle. split.
    - intros E. assert (T : angle lon0 lat0 lon1 lat1 = 0) by nra. rewrite T, cos_0 in B. apply dot_one; [apply place_unit|apply place_unit|symmetry; exact B].
    - intros E. rewrite (angle_eq lon0 lat0 lon1 lat1 0); [ring|pose proof PI_RGT_0; lra|]. rewrite cos_0, <- E. symmetry. apply place_unit. }
  split. { rewrite distance_angle. nra. }
  split. { apply distance_place, dot_sym. }
  split; [exact Z|]. split. { intros L0 L1. rewrite Z. apply same_place; assumption. }
  rewrite !distance_angle. destruct (angle_facts lon1 lat1 lon2 lat2) as [A' B']. destruct (angle_facts lon0 lat0 lon2 lat2) as [A'' B''].
  pose proof (triangle _ _ _ _ _ _ (place_unit lon0 lat0) (place_unit lon1 lat1) (place_unit lon2 lat2) A A' A'' B B' B''). nra.
Qed.
Print Assumptions C122_metric.
(** Whole turns of longitude, and a common shift, do not count; along a meridian or
    the equator the distance is that of the angle. *)
Theorem C122_turns : forall lon0 lat0 lon1 lat1,
  (forall k, distance lon0 lat0 (lon1 + 360 * IZR k) lat1 = distance lon0 lat0 lon1 lat1) /\
  (forall s, distance (lon0 + s) lat0 (lon1 + s) lat1 = distance lon0 lat0 lon1 lat1) /\
  distance lon0 (- lat0) lon1 (- lat1) = distance lon0 lat0 lon1 lat1 /\
  (Rabs (lat1 - lat0) <= 180 -> distance lon0 lat0 lon0 lat1 = RE * (Rabs (lat1 - lat0) * D2R)) /\
  (Rabs (lon1 - lon0) <= 180 -> distance lon0 0 lon1 0 = RE * (Rabs (lon1 - lon0) * D2R)).
Proof.
  intros. pose proof D2R_pos as DP. split; [|split; [|split; [|split]]].
  - intros k. apply distance_place. rewrite place_turn. reflexivity.
  - intros s. apply distance_place. rewrite !dot_place. replace (lon1 + s - (lon0 + s)) with (lon1 - lon0) by ring. reflexivity.
  - apply distance_place. rewrite !dot_place. replace (- lat0 * D2R) with (- (lat0 * D2R)) by ring. replace (- lat1 * D2R) with (- (lat1 * D2R)) by ring. rewrite !cos_neg, !sin_neg. ring.
  - intros L. rewrite distance_angle. f_equal. apply angle_eq.
    + split; [apply Rmult_le_pos; [apply Rabs_pos|lra]|]. unfold D2R. pose proof PI_RGT_0. nra.
    + rewrite dot_place. replace ((lon0 - lon0) * D2R) with 0 by ring. rewrite cos_0. unfold Rabs. destruct (Rcase_abs (lat1 - lat0)); [replace (- (lat1 - lat0) * D2R) with (- (lat1 * D2R - lat0 * D2R)) by ring; rewrite cos_neg|replace ((lat1 - lat0) * D2R) with (lat1 * D2R - lat0 * D2R) by ring]; rewrite cos_minus; ring.
  - intros L. rewrite distance_angle. f_equal. apply angle_eq.
    + split; [apply Rmult_le_pos; [apply Rabs_pos|lra]|]. unfold D2R. pose proof PI_RGT_0. nra.
    + rewrite dot_place. replace (0 * D2R) with 0 by ring. rewrite cos_0, sin_0. unfold Rabs. destruct (Rcase_abs (lon1 - lon0)); [replace (- (lon1 - lon0) * D2R) with (- ((lon1 - lon0) * D2R)) by ring; rewrite cos_neg|]; ring.
Qed.
Print Assumptions C122_turns.

(** ** Matrix of distances *)
Lemma rmod_range : forall x m, 0 < m -> 0 <= rmod x m < m /\ exists k : Z, x = rmod x m + m * IZR k.
Proof.
  intros x m M. unfold rmod. destruct (base_Int_part (x / m)) as [A B]. assert (E : x = m * (x / m)) by (field; lra). set (q := x / m) in *. split; [split; nra|]. exists (Int_part q). ring.
Qed.
(** Gap of two longitudes: the shortest way round. *)
Definition gap (g lon0 lon1 : R) : Prop := 0 <= g <= 180 /\ exists k : Z, lon1 - lon0 = g + 360 * IZR k \/ lon1 - lon0 = - g + 360 * IZR k.
Lemma gap_code : forall lon0 lon1, let d := Rabs (lon1 - lon0) in gap (if Rlt_dec 180 d then Rabs (rmod (d + 180) 360 - 180) else d) lon0 lon1.
Proof.
  intros lon0 lon1. cbn zeta. set (d := Rabs (lon1 - lon0)). assert (D : lon1 - lon0 = d \/ lon1 - lon0 = - d) by (unfold d, Rabs; destruct (Rcase_abs _); lra). pose proof (Rabs_pos (lon1 - lon0)) as D0. fold d in D0. clearbody d. destruct (Rlt_dec 180 d) as [L|L].
  - destruct (rmod_range (d + 180) 360 ltac:(lra)) as [M (k & K)]. set (r := rmod (d + 180) 360) in *. assert (A : Rabs (r - 180) <= 180) by (unfold Rabs; destruct (Rcase_abs _); lra). split; [split; [apply Rabs_pos|exact A]|].
    assert (G : r - 180 = Rabs (r - 180) \/ r - 180 = - Rabs (r - 180)) by (unfold Rabs; destruct (Rcase_abs _); lra). set (g := Rabs (r - 180)) in *. destruct D as [D|D]; [exists k|exists (- k)%Z; rewrite opp_IZR]; destruct G as [G|G]; lra.
  - split; [lra|]. exists 0%Z. lra.
Qed.
Lemma gap_unique : forall g g' lon0 lon1, gap g lon0 lon1 -> gap g' lon0 lon1 -> g = g'.
Proof.
  intros g g' a b (G & k & K) (G' & k' & K'). assert (E : exists m : Z, g - g' = 360 * IZR m \/ g + g' = 360 * IZR m).
  { destruct K as [K|K]; destruct K' as [K'|K']; [exists (k' - k)%Z|exists (k' - k)%Z|exists (k - k')%Z|exists (k - k')%Z]; rewrite minus_IZR; lra. }
  destruct E as (m & [E|E]).
  - assert (B : -1 < IZR m < 1) by lra. destruct B as [B1 B2]. apply lt_IZR in B1, B2. assert (m = 0%Z) by lia. subst m. lra.
  - assert (B : -1 < IZR m < 2) by lra. destruct B as [B1 B2]. apply lt_IZR in B1, B2. assert (M : m = 0%Z \/ m = 1%Z) by lia. destruct M as [->| ->]; lra.
Qed.
(** nan exactly for the couples which are more than 15 degrees of latitude or 20 of
    longitude apart, kilometres otherwise. *)
Theorem C122_matrix : forall lon0 lat0 lon1 lat1 g, gap g lon0 lon1 ->
  (distance_cell lon0 lat0 lon1 lat1 = None <-> 15 < Rabs (lat1 - lat0) \/ 20 < g) /\
  forall d, distance_cell lon0 lat0 lon1 lat1 = Some d -> d = distance lon0 lat0 lon1 lat1 / 1000.
Proof.
  intros lon0 lat0 lon1 lat1 g G. unfold distance_cell. pose proof (gap_code lon0 lon1) as C. cbn zeta in C. rewrite (gap_unique _ _ _ _ C G).
  destruct (Rlt_dec 15 (Rabs (lat1 - lat0))) as [L|L]; [split; [tauto|discriminate]|]. destruct (Rlt_dec 20 g) as [L'|L']; [split; [tauto|discriminate]|]. split; [split; [discriminate|intros [X|X]; contradiction]|]. intros d E. injection E as <-.
  assert (A : a_val g (Rabs (lat1 - lat0)) lat0 lat1 = a_val (lon1 - lon0) (lat1 - lat0) lat0 lat1).
  { unfold a_val. f_equal.
    - f_equal. f_equal. destruct G as (_ & k & K). assert (H : 2 * sin (g * (1 / 2) * D2R) ^ 2 = 2 * sin ((lon1 - lon0) * (1 / 2) * D2R) ^ 2); [|lra]. replace (g * (1 / 2) * D2R) with (g * D2R * (1 / 2)) by ring. replace ((lon1 - lon0) * (1 / 2) * D2R) with ((lon1 - lon0) * D2R * (1 / 2)) by ring. rewrite !half_sin. f_equal.
      destruct K as [K|K]; rewrite K; [replace ((g + 360 * IZR k) * D2R) with (g * D2R + 2 * PI * IZR k) by (unfold D2R; field); symmetry; apply cos_turn|]. replace ((- g + 360 * IZR k) * D2R) with (- (g * D2R) + 2 * PI * IZR k) by (unfold D2R; field). rewrite (proj1 (cos_turn _ _)), cos_neg. reflexivity.
    - unfold Rabs. destruct (Rcase_abs (lat1 - lat0)); [|reflexivity]. replace (- (lat1 - lat0) * (1 / 2) * D2R) with (- ((lat1 - lat0) * (1 / 2) * D2R)) by ring. rewrite sin_neg. ring. }
  rewrite A. unfold distance. cbn zeta. field.
Qed.
Print Assumptions C122_matrix.
(** One row for each point of the first array, one column for each of the second. *)
Theorem C122_matrix_cells : forall lon0 lat0 lon1 lat1 i j, length lon0 = length lat0 -> length lon1 = length lat1 -> (i < length lon0)%nat -> (j < length lon1)%nat ->
  length (distance_grid lon0 lat0 lon1 lat1) = length lon0 /\ length (nth i (distance_grid lon0 lat0 lon1 lat1) []) = length lon1 /\
  nth j (nth i (distance_grid lon0 lat0 lon1 lat1) []) None = distance_cell (nth i lon0 0) (nth i lat0 0) (nth j lon1 0) (nth j lat1 0).
Proof.
  intros lon0 lat0 lon1 lat1 i j L0 L1 I J. unfold distance_grid. set (row := fun p : R * R => map (fun q => distance_cell (fst p) (snd p) (fst q) (snd q)) (combine lon1 lat1)).
  assert (C0 : length (combine lon0 lat0) = length lon0) by (rewrite combine_length; lia). assert (C1 : length (combine lon1 lat1) = length lon1) by (rewrite combine_length; lia).
  split; [rewrite map_length; exact C0|]. assert (E : nth i (map row (combine lon0 lat0)) [] = row (nth i lon0 0, nth i lat0 0)). { rewrite (nth_indep _ [] (row (0, 0))) by (rewrite map_length; lia). rewrite map_nth, combine_nth by exact L0. reflexivity. }
  rewrite E. unfold row. cbn [fst snd]. split; [rewrite map_length; exact C1|]. set (f := fun q : R * R => distance_cell (nth i lon0 0) (nth i lat0 0) (fst q) (snd q)). rewrite (nth_indep _ None (f (0, 0))) by (rewrite map_length; lia). rewrite map_nth, combine_nth by exact L1. reflexivity.
Qed.
Print Assumptions C122_matrix_cells.

(** ** Local coordinates *)
Lemma local_form : forall lon lat lon0 lat0, let t := angle lon0 lat0 lon lat in let A := arctan2 (cos (lat * D2R) * sin ((lon - lon0) * D2R)) (cos (lat0 * D2R) * sin (lat * D2R) - sin (lat0 * D2R) * cos (lat * D2R) * cos ((lon - lon0) * D2R)) in
  coordinates_to_local lon lat lon0 lat0 = (RE * t * sin A, RE * t * cos A) /\ sin t * sin A = cos (lat * D2R) * sin ((lon - lon0) * D2R) /\ sin t * cos A = cos (lat0 * D2R) * sin (lat * D2R) - sin (lat0 * D2R) * cos (lat * D2R) * cos ((lon - lon0) * D2R).
Proof.
  intros lon lat lon0 lat0. cbn zeta. set (E := cos (lat * D2R) * sin ((lon - lon0) * D2R)). set (N := cos (lat0 * D2R) * sin (lat * D2R) - sin (lat0 * D2R) * cos (lat * D2R) * cos ((lon - lon0) * D2R)). set (A := arctan2 E N). destruct (angle_facts lon0 lat0 lon lat) as [T C]. set (t := angle lon0 lat0 lon lat) in *.
  assert (X : coordinates_to_local lon lat lon0 lat0 = (RE * t * sin A, RE * t * cos A)).
  { unfold coordinates_to_local. cbn zeta. fold E N A. replace (PI / 2 - A) with (PI / 2 + - A) by ring. rewrite cos_plus, sin_plus, cos_PI2, sin_PI2, cos_neg, sin_neg.
    assert (M : RE * 2 * arctan2 (sqrt (sin ((lon - lon0) * D2R * (1 / 2)) ^ 2 * cos (lat0 * D2R) * cos (lat * D2R) + sin ((lat - lat0) * (1 / 2) * D2R) ^ 2)) (sqrt (1 - (sin ((lon - lon0) * D2R * (1 / 2)) ^ 2 * cos (lat0 * D2R) * cos (lat * D2R) + sin ((lat - lat0) * (1 / 2) * D2R) ^ 2))) = RE * t).
    { unfold t, angle, a_val. cbn zeta. replace ((lon - lon0) * D2R * (1 / 2)) with ((lon - lon0) * (1 / 2) * D2R) by ring. ring. }
    rewrite M. f_equal; ring. }
  split; [exact X|]. assert (S : sqrt (N ^ 2 + E ^ 2) = sin t).
  { assert (S0 : 0 <= sin t) by (apply sin_ge_0; lra). rewrite <- (sqrt_pow2 (sin t) S0). f_equal. pose proof (sc1 t) as ST. rewrite C, dot_place in ST. unfold N, E. pose proof (sc1 (lat * D2R)) as S1. pose proof (sc1 (lat0 * D2R)) as S2. pose proof (sc1 ((lon - lon0) * D2R)) as S3.
    set (s1 := sin (lat * D2R)) in *. set (c1 := cos (lat * D2R)) in *. set (s0 := sin (lat0 * D2R)) in *. set (c0 := cos (lat0 * D2R)) in *. set (sd := sin ((lon - lon0) * D2R)) in *. set (cd := cos ((lon - lon0) * D2R)) in *.
    replace (sin t ^ 2) with (1 - (c0 * c1 * cd + s0 * s1) ^ 2) by lra. clear - S1 S2 S3. transitivity ((s1 ^ 2 + c1 ^ 2 * (sd ^ 2 + cd ^ 2)) * (s0 ^ 2 + c0 ^ 2) - (c0 * c1 * cd + s0 * s1) ^ 2 + (1 - (s0 ^ 2 + c0 ^ 2)) * (c1 ^ 2 * sd ^ 2)); [ring|]. rewrite S2, S3. replace (s1 ^ 2 + c1 ^ 2 * 1) with (s1 ^ 2 + c1 ^ 2) by ring. rewrite S1. ring. }
  destruct (arctan2_mult E N) as [P Q]. fold A in P, Q. rewrite S in P, Q. split; assumption.
Qed.
(** Local coordinates: their norm is the distance to the reference. *)
Theorem C122_local_norm : forall lon lat lon0 lat0 x y, coordinates_to_local lon lat lon0 lat0 = (x, y) -> sqrt (x ^ 2 + y ^ 2) = distance lon0 lat0 lon lat.
Proof.
  intros lon lat lon0 lat0 x y H. destruct (local_form lon lat lon0 lat0) as [E _]. rewrite E in H. injection H as <- <-. rewrite distance_angle. destruct (angle_facts lon0 lat0 lon lat) as [T _]. set (t := angle lon0 lat0 lon lat) in *. set (A := arctan2 _ _). pose proof RE_pos.
  replace ((RE * t * sin A) ^ 2 + (RE * t * cos A) ^ 2) with ((RE * t) ^ 2 * (sin A ^ 2 + cos A ^ 2)) by ring. rewrite sc1, Rmult_1_r. apply sqrt_pow2. nra.
Qed.
Print Assumptions C122_local_norm.

(** the result of local_to_coordinates *)
Lemma coord_form : forall x y lon0 lat0 d a, - 90 < lat0 < 90 -> sqrt (x ^ 2 + y ^ 2) / RE = d -> sin d * sin a = sin d * cos (arctan2 y x) -> sin d * cos a = sin d * sin (arctan2 y x) ->
  exists L phi, local_to_coordinates x y lon0 lat0 = (lon0 + L / D2R, phi / D2R) /\ - PI < L <= PI /\ - (PI / 2) <= phi <= PI / 2 /\ sin phi = sin (lat0 * D2R) * cos d + cos (lat0 * D2R) * (sin d * cos a) /\
    cos phi * cos L = cos (lat0 * D2R) * cos d - sin (lat0 * D2R) * (sin d * cos a) /\ cos phi * sin L = sin d * sin a.
Proof.
  intros x y lon0 lat0 d a L0 HD HS HC. set (B := arctan2 y x) in *. unfold local_to_coordinates. cbn zeta. rewrite HD. fold B. replace (- (B - PI / 2)) with (PI / 2 + - B) by ring. rewrite cos_plus, sin_plus, cos_PI2, sin_PI2, cos_neg, sin_neg.
  set (s0 := sin (lat0 * D2R)). set (c0 := cos (lat0 * D2R)). assert (C0 : 0 < c0) by (unfold c0; apply cos_gt_0; unfold D2R; pose proof PI_RGT_0; nra). pose proof (sc1 (lat0 * D2R)) as S0. fold s0 c0 in S0.
  replace (s0 * cos d + c0 * sin d * (0 * cos B - 1 * - sin B)) with (s0 * cos d + c0 * (sin d * cos a)) by (rewrite HC; ring). replace ((1 * cos B + 0 * - sin B) * sin d * c0) with (sin d * sin a * c0) by (rewrite HS; ring).
  set (w := s0 * cos d + c0 * (sin d * cos a)). set (ca := sin d * cos a) in *. set (sa := sin d * sin a) in *. pose proof (sc1 d) as S1. pose proof (sc1 a) as S2. assert (S3 : sa ^ 2 + ca ^ 2 = sin d ^ 2) by (unfold sa, ca; transitivity (sin d ^ 2 * (sin a ^ 2 + cos a ^ 2)); [ring|rewrite S2; ring]).
  (* the two rotated coordinates *)
  set (v := c0 * cos d - s0 * ca). assert (UN : w ^ 2 + v ^ 2 + sa ^ 2 = 1). { unfold w, v. transitivity ((s0 ^ 2 + c0 ^ 2) * (cos d ^ 2 + ca ^ 2) + sa ^ 2); [ring|]. rewrite S0. lra. }
  assert (W : -1 <= w <= 1) by (pose proof (pow2_ge_0 v); pose proof (pow2_ge_0 sa); split; nra). pose proof (asin_bound w) as PB. pose proof (sin_asin w W) as SP. set (phi := asin w) in *. assert (CP : 0 <= cos phi) by (apply cos_ge_0; lra).
  assert (CP2 : cos phi ^ 2 = v ^ 2 + sa ^ 2) by (pose proof (sc1 phi) as Z; rewrite SP in Z; lra).
  set (X := cos d - s0 * sin phi). assert (XE : X = c0 * v). { unfold X. rewrite SP. unfold w, v. transitivity (cos d * (s0 ^ 2 + c0 ^ 2) - s0 * (s0 * cos d + c0 * ca)); [rewrite S0; ring|ring]. }
  destruct (arctan2_mult (sa * c0) X) as [P Q]. assert (RT : sqrt (X ^ 2 + (sa * c0) ^ 2) = c0 * cos phi). { rewrite <- (sqrt_pow2 (c0 * cos phi)) by nra. f_equal. rewrite XE. transitivity (c0 ^ 2 * (v ^ 2 + sa ^ 2)); [ring|]. rewrite <- CP2. ring. }
  rewrite RT in P, Q. exists (arctan2 (sa * c0) X), phi. split; [reflexivity|]. split; [apply arctan2_range|]. split; [exact PB|]. split; [exact SP|]. split.
  - rewrite XE in P. apply (Rmult_eq_reg_l c0); [|lra]. rewrite <- Rmult_assoc. rewrite XE. exact P.
  - apply (Rmult_eq_reg_l c0); [|lra]. rewrite <- Rmult_assoc. rewrite Q. ring.
Qed.

(** From degrees to local coordinates and back: the same place, with the longitude
    nearest to the reference. *)
Theorem C122_back : forall lon lat lon0 lat0, -90 < lat0 < 90 -> -90 < lat < 90 ->
  let '(x, y) := coordinates_to_local lon lat lon0 lat0 in
  let '(lon', lat') := local_to_coordinates x y lon0 lat0 in
  lat' = lat /\ lon0 - 180 < lon' <= lon0 + 180 /\ exists k, lon' = lon + 360 * IZR k.
Proof.
  intros lon lat lon0 lat0 L0 L1. pose proof D2R_pos as DP. pose proof RE_pos as RP. destruct (local_form lon lat lon0 lat0) as (EQ & PS & PC). set (t := angle lon0 lat0 lon lat) in *. set (A := arctan2 _ _) in *. rewrite EQ. destruct (angle_facts lon0 lat0 lon lat) as [T C]. fold t in T, C.
  set (x := RE * t * sin A). set (y := RE * t * cos A). assert (NX : sqrt (x ^ 2 + y ^ 2) = RE * t). { unfold x, y. replace ((RE * t * sin A) ^ 2 + (RE * t * cos A) ^ 2) with ((RE * t) ^ 2 * (sin A ^ 2 + cos A ^ 2)) by ring. rewrite sc1, Rmult_1_r. apply sqrt_pow2. nra. }
  destruct (arctan2_mult y x) as [P Q]. rewrite NX in P, Q. assert (ST : forall u v, RE * t * u = RE * t * v -> sin t * v = sin t * u). { intros u v H. destruct (Req_dec t 0) as [Z|Z]; [rewrite Z, sin_0; ring|]. f_equal. apply (Rmult_eq_reg_l (RE * t)); [symmetry; exact H|nra]. }
  destruct (coord_form x y lon0 lat0 t A L0 ltac:(rewrite NX; field; lra) (ST _ _ P) (ST _ _ Q)) as (L & phi & E & LB & PB & SP & CL & SL). rewrite E.
  pose proof (sc1 (lat0 * D2R)) as S0. set (s0 := sin (lat0 * D2R)) in *. set (c0 := cos (lat0 * D2R)) in *. rewrite C, dot_place in SP, CL. fold c0 s0 in SP, CL. rewrite PC in SP, CL. rewrite PS in SL.
  set (s1 := sin (lat * D2R)) in *. set (c1 := cos (lat * D2R)) in *. set (de := (lon - lon0) * D2R) in *.
  assert (SP' : sin phi = s1) by (rewrite SP; transitivity (s1 * (s0 ^ 2 + c0 ^ 2)); [ring|rewrite S0; ring]). assert (CL' : cos phi * cos L = c1 * cos de) by (rewrite CL; transitivity (c1 * cos de * (s0 ^ 2 + c0 ^ 2)); [ring|rewrite S0; ring]).
  assert (PE : phi = lat * D2R). { apply sin_inj; [exact PB| |exact SP']. unfold D2R. pose proof PI_RGT_0. nra. } subst phi. fold c1 in CL', SL. assert (C1 : 0 < c1) by (unfold c1; apply cos_gt_0; unfold D2R; pose proof PI_RGT_0; nra).
  split; [field; lra|]. assert (D180 : PI = 180 * D2R) by (unfold D2R; field). split.
  - assert (U : L / D2R * D2R = L) by (field; lra). split; nra.
  - apply Rmult_eq_reg_l in CL'; [|lra]. apply Rmult_eq_reg_l in SL; [|lra]. destruct (same_angle L de CL' SL) as [k K]. exists k. rewrite K. unfold de, D2R. field. pose proof PI_RGT_0; lra.
Qed.
Print Assumptions C122_back.

(** From local coordinates to degrees and back: the same coordinates, up to half of the
    circumference. *)
Theorem C122_forth : forall x y lon0 lat0, -90 < lat0 < 90 -> sqrt (x ^ 2 + y ^ 2) < PI * RE ->
  let '(lon, lat) := local_to_coordinates x y lon0 lat0 in coordinates_to_local lon lat lon0 lat0 = (x, y) /\ -90 <= lat <= 90.
Proof.
  intros x y lon0 lat0 L0 N. pose proof D2R_pos as DP. pose proof RE_pos as RP. set (d := sqrt (x ^ 2 + y ^ 2) / RE). set (B := arctan2 y x). assert (SA : sin (PI / 2 - B) = cos B) by (replace (PI / 2 - B) with (PI / 2 + - B) by ring; rewrite sin_plus, cos_PI2, sin_PI2, cos_neg; ring). assert (CA : cos (PI / 2 - B) = sin B) by (replace (PI / 2 - B) with (PI / 2 + - B) by ring; rewrite cos_plus, cos_PI2, sin_PI2, sin_neg; ring).
  destruct (coord_form x y lon0 lat0 d (PI / 2 - B) L0 eq_refl) as (L & phi & E & LB & PB & SP & CL & SL); [rewrite SA; reflexivity|rewrite CA; reflexivity|]. rewrite E. rewrite SA in SL. rewrite CA in SP, CL.
  assert (D : 0 <= d < PI). { unfold d. pose proof (sqrt_pos (x ^ 2 + y ^ 2)). split; [apply Rle_mult_inv_pos; lra|]. apply (Rmult_lt_reg_r RE); [exact RP|]. unfold Rdiv. rewrite Rmult_assoc, Rinv_l by lra. lra. }
  set (lon := lon0 + L / D2R). set (lat := phi / D2R). assert (EL : (lon - lon0) * D2R = L) by (unfold lon; field; lra). assert (EP : lat * D2R = phi) by (unfold lat; field; lra).
  destruct (local_form lon lat lon0 lat0) as (EQ & PS & PC). rewrite EL, EP in *. pose proof (sc1 (lat0 * D2R)) as S0. set (s0 := sin (lat0 * D2R)) in *. set (c0 := cos (lat0 * D2R)) in *.
  assert (T : angle lon0 lat0 lon lat = d). { apply angle_eq; [lra|]. rewrite dot_place, EL, EP. fold s0 c0. rewrite Rmult_assoc, CL, SP. transitivity (cos d * (s0 ^ 2 + c0 ^ 2)); [rewrite S0; ring|ring]. }
  rewrite T in *. set (A := arctan2 (cos phi * sin L) (c0 * sin phi - s0 * cos phi * cos L)) in *.
  assert (PS' : sin d * sin A = sin d * cos B) by (rewrite PS; exact SL). assert (PC' : sin d * cos A = sin d * sin B). { rewrite PC. rewrite Rmult_assoc, CL, SP. transitivity (sin d * sin B * (s0 ^ 2 + c0 ^ 2)); [ring|rewrite S0; ring]. }
  assert (ND : RE * d = sqrt (x ^ 2 + y ^ 2)) by (unfold d; field; lra). destruct (arctan2_mult y x) as [P Q]. fold B in P, Q. rewrite <- ND in P, Q. split.
  - rewrite EQ. destruct (Req_dec d 0) as [Z|Z].
    + rewrite Z in P, Q |- *. f_equal; [rewrite <- P|rewrite <- Q]; ring.
    + assert (SD : 0 < sin d) by (apply sin_gt_0; lra). apply Rmult_eq_reg_l in PS'; [|lra]. apply Rmult_eq_reg_l in PC'; [|lra]. rewrite PS', PC', P, Q. reflexivity.
  - assert (D90 : PI / 2 = 90 * D2R) by (unfold D2R; field). rewrite D90 in PB. rewrite <- EP in PB. split; nra.
Qed.
Print Assumptions C122_forth.

(** On a pole every point of the local plane gets the longitude of the reference: the
    transformation cannot be inverted. *)
Theorem C122_pole_refuted : forall x y lon0, fst (local_to_coordinates x y lon0 90) = lon0.
Proof.
  intros x y lon0. unfold local_to_coordinates. cbn zeta. cbn [fst]. assert (P : 90 * D2R = PI / 2) by (unfold D2R; field). rewrite P, cos_PI2, sin_PI2. set (d := sqrt (x ^ 2 + y ^ 2) / RE). set (a := - (arctan2 y x - PI / 2)).
  replace (1 * cos d + 0 * sin d * cos a) with (cos d) by ring. rewrite sin_asin by apply COS_bound. replace (sin a * sin d * 0) with 0 by ring. replace (cos d - 1 * cos d) with 0 by ring. rewrite arctan2_0. unfold Rdiv. ring.
Qed.
Print Assumptions C122_pole_refuted.

(** ** Contours drawn as circles *)
(** Every point of the contour is at the distance of the radius times the factor, in
    regular directions, and the contour is closed; other observations, other fields and
    the contours which are not stored are left. *)
Definition drawn (n : nat) (r lon lat : R) (c : list (R * R)) : Prop :=
  length c = n /\
  (forall i, (i < n)%nat -> let p := nth i c (0, 0) in distance lon lat (fst p) (snd p) = r /\
     coordinates_to_local (fst p) (snd p) lon lat = (r * cos (INR i * (2 * PI / INR (n - 1))), r * sin (INR i * (2 * PI / INR (n - 1))))) /\
  ((2 <= n)%nat -> nth 0 c (0, 0) = nth (n - 1) c (0, 0)).
Lemma circle_drawn : forall n r lon lat, -90 < lat < 90 -> 0 <= r < PI * RE -> drawn n r lon lat (circle n r lon lat).
Proof.
  intros n r lon lat L R0. assert (G : forall i, (i < n)%nat -> nth i (circle n r lon lat) (0, 0) = local_to_coordinates (cos (INR i * (360 / INR (n - 1)) * D2R) * r) (sin (INR i * (360 / INR (n - 1)) * D2R) * r) lon lat).
  { intros i I. unfold circle, angles. rewrite map_map. set (f := fun x => local_to_coordinates (cos (INR x * (360 / INR (n - 1)) * D2R) * r) (sin (INR x * (360 / INR (n - 1)) * D2R) * r) lon lat). rewrite (nth_indep _ (0, 0) (f 0%nat)) by (rewrite map_length, seq_length; exact I). rewrite map_nth, seq_nth by exact I. reflexivity. }
  split; [unfold circle, angles; rewrite !map_length, seq_length; reflexivity|]. split.
  - intros i I. cbn zeta. rewrite (G i I). assert (TE : INR i * (360 / INR (n - 1)) * D2R = INR i * (2 * PI / INR (n - 1))) by (unfold D2R, Rdiv; generalize (/ INR (n - 1)); intros q; field). rewrite TE. set (th := INR i * (2 * PI / INR (n - 1))).
    assert (N : sqrt ((cos th * r) ^ 2 + (sin th * r) ^ 2) = r). { replace ((cos th * r) ^ 2 + (sin th * r) ^ 2) with (r ^ 2 * (sin th ^ 2 + cos th ^ 2)) by ring. rewrite sc1, Rmult_1_r. apply sqrt_pow2. lra. }
    pose proof (C122_forth (cos th * r) (sin th * r) lon lat L ltac:(rewrite N; lra)) as F. destruct (local_to_coordinates (cos th * r) (sin th * r) lon lat) as [lo la] eqn:E. destruct F as [F _]. cbn [fst snd]. split; [|rewrite F; f_equal; ring]. rewrite <- (C122_local_norm _ _ _ _ _ _ F). exact N.
  - intros N2. rewrite !G by lia. assert (INR (n - 1) <> 0) by (apply not_0_INR; lia). replace (INR (n - 1) * (360 / INR (n - 1)) * D2R) with (0 + 2 * PI * 1) by (unfold D2R; field; assumption). destruct (cos_turn 0 1) as [-> ->]. replace (INR 0 * (360 / INR (n - 1)) * D2R) with 0 by (cbn; ring). reflexivity.
Qed.
Theorem C122_circle : forall n has_s has_e only_virtual factor l,
  length (circle_contour n has_s has_e only_virtual factor l) = length l /\
  forall i o, nth_error l i = Some o -> exists o', nth_error (circle_contour n has_s has_e only_virtual factor l) i = Some o' /\
    lon o' = lon o /\ lat o' = lat o /\ virtual o' = virtual o /\ radius_s o' = radius_s o /\ radius_e o' = radius_e o /\
    (only_virtual = true -> virtual o = false -> o' = o) /\
    (only_virtual = false \/ virtual o = true ->
       (has_s = false -> contour_s o' = contour_s o) /\ (has_e = false -> contour_e o' = contour_e o) /\
       (-90 < lat o < 90 -> has_s = true -> 0 <= radius_s o * factor < PI * RE -> drawn n (radius_s o * factor) (lon o) (lat o) (contour_s o')) /\
       (-90 < lat o < 90 -> has_e = true -> 0 <= radius_e o * factor < PI * RE -> drawn n (radius_e o * factor) (lon o) (lat o) (contour_e o'))).
Proof.
  intros n hs he ov factor l. unfold circle_contour. split; [apply map_length|]. intros i o H. set (f := fun o => if ov && negb (virtual o) then o else _). exists (f o). split; [apply map_nth_error; exact H|]. unfold f. destruct ov; destruct (virtual o) eqn:V; cbn [andb negb].
  2: { repeat (split; [reflexivity|]). split; [exact V|]. split; [reflexivity|]. split; [reflexivity|]. split; [reflexivity|]. intros [X|X]; discriminate X. }
  all: cbn [lon lat virtual radius_s radius_e contour_s contour_e]; split; [reflexivity|]; split; [reflexivity|]; split; [exact V || reflexivity|]; split; [reflexivity|]; split; [reflexivity|]; split; [intros X Y; discriminate|]; intros _; split; [intros ->; reflexivity|]; split; [intros ->; reflexivity|]; split; intros La -> Ra; apply circle_drawn; assumption.
Qed.
Print Assumptions C122_circle.

(** Two places on the same meridian, a quarter of the sphere apart; the matrix; a drawn
    circle. *)
Example C122_quarter : distance 10 0 370 90 = RE * (PI / 2).
Proof. replace 370 with (10 + 360 * IZR 1) by lra. rewrite (proj1 (C122_turns 10 0 10 90)). rewrite (proj1 (proj2 (proj2 (proj2 (C122_turns 10 0 10 90))))); rewrite Rabs_pos_eq by lra; [unfold D2R; field|lra]. Qed.
Example C122_matrix_case : distance_cell 359 0 4 0 = Some (distance 359 0 4 0 / 1000) /\ distance_cell 0 0 21 0 = None.
Proof.
  destruct (C122_matrix 359 0 4 0 5) as [A B]. { split; [lra|]. exists (-1)%Z. left. lra. }
  destruct (C122_matrix 0 0 21 0 21) as [A' _]. { split; [lra|]. exists 0%Z. left. lra. }
  split; [|apply A'; right; lra]. destruct (distance_cell 359 0 4 0) as [d|] eqn:E; [rewrite (B d eq_refl); reflexivity|]. exfalso. destruct (proj1 A eq_refl) as [X|X]; [|lra]. replace (0 - 0) with 0 in X by ring. rewrite Rabs_R0 in X. lra.
Qed.
Example C122_circle_case : drawn 50 100000 12 (-35) (circle 50 100000 12 (-35)).
Proof. apply circle_drawn; [lra|]. unfold RE. pose proof PI2_3_2. lra. Qed.
