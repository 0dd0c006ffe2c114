(** Lemmas on the sphere. *)
From Coq Require Import List Arith Bool ZArith Reals Lra Lia.
From Verif Require Import Sph_model.
Import ListNotations.
Local Open Scope R_scope.

Lemma D2R_pos : 0 < D2R.
Proof. unfold D2R. pose proof PI_RGT_0. lra. Qed.
Lemma RE_pos : 0 < RE.
Proof. unfold RE. lra. Qed.
Lemma sc1 : forall x, sin x ^ 2 + cos x ^ 2 = 1.
Proof. intros x. pose proof (sin2_cos2 x) as H. unfold Rsqr in H. lra. Qed.

Lemma pow2_gt_0 : forall x, x <> 0 -> 0 < x ^ 2.
Proof. intros x H. pose proof (pow2_ge_0 x). destruct (Req_dec (x ^ 2) 0) as [E|E]; [|lra]. exfalso. apply (pow_nonzero x 2 H E). Qed.

(** arctan2 *)
Lemma arctan2_polar : forall y x, ~ (x = 0 /\ y = 0) -> cos (arctan2 y x) = x / sqrt (x ^ 2 + y ^ 2) /\ sin (arctan2 y x) = y / sqrt (x ^ 2 + y ^ 2).
Proof.
  intros y x N. assert (P : 0 < x ^ 2 + y ^ 2). { pose proof (pow2_ge_0 x). pose proof (pow2_ge_0 y). destruct (Req_dec x 0) as [X|X]; destruct (Req_dec y 0) as [Y|Y]; [tauto| | |]; nra. }
  assert (S : forall x, x <> 0 -> sqrt (1 + Rsqr (y / x)) = sqrt (x ^ 2 + y ^ 2) / Rabs x).
  { intros u U. rewrite <- (sqrt_pow2 (Rabs u)) by apply Rabs_pos. rewrite <- sqrt_div_alt by (rewrite pow2_abs; apply pow2_gt_0; exact U). f_equal. rewrite pow2_abs. unfold Rsqr. field. exact U. }
  pose proof (sqrt_lt_R0 _ P) as Q. unfold arctan2. destruct (Rlt_dec 0 x) as [X|X].
  - rewrite cos_atan, sin_atan, S by lra. rewrite Rabs_pos_eq by lra. split; field; lra.
  - destruct (Rlt_dec x 0) as [X'|X'].
    + assert (C : forall k, (k = PI \/ k = - PI) -> cos (atan (y / x) + k) = x / sqrt (x ^ 2 + y ^ 2) /\ sin (atan (y / x) + k) = y / sqrt (x ^ 2 + y ^ 2)).
      { intros k K. assert (CK : cos k = -1) by (destruct K as [->| ->]; [apply cos_PI|rewrite cos_neg; apply cos_PI]). assert (SK : sin k = 0) by (destruct K as [->| ->]; [apply sin_PI|rewrite sin_neg, sin_PI; ring]).
        rewrite cos_plus, sin_plus, CK, SK, cos_atan, sin_atan, S by lra. rewrite Rabs_left by lra. split; field; lra. }
      destruct (Rlt_dec y 0); [apply (C (- PI)); right; reflexivity|apply (C PI); left; reflexivity].
    + assert (x = 0) by lra. subst x. replace (0 ^ 2 + y ^ 2) with (y ^ 2) in * by ring. destruct (Rlt_dec 0 y) as [Y|Y].
      * rewrite sqrt_pow2 by lra. rewrite cos_PI2, sin_PI2. split; field; lra.
      * destruct (Rlt_dec y 0) as [Y'|Y']; [|exfalso; apply N; split; lra]. replace (y ^ 2) with ((- y) ^ 2) by ring. rewrite sqrt_pow2 by lra. rewrite cos_neg, sin_neg, cos_PI2, sin_PI2. split; field; lra.
Qed.
Lemma arctan2_range : forall y x, - PI < arctan2 y x <= PI.
Proof.
  intros y x. pose proof PI_RGT_0. unfold arctan2. pose proof (atan_bound (y / x)) as B. destruct (Rlt_dec 0 x); [lra|]. destruct (Rlt_dec x 0).
  - destruct (Rlt_dec y 0).
    + assert (0 < y / x). { replace (y / x) with ((- y) / (- x)) by (field; lra). apply Rdiv_lt_0_compat; lra. } pose proof (atan_increasing 0 (y / x) H0). rewrite atan_0 in H1. lra.
    + assert (y / x <= 0). { replace (y / x) with (- (y / - x)) by (field; lra). assert (0 <= y / - x) by (apply Rle_mult_inv_pos; lra). lra. } destruct (Req_dec (y / x) 0) as [E|E]; [rewrite E, atan_0; lra|]. pose proof (atan_increasing (y / x) 0 ltac:(lra)). rewrite atan_0 in H1. lra.
  - destruct (Rlt_dec 0 y); [lra|]. destruct (Rlt_dec y 0); lra.
Qed.
Lemma arctan2_0 : arctan2 0 0 = 0.
Proof. unfold arctan2. repeat destruct (Rlt_dec _ _); lra. Qed.
(** polar form, null vector included *)
Lemma arctan2_mult : forall y x, sqrt (x ^ 2 + y ^ 2) * cos (arctan2 y x) = x /\ sqrt (x ^ 2 + y ^ 2) * sin (arctan2 y x) = y.
Proof.
  intros y x. destruct (Req_dec x 0) as [X|X]; [destruct (Req_dec y 0) as [Y|Y]|].
  - subst. replace (0 ^ 2 + 0 ^ 2) with 0 by ring. rewrite sqrt_0. split; ring.
  - destruct (arctan2_polar y x ltac:(tauto)) as [-> ->]. assert (0 < sqrt (x ^ 2 + y ^ 2)) by (apply sqrt_lt_R0; pose proof (pow2_ge_0 x); pose proof (pow2_gt_0 y Y); lra). split; field; lra.
  - destruct (arctan2_polar y x ltac:(tauto)) as [-> ->]. assert (0 < sqrt (x ^ 2 + y ^ 2)) by (apply sqrt_lt_R0; pose proof (pow2_ge_0 y); pose proof (pow2_gt_0 x X); lra). split; field; lra.
Qed.
Lemma cos_turn : forall x k, cos (x + 2 * PI * IZR k) = cos x /\ sin (x + 2 * PI * IZR k) = sin x.
Proof.
  intros x k. destruct k as [|p|p].
  - replace (x + 2 * PI * 0) with x by ring. split; reflexivity.
  - rewrite <- (positive_nat_Z p), <- INR_IZR_INZ. replace (x + 2 * PI * INR (Pos.to_nat p)) with (x + 2 * INR (Pos.to_nat p) * PI) by ring. rewrite cos_period, sin_period. split; reflexivity.
  - change (Z.neg p) with (- Z.pos p)%Z. rewrite opp_IZR, <- (positive_nat_Z p), <- INR_IZR_INZ. set (n := Pos.to_nat p). pose proof (cos_period (x + 2 * PI * - INR n) n) as C. pose proof (sin_period (x + 2 * PI * - INR n) n) as S. replace (x + 2 * PI * - INR n + 2 * INR n * PI) with x in C, S by ring. split; congruence.
Qed.
(** Angles with the same cosine and sine. *)
Lemma same_angle : forall u v, cos u = cos v -> sin u = sin v -> exists k : Z, u = v + 2 * PI * IZR k.
Proof.
  intros u v C S. assert (S0 : sin (u - v) = 0) by (rewrite sin_minus, C, S; ring). destruct (sin_eq_0_0 _ S0) as [k K].
  assert (C0 : cos (u - v) = 1). { rewrite cos_minus, C, S. pose proof (sc1 v). lra. }
  destruct (Z.Even_or_Odd k) as [[m M]|[m M]].
  - exists m. subst k. rewrite mult_IZR in K. lra.
  - exfalso. subst k. rewrite plus_IZR, mult_IZR in K. replace (u - v) with (PI + 2 * PI * IZR m) in C0 by lra. rewrite (proj1 (cos_turn PI m)), cos_PI in C0. lra.
Qed.

(** ** Places on the unit sphere *)
Definition place (lon lat : R) : R * R * R := (cos (lat * D2R) * cos (lon * D2R), cos (lat * D2R) * sin (lon * D2R), sin (lat * D2R)).
Definition dot (u v : R * R * R) : R := let '(a, b, c) := u in let '(x, y, z) := v in a * x + b * y + c * z.
Lemma dot_sym : forall u v, dot u v = dot v u.
Proof. intros [[a b] c] [[x y] z]. cbn. ring. Qed.
Lemma place_unit : forall lon lat, dot (place lon lat) (place lon lat) = 1.
Proof. intros lo la. unfold place, dot. transitivity (cos (la * D2R) ^ 2 * (sin (lo * D2R) ^ 2 + cos (lo * D2R) ^ 2) + sin (la * D2R) ^ 2); [ring|]. rewrite sc1. pose proof (sc1 (la * D2R)). lra. Qed.
Lemma dot_bound : forall u v, dot u u = 1 -> dot v v = 1 -> -1 <= dot u v <= 1.
Proof.
  intros [[a b] c] [[x y] z] U V. cbn in *. assert (0 <= (a - x) ^ 2 + (b - y) ^ 2 + (c - z) ^ 2) by (pose proof (pow2_ge_0 (a - x)); pose proof (pow2_ge_0 (b - y)); pose proof (pow2_ge_0 (c - z)); lra). assert (0 <= (a + x) ^ 2 + (b + y) ^ 2 + (c + z) ^ 2) by (pose proof (pow2_ge_0 (a + x)); pose proof (pow2_ge_0 (b + y)); pose proof (pow2_ge_0 (c + z)); lra). split; nra.
Qed.
Lemma dot_one : forall u v, dot u u = 1 -> dot v v = 1 -> dot u v = 1 -> u = v.
Proof.
  intros [[a b] c] [[x y] z] U V W. cbn in *. assert (E : (a - x) ^ 2 + (b - y) ^ 2 + (c - z) ^ 2 = 0) by nra. pose proof (pow2_ge_0 (a - x)). pose proof (pow2_ge_0 (b - y)). pose proof (pow2_ge_0 (c - z)). f_equal; [f_equal|]; nra.
Qed.
Lemma dot_place : forall lon0 lat0 lon1 lat1, dot (place lon0 lat0) (place lon1 lat1) = cos (lat0 * D2R) * cos (lat1 * D2R) * cos ((lon1 - lon0) * D2R) + sin (lat0 * D2R) * sin (lat1 * D2R).
Proof. intros. unfold dot, place. replace ((lon1 - lon0) * D2R) with (lon1 * D2R - lon0 * D2R) by ring. rewrite cos_minus. ring. Qed.
Lemma half_sin : forall x, 2 * sin (x * (1 / 2)) ^ 2 = 1 - cos x.
Proof. intros x. replace x with (2 * (x * (1 / 2))) at 2 by field. rewrite cos_2a_sin. ring. Qed.
Lemma a_val_dot : forall lon0 lat0 lon1 lat1, 2 * a_val (lon1 - lon0) (lat1 - lat0) lat0 lat1 = 1 - dot (place lon0 lat0) (place lon1 lat1).
Proof.
  intros. rewrite dot_place. unfold a_val. replace ((lon1 - lon0) * (1 / 2) * D2R) with ((lon1 - lon0) * D2R * (1 / 2)) by ring. replace ((lat1 - lat0) * (1 / 2) * D2R) with ((lat1 * D2R - lat0 * D2R) * (1 / 2)) by ring.
  pose proof (half_sin ((lon1 - lon0) * D2R)) as A. pose proof (half_sin (lat1 * D2R - lat0 * D2R)) as B. rewrite cos_minus in B. set (p := sin ((lon1 - lon0) * D2R * (1 / 2)) ^ 2) in *. set (q := sin ((lat1 * D2R - lat0 * D2R) * (1 / 2)) ^ 2) in *. nra.
Qed.
Lemma a_val_range : forall lon0 lat0 lon1 lat1, 0 <= a_val (lon1 - lon0) (lat1 - lat0) lat0 lat1 <= 1.
Proof. intros. pose proof (a_val_dot lon0 lat0 lon1 lat1). pose proof (dot_bound _ _ (place_unit lon0 lat0) (place_unit lon1 lat1)). lra. Qed.
Lemma angle_of : forall a, 0 <= a <= 1 -> let t := 2 * arctan2 (sqrt a) (sqrt (1 - a)) in 0 <= t <= PI /\ cos t = 1 - 2 * a.
Proof.
  intros a A. cbn zeta. destruct (arctan2_mult (sqrt a) (sqrt (1 - a))) as [C S]. rewrite !pow2_sqrt in C, S by lra. replace (1 - a + a) with 1 in C, S by ring. rewrite sqrt_1 in C, S. rewrite !Rmult_1_l in C, S. set (w := arctan2 (sqrt a) (sqrt (1 - a))) in *.
  assert (W : 0 <= w <= PI / 2).
  { pose proof (sqrt_pos a). pose proof (sqrt_pos (1 - a)). pose proof PI_RGT_0. unfold w, arctan2. destruct (Rlt_dec 0 (sqrt (1 - a))) as [P|P].
    - pose proof (atan_bound (sqrt a / sqrt (1 - a))). split; [|lra]. assert (Q : 0 <= sqrt a / sqrt (1 - a)) by (apply Rle_mult_inv_pos; lra). destruct (Req_dec (sqrt a / sqrt (1 - a)) 0) as [E|E]; [rewrite E, atan_0; lra|]. pose proof (atan_increasing 0 (sqrt a / sqrt (1 - a)) ltac:(lra)) as I. rewrite atan_0 in I. lra.
    - destruct (Rlt_dec (sqrt (1 - a)) 0); [lra|]. destruct (Rlt_dec 0 (sqrt a)); [lra|]. destruct (Rlt_dec (sqrt a) 0); lra. }
  split; [lra|]. rewrite cos_2a_sin, S. replace (2 * sqrt a * sqrt a) with (2 * (sqrt a * sqrt a)) by ring. rewrite sqrt_sqrt by lra. reflexivity.
Qed.
(** Angle between two places. *)
Definition angle (lon0 lat0 lon1 lat1 : R) : R := let a := a_val (lon1 - lon0) (lat1 - lat0) lat0 lat1 in 2 * arctan2 (sqrt a) (sqrt (1 - a)).
Lemma distance_angle : forall lon0 lat0 lon1 lat1, distance lon0 lat0 lon1 lat1 = RE * angle lon0 lat0 lon1 lat1.
Proof. intros. unfold distance, angle. cbn zeta. ring. Qed.
Lemma angle_facts : forall lon0 lat0 lon1 lat1, 0 <= angle lon0 lat0 lon1 lat1 <= PI /\ cos (angle lon0 lat0 lon1 lat1) = dot (place lon0 lat0) (place lon1 lat1).
Proof. intros. destruct (angle_of _ (a_val_range lon0 lat0 lon1 lat1)) as [A B]. unfold angle. cbn zeta. split; [exact A|]. rewrite B. pose proof (a_val_dot lon0 lat0 lon1 lat1). lra. Qed.
Lemma angle_eq : forall lon0 lat0 lon1 lat1 t, 0 <= t <= PI -> cos t = dot (place lon0 lat0) (place lon1 lat1) -> angle lon0 lat0 lon1 lat1 = t.
Proof. intros lon0 lat0 lon1 lat1 t T C. destruct (angle_facts lon0 lat0 lon1 lat1) as [A B]. apply cos_inj; [exact A|exact T|congruence]. Qed.
Lemma cos_le_inv : forall u v, 0 <= u <= PI -> 0 <= v <= PI -> cos u <= cos v -> v <= u.
Proof. intros u v U V C. destruct (Rle_lt_dec v u) as [H|H]; [exact H|]. pose proof (cos_decreasing_1 u v ltac:(lra) ltac:(lra) ltac:(lra) ltac:(lra) H). lra. Qed.
(** Triangle inequality of the angles. *)
Lemma gram : forall u v w, dot u u = 1 -> dot v v = 1 -> dot w w = 1 -> (dot u w - dot u v * dot v w) ^ 2 <= (1 - dot u v ^ 2) * (1 - dot v w ^ 2).
Proof.
  intros u v w U V W.
  set (p := dot u v). set (q := dot v w). set (r := dot u w).
  (* vectors u - p v and w - q v *)
  assert (CS : forall a b c x y z : R, (a * x + b * y + c * z) ^ 2 <= (a ^ 2 + b ^ 2 + c ^ 2) * (x ^ 2 + y ^ 2 + z ^ 2)).
  { intros a b c x y z. pose proof (pow2_ge_0 (a * y - b * x)). pose proof (pow2_ge_0 (a * z - c * x)). pose proof (pow2_ge_0 (b * z - c * y)). nra. }
  destruct u as [[u1 u2] u3], v as [[v1 v2] v3], w as [[w1 w2] w3]. pose proof (CS (u1 - p * v1) (u2 - p * v2) (u3 - p * v3) (w1 - q * v1) (w2 - q * v2) (w3 - q * v3)) as H.
  assert (E1 : (u1 - p * v1) * (w1 - q * v1) + (u2 - p * v2) * (w2 - q * v2) + (u3 - p * v3) * (w3 - q * v3) = r - p * q).
  { transitivity (r - q * p - p * q + p * q * (v1 * v1 + v2 * v2 + v3 * v3)); [unfold r, p, q, dot; ring|]. cbn in V. rewrite V. ring. }
  assert (E2 : (u1 - p * v1) ^ 2 + (u2 - p * v2) ^ 2 + (u3 - p * v3) ^ 2 = 1 - p ^ 2).
  { transitivity ((u1 * u1 + u2 * u2 + u3 * u3) - 2 * p * p + p ^ 2 * (v1 * v1 + v2 * v2 + v3 * v3)); [unfold p, dot; ring|]. cbn in U, V. rewrite U, V. ring. }
  assert (E3 : (w1 - q * v1) ^ 2 + (w2 - q * v2) ^ 2 + (w3 - q * v3) ^ 2 = 1 - q ^ 2).
  { transitivity ((w1 * w1 + w2 * w2 + w3 * w3) - 2 * q * q + q ^ 2 * (v1 * v1 + v2 * v2 + v3 * v3)); [unfold q, dot; ring|]. cbn in W, V. rewrite W, V. ring. }
  rewrite E1, E2, E3 in H. exact H.
Qed.
Lemma triangle : forall u v w a b c, dot u u = 1 -> dot v v = 1 -> dot w w = 1 -> 0 <= a <= PI -> 0 <= b <= PI -> 0 <= c <= PI -> cos a = dot u v -> cos b = dot v w -> cos c = dot u w -> c <= a + b.
Proof.
  intros u v w a b c U V W A B C CA CB CC. destruct (Rle_lt_dec PI (a + b)) as [H|H]; [lra|]. apply cos_le_inv; [lra|lra|]. rewrite cos_plus. pose proof (gram u v w U V W) as G. rewrite <- CA, <- CB, <- CC in G.
  pose proof (sc1 a). pose proof (sc1 b). assert (SA : 0 <= sin a) by (apply sin_ge_0; lra). assert (SB : 0 <= sin b) by (apply sin_ge_0; lra).
  assert (X : (cos c - cos a * cos b) ^ 2 <= (sin a * sin b) ^ 2). { replace ((sin a * sin b) ^ 2) with (sin a ^ 2 * sin b ^ 2) by ring. replace (sin a ^ 2) with (1 - cos a ^ 2) by lra. replace (sin b ^ 2) with (1 - cos b ^ 2) by lra. exact G. }
  assert (P : 0 <= sin a * sin b) by (apply Rmult_le_pos; assumption). nra.
Qed.
