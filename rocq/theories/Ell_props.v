(** Property C126: fit of an ellipse. *)
From Coq Require Import List Reals Lra Lia.
From Verif Require Import Ell_model.
Import ListNotations.
Local Open Scope R_scope.

(** ** Specification *)
Definition apply (r v : coefs) : R :=
  let '(a, b, c, d, e) := r in let '(a', b', c', d', e') := v in a * a' + b * b' + c * c' + d * d' + e * e'.
Definition cost (rows : list coefs) (z : list R) (v : coefs) : R :=
  fold_right Rplus 0 (map (fun q => (apply (fst q) v - snd q) ^ 2) (combine rows z)).
(** [lstsq] gives a solution of least squares for these rows. *)
Definition least_squares (lstsq : list coefs -> list R -> coefs) (rows : list coefs) (z : list R) : Prop :=
  forall v, cost rows z (lstsq rows z) <= cost rows z v.
(** Ellipse of centre (x0, y0) : p dx^2 + 2 q dx dy + r dy^2 = 1. *)
Definition on_ellipse (p q r x0 y0 : R) (m : pt) : Prop :=
  p * (fst m - x0) ^ 2 + 2 * q * (fst m - x0) * (snd m - y0) + r * (snd m - y0) ^ 2 = 1.
(** Where the origin is: positive inside the ellipse, negative outside. *)
Definition origin_side (p q r x0 y0 : R) : R := 1 - (p * x0 ^ 2 + 2 * q * x0 * y0 + r * y0 ^ 2).
(** No other conic goes through the points: the columns are independent. *)
Definition independent (l : list pt) : Prop := forall v, (forall m, In m l -> apply (row m) v = 0) -> v = (0, 0, 0, 0, 0).
Definition dist2 (m : pt) (x0 y0 : R) : R := (fst m - x0) ^ 2 + (snd m - y0) ^ 2.

Lemma cost_zero : forall l v, (forall m, In m l -> apply (row m) v = 1) -> cost (map row l) (map (fun _ => 1) l) v = 0.
Proof. induction l as [|m l IH]; intros v H; [reflexivity|]. cbn [map combine cost fold_right]. unfold cost in *. cbn [map combine fold_right fst snd]. rewrite IH by (intros; apply H; right; assumption). rewrite (H m) by (left; reflexivity). ring. Qed.
Lemma cost_pos : forall l v, 0 <= cost (map row l) (map (fun _ => 1) l) v.
Proof. induction l as [|m l IH]; intros v; [apply Rle_refl|]. unfold cost in *. cbn [map combine fold_right fst snd]. pose proof (pow2_ge_0 (apply (row m) v - 1)). pose proof (IH v). lra. Qed.
Lemma cost_null : forall l v, cost (map row l) (map (fun _ => 1) l) v <= 0 -> forall m, In m l -> apply (row m) v = 1.
Proof.
  induction l as [|m l IH]; intros v H k K; [contradiction|]. pose proof (cost_pos l v) as P. unfold cost in *. cbn [map combine fold_right fst snd] in H. pose proof (pow2_ge_0 (apply (row m) v - 1)) as Q. destruct K as [<-|K].
  - assert (Z : (apply (row m) v - 1) ^ 2 = 0) by lra. assert (apply (row m) v - 1 = 0) by nra. lra.
  - apply IH; [lra|exact K].
Qed.
(** The solution is the equation of the ellipse. *)
Lemma solution : forall lstsq l v, least_squares lstsq (map row l) (map (fun _ => 1) l) -> independent l -> (forall m, In m l -> apply (row m) v = 1) -> lstsq (map row l) (map (fun _ => 1) l) = v.
Proof.
  intros f l v LS I H. set (w := f _ _). assert (Z : forall m, In m l -> apply (row m) w = 1). { apply cost_null. eapply Rle_trans; [apply (LS v)|]. rewrite cost_zero by exact H. lra. }
  destruct v as [[[[a b] c] d] e]. destruct w as [[[[a' b'] c'] d'] e']. assert (N : (a' - a, b' - b, c' - c, d' - d, e' - e) = (0, 0, 0, 0, 0)). { apply I. intros m M. pose proof (Z m M) as Z1. pose proof (H m M) as Z2. unfold row, apply in *. lra. }
  injection N as N1 N2 N3 N4 N5. repeat f_equal; lra.
Qed.
Definition equation (p q r x0 y0 : R) : coefs :=
  let k := origin_side p q r x0 y0 in (p / k, 2 * q / k, r / k, - 2 * (p * x0 + q * y0) / k, - 2 * (q * x0 + r * y0) / k).
Lemma equation_on : forall p q r x0 y0 m, origin_side p q r x0 y0 <> 0 -> on_ellipse p q r x0 y0 m -> apply (row m) (equation p q r x0 y0) = 1.
Proof.
  intros p q r x0 y0 m K H. unfold equation. cbn zeta. set (k := origin_side p q r x0 y0) in *. assert (E : k = p * fst m ^ 2 + 2 * q * fst m * snd m + r * snd m ^ 2 - 2 * (p * x0 + q * y0) * fst m - 2 * (q * x0 + r * y0) * snd m) by (unfold on_ellipse in H; unfold k, origin_side; lra).
  unfold apply, row. apply (Rmult_eq_reg_r k); [|exact K]. rewrite Rmult_1_l. transitivity (p * fst m ^ 2 + 2 * q * fst m * snd m + r * snd m ^ 2 - 2 * (p * x0 + q * y0) * fst m - 2 * (q * x0 + r * y0) * snd m); [field; exact K|symmetry; exact E].
Qed.

(** ** Lengths of the axes *)
Section Axes.
Variables p q r : R.
Hypothesis P0 : 0 < p.
Hypothesis D0 : 0 < p * r - q ^ 2.
Hypothesis Q0 : q <> 0.
Definition s := sqrt ((p - r) ^ 2 + 4 * q ^ 2).
Definition hi := (p + r + s) / 2.
Definition lo := (p + r - s) / 2.
Lemma r_pos : 0 < r.
Proof. pose proof (pow2_ge_0 q). nra. Qed.
Lemma q2_pos : 0 < q ^ 2.
Proof. assert (q ^ 2 = q * q) by ring. destruct (Rtotal_order q 0) as [X|[X|X]]; [nra|contradiction|nra]. Qed.
Lemma s_sq : s ^ 2 = (p - r) ^ 2 + 4 * q ^ 2.
Proof. unfold s. apply pow2_sqrt. pose proof (pow2_ge_0 (p - r)). pose proof (pow2_ge_0 q). lra. Qed.
Lemma s_pos : 0 < s.
Proof. unfold s. apply sqrt_lt_R0. pose proof (pow2_ge_0 (p - r)). pose proof q2_pos. lra. Qed.
Lemma prod : lo * hi = p * r - q ^ 2.
Proof. unfold lo, hi. pose proof s_sq. nra. Qed.
Lemma hi_pos : 0 < hi.
Proof. unfold hi. pose proof s_pos. pose proof r_pos. lra. Qed.
Lemma lo_pos : 0 < lo.
Proof. pose proof prod. pose proof hi_pos. nra. Qed.
(** the quadratic form between both *)
Lemma form_bounds : forall x y, lo * (x ^ 2 + y ^ 2) <= p * x ^ 2 + 2 * q * x * y + r * y ^ 2 <= hi * (x ^ 2 + y ^ 2).
Proof.
  intros x y. pose proof s_sq as S2. pose proof s_pos as SP. pose proof q2_pos as QP. unfold lo, hi.
  assert (G : forall u v w, 0 < u -> u * w = v ^ 2 -> 0 <= u * x ^ 2 + 2 * v * x * y + w * y ^ 2). { intros u v w U W. assert (E : u * (u * x ^ 2 + 2 * v * x * y + w * y ^ 2) = (u * x + v * y) ^ 2) by (replace (u * (u * x ^ 2 + 2 * v * x * y + w * y ^ 2)) with (u ^ 2 * x ^ 2 + 2 * u * v * x * y + (u * w) * y ^ 2) by ring; rewrite W; ring). pose proof (pow2_ge_0 (u * x + v * y)). rewrite <- E in H. apply (Rmult_le_reg_l u); lra. }
  assert (AB : - s < p - r < s). { split; nra. }
  split.
  - assert (G1 := G ((p - r + s) / 2) q ((r - p + s) / 2) ltac:(lra) ltac:(nra)). lra.
  - assert (G1 := G ((r - p + s) / 2) (- q) ((p - r + s) / 2) ltac:(lra) ltac:(nra)). lra.
Qed.
(** directions of the axes *)
Lemma direction : forall t lam other, t = (lam - p) / q -> lam * lam - (p + r) * lam + (p * r - q ^ 2) = 0 -> lam + other = p + r -> 0 < lam -> 0 < other -> forall th, th = atan t ->
  (forall A, A ^ 2 = / lam -> p * (A * cos th) ^ 2 + 2 * q * (A * cos th) * (A * sin th) + r * (A * sin th) ^ 2 = 1) /\
  (forall B, B ^ 2 = / other -> p * (B * - sin th) ^ 2 + 2 * q * (B * - sin th) * (B * cos th) + r * (B * cos th) ^ 2 = 1).
Proof.
  intros t lam other T RT SU LP OP th TH. assert (CP : 0 < cos th) by (rewrite TH; destruct (atan_bound t); apply cos_gt_0; lra). assert (ST : sin th = t * cos th). { assert (X : tan th = t) by (rewrite TH; apply tan_atan). unfold tan in X. rewrite <- X. field. lra. }
  assert (E1 : p + q * t = lam) by (rewrite T; field; exact Q0). assert (E2 : q + r * t = lam * t). { rewrite T. apply (Rmult_eq_reg_r q); [|exact Q0]. replace ((q + r * ((lam - p) / q)) * q) with (q ^ 2 + r * (lam - p)) by (field; exact Q0). replace (lam * ((lam - p) / q) * q) with (lam * (lam - p)) by (field; exact Q0). lra. }
  pose proof (sin2_cos2 th) as SC. unfold Rsqr in SC. assert (M1 : p * cos th + q * sin th = lam * cos th) by (rewrite ST; rewrite <- E1; ring). assert (M2 : q * cos th + r * sin th = lam * sin th) by (rewrite ST; replace (q * cos th + r * (t * cos th)) with ((q + r * t) * cos th) by ring; rewrite E2; ring).
  split; intros A HA.
  - replace (p * (A * cos th) ^ 2 + 2 * q * (A * cos th) * (A * sin th) + r * (A * sin th) ^ 2) with (A ^ 2 * (cos th * (p * cos th + q * sin th) + sin th * (q * cos th + r * sin th))) by ring. rewrite M1, M2, HA. replace (cos th * (lam * cos th) + sin th * (lam * sin th)) with (lam * (sin th * sin th + cos th * cos th)) by ring. rewrite SC. field. lra.
  - assert (TR : p * sin th ^ 2 - 2 * q * sin th * cos th + r * cos th ^ 2 = other). { assert (X : cos th * (p * cos th + q * sin th) + sin th * (q * cos th + r * sin th) = lam) by (rewrite M1, M2; replace (cos th * (lam * cos th) + sin th * (lam * sin th)) with (lam * (sin th * sin th + cos th * cos th)) by ring; rewrite SC; ring). assert (Y : (p + r) * (sin th * sin th + cos th * cos th) = lam + other) by (rewrite SC; lra). lra. }
    replace (p * (A * - sin th) ^ 2 + 2 * q * (A * - sin th) * (A * cos th) + r * (A * cos th) ^ 2) with (A ^ 2 * (p * sin th ^ 2 - 2 * q * sin th * cos th + r * cos th ^ 2)) by ring. rewrite TR, HA. field. lra.
Qed.
End Axes.

(** ** The formulas of the code *)
Lemma sq_pos : forall z, z <> 0 -> 0 < z ^ 2.
Proof. intros z H. replace (z ^ 2) with (z * z) by ring. destruct (Rtotal_order z 0) as [X|[X|X]]; [nra|contradiction|nra]. Qed.
Lemma axis : forall D k sg det X, 0 < D -> k <> 0 -> 0 < sg -> det = - 4 * D / k ^ 2 -> X = 16 * D * sg / k ^ 4 -> exists S, root X = Some S /\ 0 < - S / det /\ (- S / det) ^ 2 = sg / D.
Proof.
  intros D k sg det X DP K SP E1 E2. assert (K2 : 0 < k ^ 2) by (apply sq_pos; exact K). assert (K4 : 0 < k ^ 4) by (replace (k ^ 4) with (k ^ 2 * k ^ 2) by ring; nra). assert (XP : 0 < X). { rewrite E2. apply Rmult_lt_0_compat; [nra|apply Rinv_0_lt_compat; exact K4]. }
  assert (DN : det < 0). { rewrite E1. unfold Rdiv. assert (0 < / k ^ 2) by (apply Rinv_0_lt_compat; exact K2). nra. }
  exists (sqrt X). unfold root. destruct (Rlt_dec X 0) as [Z|Z]; [lra|]. split; [reflexivity|]. pose proof (sqrt_lt_R0 X XP) as SX. split.
  - replace (- sqrt X / det) with (sqrt X * / (- det)) by (field; lra). apply Rmult_lt_0_compat; [exact SX|apply Rinv_0_lt_compat; lra].
  - replace ((- sqrt X / det) ^ 2) with (sqrt X ^ 2 / det ^ 2) by (field; lra). rewrite pow2_sqrt by lra. rewrite E1, E2. field. split; [lra|exact K].
Qed.
Section Code.
Variable lstsq : list coefs -> list R -> coefs.
Variables p q r x0 y0 : R.
Hypothesis P0 : 0 < p.
Hypothesis D0 : 0 < p * r - q ^ 2.
Variable l : list pt.
Hypothesis LS : least_squares lstsq (map row l) (map (fun _ => 1) l).
Hypothesis I : independent l.
Hypothesis O : forall m, In m l -> on_ellipse p q r x0 y0 m.
Let k := origin_side p q r x0 y0.
Hypothesis K : k <> 0.

Lemma sol : lstsq (map row l) (map (fun _ => 1) l) = equation p q r x0 y0.
Proof. apply solution; [exact LS|exact I|]. intros m M. apply equation_on; [exact K|apply O, M]. Qed.
Lemma det_val : (2 * q / k) ^ 2 - 4 * (p / k) * (r / k) = - 4 * (p * r - q ^ 2) / k ^ 2.
Proof. field. exact K. Qed.
Lemma det_neq : (2 * q / k) ^ 2 - 4 * (p / k) * (r / k) <> 0.
Proof. rewrite det_val. unfold Rdiv. apply Rmult_integral_contrapositive. split; [lra|]. apply Rinv_neq_0_compat. apply pow_nonzero. exact K. Qed.
Lemma x0_val : (2 * (r / k) * (-2 * (p * x0 + q * y0) / k) - 2 * q / k * (-2 * (q * x0 + r * y0) / k)) / ((2 * q / k) ^ 2 - 4 * (p / k) * (r / k)) = x0.
Proof. rewrite det_val. field. split; [exact K|lra]. Qed.
Lemma y0_val : (2 * (p / k) * (-2 * (q * x0 + r * y0) / k) - 2 * q / k * (-2 * (p * x0 + q * y0) / k)) / ((2 * q / k) ^ 2 - 4 * (p / k) * (r / k)) = y0.
Proof. rewrite det_val. field. split; [exact K|lra]. Qed.
Lemma ab1_val : 2 * (p / k * (-2 * (q * x0 + r * y0) / k) ^ 2 + r / k * (-2 * (p * x0 + q * y0) / k) ^ 2 - 2 * q / k * (-2 * (p * x0 + q * y0) / k) * (-2 * (q * x0 + r * y0) / k) - ((2 * q / k) ^ 2 - 4 * (p / k) * (r / k))) = 8 * (p * r - q ^ 2) / k ^ 3.
Proof.
  assert (E : p * x0 ^ 2 + 2 * q * x0 * y0 + r * y0 ^ 2 = 1 - k) by (unfold k, origin_side; ring).
  transitivity (8 * (p * r - q ^ 2) * ((p * x0 ^ 2 + 2 * q * x0 * y0 + r * y0 ^ 2) + k) / k ^ 3); [field; exact K|rewrite E; field; exact K].
Qed.
Lemma ab3_val : sqrt ((p / k - r / k) ^ 2 + (2 * q / k) ^ 2) = s p q r / Rabs k.
Proof.
  assert (AK : 0 < Rabs k) by (apply Rabs_pos_lt; exact K). assert (A2 : Rabs k ^ 2 = k ^ 2) by (apply pow2_abs).
  assert (SN : 0 <= s p q r) by apply sqrt_pos. rewrite <- (sqrt_pow2 (s p q r / Rabs k)); [f_equal|].
  - replace ((s p q r / Rabs k) ^ 2) with (s p q r ^ 2 / Rabs k ^ 2) by (field; lra). rewrite A2, (s_sq p q r). field. exact K.
  - apply Rmult_le_pos; [exact SN|left; apply Rinv_0_lt_compat; exact AK].
Qed.
End Code.

(** ** Property C126 *)
(** Points of an ellipse, whose axes are not those of the coordinates and which does not go
    through the origin: the centre is its centre; theta is the direction of an axis of half
    length A, the other one is of half length B.  A is the greatest distance to the centre
    and B the smallest when the origin is inside the ellipse, and the other way round when
    the origin is outside. *)
Theorem C126_exact : forall lstsq p q r x0 y0 l,
  0 < p -> 0 < p * r - q ^ 2 -> q <> 0 -> origin_side p q r x0 y0 <> 0 ->
  (forall m, In m l -> on_ellipse p q r x0 y0 m) -> independent l ->
  least_squares lstsq (map row l) (map (fun _ => 1) l) ->
  exists A B theta, fit_ellipse lstsq l = Some (x0, y0, A, B, theta) /\ 0 < A /\ 0 < B /\ - PI / 2 < theta < PI / 2 /\
    on_ellipse p q r x0 y0 (x0 + A * cos theta, y0 + A * sin theta) /\
    on_ellipse p q r x0 y0 (x0 + B * - sin theta, y0 + B * cos theta) /\
    (forall m, on_ellipse p q r x0 y0 m ->
       (0 < origin_side p q r x0 y0 -> B ^ 2 <= dist2 m x0 y0 <= A ^ 2) /\
       (origin_side p q r x0 y0 < 0 -> A ^ 2 <= dist2 m x0 y0 <= B ^ 2)).
Proof.
  intros f p q r x0 y0 l P0 D0 Q0 K O I LS. pose proof (sol f p q r x0 y0 l LS I O K) as E. unfold equation in E. cbn zeta in E. unfold fit_ellipse. rewrite E. clear E.
  pose proof (det_neq p q r x0 y0 D0 K) as DN. pose proof (det_val p q r x0 y0 K) as DV. pose proof (ab1_val p q r x0 y0 K) as A1. pose proof (ab3_val p q r x0 y0 K) as A3. pose proof (x0_val p q r x0 y0 D0 K) as XV. pose proof (y0_val p q r x0 y0 D0 K) as YV.
  set (k := origin_side p q r x0 y0) in *. rewrite A1, A3, XV, YV. destruct (Req_EM_T _ 0) as [Z|_]; [contradiction|].
  set (det := (2 * q / k) ^ 2 - 4 * (p / k) * (r / k)) in *. clearbody det.
  pose proof (lo_pos p q r P0 D0 Q0) as LP. pose proof (hi_pos p q r P0 D0 Q0) as HP. pose proof (prod p q r) as PR. pose proof (form_bounds p q r Q0) as FB.
  assert (B0 : 2 * q / k <> 0) by (unfold Rdiv; apply Rmult_integral_contrapositive; split; [lra|apply Rinv_neq_0_compat; exact K]).
  assert (SB : forall m, on_ellipse p q r x0 y0 m -> / hi p q r <= dist2 m x0 y0 <= / lo p q r).
  { intros m M. pose proof (FB (fst m - x0) (snd m - y0)) as [F1 F2]. unfold on_ellipse in M. unfold dist2. set (d2 := (fst m - x0) ^ 2 + (snd m - y0) ^ 2) in *. rewrite M in F1, F2. split.
    - apply (Rmult_le_reg_l (hi p q r)); [exact HP|]. rewrite Rinv_r by lra. exact F2.
    - apply (Rmult_le_reg_l (lo p q r)); [exact LP|]. rewrite Rinv_r by lra. exact F1. }
  assert (SH : forall u v, on_ellipse p q r x0 y0 (x0 + u, y0 + v) <-> p * u ^ 2 + 2 * q * u * v + r * v ^ 2 = 1).
  { intros u v. unfold on_ellipse. cbn [fst snd]. replace (x0 + u - x0) with u by ring. replace (y0 + v - y0) with v by ring. reflexivity. }
  assert (QL : forall lam, lam = lo p q r \/ lam = hi p q r -> lam * lam - (p + r) * lam + (p * r - q ^ 2) = 0). { pose proof (s_sq p q r) as SS. unfold lo, hi. intros lam [->| ->]; nra. }
  destruct (Rlt_dec 0 k) as [KP|KP].
  - rewrite (Rabs_right k) by lra.
    destruct (axis (p * r - q ^ 2) k (hi p q r) det (8 * (p * r - q ^ 2) / k ^ 3 * (p / k + r / k + s p q r / k)) D0 K HP DV) as (S1 & R1 & A0 & AS). { unfold hi. field. exact K. }
    destruct (axis (p * r - q ^ 2) k (lo p q r) det (8 * (p * r - q ^ 2) / k ^ 3 * (p / k + r / k - s p q r / k)) D0 K LP DV) as (S2 & R2 & B1 & BS). { unfold lo. field. exact K. }
    rewrite R1, R2. destruct (Req_EM_T _ 0) as [Z|_]; [contradiction|]. eexists _, _, _. split; [reflexivity|]. rewrite <- PR in AS, BS.
    replace (hi p q r / (lo p q r * hi p q r)) with (/ lo p q r) in AS by (field; lra). replace (lo p q r / (lo p q r * hi p q r)) with (/ hi p q r) in BS by (field; lra).
    destruct (direction p q r Q0 ((r / k - p / k - s p q r / k) / (2 * q / k)) (lo p q r) (hi p q r)) with (th := atan ((r / k - p / k - s p q r / k) / (2 * q / k))) as [D1 D2]; [unfold lo; field; split; assumption|apply QL; left; reflexivity|unfold lo, hi; field|exact LP|exact HP|reflexivity|].
    split; [exact A0|]. split; [exact B1|]. split; [destruct (atan_bound ((r / k - p / k - s p q r / k) / (2 * q / k))); split; lra|]. split; [apply SH, D1, AS|]. split; [apply SH, D2, BS|].
    intros m M. rewrite AS, BS. split; [intros _; apply SB, M|lra].
  - rewrite (Rabs_left k) by (destruct (Rtotal_order k 0) as [?|[?|?]]; [assumption|contradiction|lra]).
    destruct (axis (p * r - q ^ 2) k (lo p q r) det (8 * (p * r - q ^ 2) / k ^ 3 * (p / k + r / k + s p q r / - k)) D0 K LP DV) as (S1 & R1 & A0 & AS). { unfold lo. field. exact K. }
    destruct (axis (p * r - q ^ 2) k (hi p q r) det (8 * (p * r - q ^ 2) / k ^ 3 * (p / k + r / k - s p q r / - k)) D0 K HP DV) as (S2 & R2 & B1 & BS). { unfold hi. field. exact K. }
    rewrite R1, R2. destruct (Req_EM_T _ 0) as [Z|_]; [contradiction|]. eexists _, _, _. split; [reflexivity|]. rewrite <- PR in AS, BS.
    replace (hi p q r / (lo p q r * hi p q r)) with (/ lo p q r) in BS by (field; lra). replace (lo p q r / (lo p q r * hi p q r)) with (/ hi p q r) in AS by (field; lra).
    destruct (direction p q r Q0 ((r / k - p / k - s p q r / - k) / (2 * q / k)) (hi p q r) (lo p q r)) with (th := atan ((r / k - p / k - s p q r / - k) / (2 * q / k))) as [D1 D2]; [unfold hi; field; split; assumption|apply QL; right; reflexivity|unfold lo, hi; field|exact HP|exact LP|reflexivity|].
    split; [exact A0|]. split; [exact B1|]. split; [destruct (atan_bound ((r / k - p / k - s p q r / - k) / (2 * q / k))); split; lra|]. split; [apply SH, D1, AS|]. split; [apply SH, D2, BS|].
    intros m M. rewrite AS, BS. split; [intros; contradiction|intros _; apply SB, M].
Qed.
Print Assumptions C126_exact.

(** Points of an ellipse which goes through the origin: the rows are dependent, and the sum
    of squares does not change along a whole line of coefficients: the fit is not defined by
    the points. *)
Theorem C126_origin_refuted : forall p q r x0 y0 l, 0 < p -> origin_side p q r x0 y0 = 0 -> (forall m, In m l -> on_ellipse p q r x0 y0 m) ->
  ~ independent l /\
  forall a b c d e t, cost (map row l) (map (fun _ => 1) l) (a + t * p, b + t * (2 * q), c + t * r, d - t * 2 * (p * x0 + q * y0), e - t * 2 * (q * x0 + r * y0)) = cost (map row l) (map (fun _ => 1) l) (a, b, c, d, e).
Proof.
  intros p q r x0 y0 l P0 K O.
  assert (Z : forall m, In m l -> apply (row m) (p, 2 * q, r, - 2 * (p * x0 + q * y0), - 2 * (q * x0 + r * y0)) = 0). { intros m M. specialize (O m M). unfold on_ellipse in O. unfold origin_side in K. unfold apply, row. lra. }
  split.
  - intros I. specialize (I _ Z). injection I as I1. lra.
  - intros a b c d e t. clear O. unfold cost. induction l as [|m l' IH]; [reflexivity|]. cbn [map combine fold_right fst snd]. rewrite IH by (intros; apply Z; right; assumption). f_equal. f_equal. f_equal. specialize (Z m (or_introl eq_refl)). unfold apply, row in *.
    replace (fst m ^ 2 * (a + t * p) + fst m * snd m * (b + t * (2 * q)) + snd m ^ 2 * (c + t * r) + fst m * (d - t * 2 * (p * x0 + q * y0)) + snd m * (e - t * 2 * (q * x0 + r * y0))) with (fst m ^ 2 * a + fst m * snd m * b + snd m ^ 2 * c + fst m * d + snd m * e + t * (fst m ^ 2 * p + fst m * snd m * (2 * q) + snd m ^ 2 * r + fst m * (-2 * (p * x0 + q * y0)) + snd m * (-2 * (q * x0 + r * y0)))) by ring. rewrite Z. ring.
Qed.
Print Assumptions C126_origin_refuted.

(** Ellipses whose axes are those of the coordinates (and circles): the function stops on a
    division by zero. *)
Theorem C126_straight_refuted : forall lstsq p r x0 y0 l,
  0 < p -> 0 < r -> origin_side p 0 r x0 y0 <> 0 -> (forall m, In m l -> on_ellipse p 0 r x0 y0 m) -> independent l ->
  least_squares lstsq (map row l) (map (fun _ => 1) l) -> fit_ellipse lstsq l = None.
Proof.
  intros f p r x0 y0 l P0 R0 K O I LS. pose proof (sol f p 0 r x0 y0 l LS I O K) as E. unfold equation in E. cbn zeta in E. unfold fit_ellipse. rewrite E. destruct (Req_EM_T _ 0); [reflexivity|]. destruct (root _); [|reflexivity]. destruct (root _); [|reflexivity]. destruct (Req_EM_T _ 0) as [|N]; [reflexivity|]. exfalso. apply N. field. exact K.
Qed.
Print Assumptions C126_straight_refuted.

(** Cases *)
Definition six (dx : R) : list pt := [(1 + dx, 0); (-1 + dx, 0); (0 + dx, 1); (0 + dx, -1); (1 + dx, -1); (-1 + dx, 1)].
Lemma six_on : forall dx m, In m (six dx) -> on_ellipse 1 (1 / 2) 1 dx 0 m.
Proof. intros dx m H. repeat destruct H as [<-|H]; try contradiction; unfold on_ellipse; cbn [fst snd]; field. Qed.
Lemma six_independent : forall dx, dx ^ 2 <> 1 -> independent (six dx).
Proof.
  intros dx N [[[[a b] c] d] e] H. pose proof (H (1 + dx, 0) ltac:(cbn; tauto)) as H1. pose proof (H (-1 + dx, 0) ltac:(cbn; tauto)) as H2. pose proof (H (0 + dx, 1) ltac:(cbn; tauto)) as H3. pose proof (H (0 + dx, -1) ltac:(cbn; tauto)) as H4. pose proof (H (1 + dx, -1) ltac:(cbn; tauto)) as H5. pose proof (H (-1 + dx, 1) ltac:(cbn; tauto)) as H6.
  unfold apply, row in *. cbn [fst snd] in *. assert (D : d = - 2 * dx * a) by lra. assert (A : (1 - dx ^ 2) * a = 0). { subst d. lra. } apply Rmult_integral in A. destruct A as [A|A]; [exfalso; lra|]. subst a. assert (d = 0) by lra. subst d. assert (C : c = 0) by lra. subst c. assert (B : b = 0) by lra. subst b. assert (e = 0) by lra. subst e. repeat f_equal. lra.
Qed.
(** A tilted ellipse around the origin, and the same one further east: the first axis given
    is the long one, then the short one. *)
Example C126_cases :
  (exists A B th, fit_ellipse (fun _ _ => equation 1 (1 / 2) 1 0 0) (six 0) = Some (0, 0, A, B, th) /\ B ^ 2 <= 2 / 3 /\ 2 <= A ^ 2) /\
  (exists A B th, fit_ellipse (fun _ _ => equation 1 (1 / 2) 1 10 0) (six 10) = Some (10, 0, A, B, th) /\ A ^ 2 <= 2 / 3 /\ 2 <= B ^ 2).
Proof.
  assert (LS : forall dx, origin_side 1 (1 / 2) 1 dx 0 <> 0 -> least_squares (fun _ _ => equation 1 (1 / 2) 1 dx 0) (map row (six dx)) (map (fun _ => 1) (six dx))).
  { intros dx K v. rewrite cost_zero; [apply cost_pos|]. intros m M. apply equation_on; [exact K|apply six_on, M]. }
  assert (S2 : sqrt (2 / 3) ^ 2 = 2 / 3) by (apply pow2_sqrt; lra). assert (S3 : sqrt (1 / 3) ^ 2 = 1 / 3) by (apply pow2_sqrt; lra).
  split.
  - destruct (C126_exact (fun _ _ => equation 1 (1 / 2) 1 0 0) 1 (1 / 2) 1 0 0 (six 0)) as (A & B & th & E & _ & _ & _ & _ & _ & X); try lra; [unfold origin_side; lra|apply six_on|apply six_independent; lra|apply LS; unfold origin_side; lra|].
    exists A, B, th. split; [exact E|]. destruct (X (1, -1)) as [X1 _]; [unfold on_ellipse; cbn [fst snd]; field|]. destruct (X (sqrt (1 / 3), sqrt (1 / 3))) as [X2 _]; [unfold on_ellipse; cbn [fst snd]; nra|]. specialize (X1 ltac:(unfold origin_side; lra)). specialize (X2 ltac:(unfold origin_side; lra)). unfold dist2 in *. cbn [fst snd] in *. split; nra.
  - destruct (C126_exact (fun _ _ => equation 1 (1 / 2) 1 10 0) 1 (1 / 2) 1 10 0 (six 10)) as (A & B & th & E & _ & _ & _ & _ & _ & X); try lra; [unfold origin_side; lra|apply six_on|apply six_independent; lra|apply LS; unfold origin_side; lra|].
    exists A, B, th. split; [exact E|]. destruct (X (11, -1)) as [_ X1]; [unfold on_ellipse; cbn [fst snd]; field|]. destruct (X (10 + sqrt (1 / 3), sqrt (1 / 3))) as [_ X2]; [unfold on_ellipse; cbn [fst snd]; nra|]. specialize (X1 ltac:(unfold origin_side; lra)). specialize (X2 ltac:(unfold origin_side; lra)). unfold dist2 in *. cbn [fst snd] in *. split; nra.
Qed.

(** The same ellipse with the origin on it. *)
Example C126_case_origin : ~ independent (six 1).
Proof. apply (C126_origin_refuted 1 (1 / 2) 1 1 0 (six 1)); [lra|unfold origin_side; lra|apply six_on]. Qed.
(** A circle. *)
Definition five : list pt := [(1, 0); (-1, 0); (0, 1); (0, -1); (3 / 5, 4 / 5)].
Example C126_case_circle : fit_ellipse (fun _ _ => equation 1 0 1 0 0) five = None.
Proof.
  assert (O : forall m, In m five -> on_ellipse 1 0 1 0 0 m). { intros m H. repeat destruct H as [<-|H]; try contradiction; unfold on_ellipse; cbn [fst snd]; field. }
  apply (C126_straight_refuted _ 1 1 0 0); [lra|lra|unfold origin_side; lra|exact O| |].
  - intros [[[[a b] c] d] e] H. pose proof (H (1, 0) ltac:(cbn; tauto)) as H1. pose proof (H (-1, 0) ltac:(cbn; tauto)) as H2. pose proof (H (0, 1) ltac:(cbn; tauto)) as H3. pose proof (H (0, -1) ltac:(cbn; tauto)) as H4. pose proof (H (3 / 5, 4 / 5) ltac:(cbn; tauto)) as H5. unfold apply, row in *. cbn [fst snd] in *. repeat f_equal; lra.
  - intros v. rewrite cost_zero; [apply cost_pos|]. intros m M. apply equation_on; [unfold origin_side; lra|apply O, M].
Qed.
