(** Property C125: weights of the filters. *)
From Coq Require Import List Arith Bool ZArith Reals Lra Lia.
From Verif Require Import Base Sph_model Sph_proofs Sph_props Kwgt_model.
Import ListNotations.
Local Open Scope R_scope.

Lemma ceil_bounds : forall x, IZR (ceilR x) - 1 < x <= IZR (ceilR x).
Proof. intros x. unfold ceilR. rewrite opp_IZR. destruct (base_Int_part (- x)). lra. Qed.
Lemma ceil_unique : forall x z, IZR z - 1 < x <= IZR z -> ceilR x = z.
Proof. intros x z H. pose proof (ceil_bounds x) as B. assert (A1 : IZR (ceilR x) < IZR (z + 1)) by (rewrite plus_IZR; lra). assert (A2 : IZR z < IZR (ceilR x + 1)) by (rewrite plus_IZR; lra). apply lt_IZR in A1. apply lt_IZR in A2. lia. Qed.
Lemma INR_to_nat : forall z, (0 <= z)%Z -> INR (Z.to_nat z) = IZR z.
Proof. intros z H. rewrite INR_IZR_INZ, Z2Nat.id by exact H. reflexivity. Qed.
(** [arange] with a margin of one hundredth of step *)
Lemma arange_spec : forall a n s, 0 < s -> (0 <= n)%Z -> let l := arange a (a + s * IZR n + 1 / 100 * s) s in
  length l = S (Z.to_nat n) /\ forall i, (i < S (Z.to_nat n))%nat -> nth i l 0 = a + INR i * s.
Proof.
  intros a n s S0 N l. assert (C : ceilR ((a + s * IZR n + 1 / 100 * s - a) / s) = (n + 1)%Z). { apply ceil_unique. replace ((a + s * IZR n + 1 / 100 * s - a) / s) with (IZR n + 1 / 100) by (field; lra). rewrite plus_IZR. lra. }
  assert (L : length l = S (Z.to_nat n)) by (unfold l, arange; rewrite map_length, seq_length, C; lia). split; [exact L|]. intros i I. unfold l, arange. rewrite C. rewrite (nth_indep _ 0 ((fun i => a + INR i * s) 0%nat)) by (rewrite map_length, seq_length; lia). rewrite (map_nth (fun i => a + INR i * s)). rewrite seq_nth by lia. reflexivity.
Qed.
Lemma nth_map_combine : forall {A B} (f : nat -> A -> B) (l : list A) i d e, (i < length l)%nat -> nth i (map (fun '(i, a) => f i a) (combine (seq 0 (length l)) l)) e = f i (nth i l d).
Proof.
  intros A B f l i d e I. set (g := fun q : nat * A => f (fst q) (snd q)). rewrite (map_ext (fun '(i, a) => f i a) g) by (intros [x y]; reflexivity). rewrite (nth_indep _ e (g (0%nat, d))) by (rewrite map_length, combine_length, seq_length; lia). rewrite map_nth. rewrite combine_nth by (rewrite seq_length; reflexivity). unfold g. cbn [fst snd]. rewrite seq_nth by exact I. reflexivity.
Qed.

(** ** Specification *)
(** Size of a cell in kilometres at a latitude. *)
Definition km_x (xstep lat : R) : R := xstep * distance 0 lat 1 lat / 1000.
Definition km_y (ystep : R) : R := ystep * distance 0 0 0 1 / 1000.
(** Distance to the centre of the cell [i] steps of longitude and [j - c] steps of
    latitude away, in wave lengths. *)
Definition norm (xstep ystep lat wave : R) (c i j : nat) : R :=
  distance 0 lat (INR i * xstep) (lat + (INR j - INR c) * ystep) / 1000 / wave.
(** Half of a kernel: columns from the centre to the east; all the cells have the
    weight of their distance, null over the order. *)
Definition half_kernel (xstep ystep lat wave : R) (order hx hy : nat) (w : bool -> R -> R) (k : list (list R)) : Prop :=
  INR (hx - 1) * km_x xstep lat < wave <= INR hx * km_x xstep lat /\
  INR (hy - 1) * km_y ystep < wave <= INR hy * km_y ystep /\ (2 <= hx)%nat /\ (2 <= hy)%nat /\
  length k = S (hx * order) /\
  forall i, (i <= hx * order)%nat -> length (nth i k []) = S (2 * (hy * order)) /\
  forall j, (j <= 2 * (hy * order))%nat -> let d := norm xstep ystep lat wave (hy * order) i j in
    (INR order < d -> nth j (nth i k []) 0 = 0) /\
    (d <= INR order -> nth j (nth i k []) 0 = w ((i =? 0)%nat && (j =? hy * order)%nat) d).

Lemma kernel_spec : forall xstep ystep weight lat wave (order : R) res, 0 < xstep -> 0 < ystep -> kernel xstep ystep weight lat wave order = Some res ->
  exists o hx hy k, res = (Z.of_nat hx, Z.of_nat hy, k) /\ (1 <= o)%nat /\ INR o - 1 < order <= INR o /\
    half_kernel xstep ystep lat wave o hx hy (weight (Z.of_nat o)) k.
Proof.
  intros xs ys weight lat wave order res X0 Y0 H. unfold kernel in H. set (oz := check_order order) in *. destruct (Z.ltb_spec oz 1) as [|O1]; [discriminate H|]. unfold estimate_kernel_shape, get_step_in_km in H. fold (km_x xs lat) in H. fold (km_y ys) in H.
  destruct (Rlt_dec wave (Rmax (km_x xs lat) (km_y ys) * 2)) as [|W]; [discriminate H|]. cbn [bind] in H. destruct (Req_EM_T (km_x xs lat) 0) as [|KX]; [discriminate H|]. destruct (Req_EM_T (km_y ys) 0) as [|KY]; [discriminate H|]. cbn [bind] in H.
  assert (DX : 0 <= km_x xs lat). { unfold km_x. destruct (C122_metric 0 lat 1 lat 0 0) as [[D _] _]. assert (0 <= xs * distance 0 lat 1 lat) by nra. lra. }
  assert (DY : 0 <= km_y ys). { unfold km_y. destruct (C122_metric 0 0 0 1 0 0) as [[D _] _]. assert (0 <= ys * distance 0 0 0 1) by nra. lra. }
  set (sx := km_x xs lat) in *. set (sy := km_y ys) in *. assert (PX : 0 < sx) by lra. assert (PY : 0 < sy) by lra. pose proof (Rmax_l sx sy) as ML. pose proof (Rmax_r sx sy) as MR.
  set (hx := ceilR (wave / sx)) in *. set (hy := ceilR (wave / sy)) in *. pose proof (ceil_bounds (wave / sx)) as BX. fold hx in BX. pose proof (ceil_bounds (wave / sy)) as BY. fold hy in BY.
  assert (EX : wave / sx * sx = wave) by (field; lra). assert (EY : wave / sy * sy = wave) by (field; lra).
  assert (HX2 : (2 <= hx)%Z). { apply le_IZR. assert (2 <= wave / sx) by nra. lra. } assert (HY2 : (2 <= hy)%Z). { apply le_IZR. assert (2 <= wave / sy) by nra. lra. }
  exists (Z.to_nat oz), (Z.to_nat hx), (Z.to_nat hy). set (o := Z.to_nat oz). assert (Oz : Z.of_nat o = oz) by (unfold o; rewrite Z2Nat.id; lia). assert (Io : INR o = IZR oz) by (apply INR_to_nat; lia). assert (Ix : INR (Z.to_nat hx) = IZR hx) by (apply INR_to_nat; lia). assert (Iy : INR (Z.to_nat hy) = IZR hy) by (apply INR_to_nat; lia).
  assert (CC : Z.to_nat (hy * oz) = (Z.to_nat hy * o)%nat) by (unfold o; rewrite Z2Nat.inj_mul by lia; reflexivity). assert (CX : Z.to_nat (hx * oz) = (Z.to_nat hx * o)%nat) by (unfold o; rewrite Z2Nat.inj_mul by lia; reflexivity).
  replace (xs * IZR hx * IZR oz + 1 / 100 * xs) with (0 + xs * IZR (hx * oz) + 1 / 100 * xs) in H by (rewrite mult_IZR; ring).
  replace (lat + ys * IZR hy * IZR oz + 1 / 100 * ys) with ((lat - ys * IZR hy * IZR oz) + ys * IZR (2 * (hy * oz)) + 1 / 100 * ys) in H by (rewrite !mult_IZR; ring).
  destruct (arange_spec 0 (hx * oz) xs X0 ltac:(lia)) as [LX NX]. destruct (arange_spec (lat - ys * IZR hy * IZR oz) (2 * (hy * oz)) ys Y0 ltac:(lia)) as [LY NY]. cbn zeta in LX, NX, LY, NY. set (x := arange 0 _ xs) in *. set (y := arange (lat - ys * IZR hy * IZR oz) _ ys) in *. rewrite CX in LX, NX. replace (Z.to_nat (2 * (hy * oz))) with (2 * (Z.to_nat hy * o))%nat in LY, NY by (rewrite <- CC; lia).
  rewrite CC in H. set (dist := map (fun x0 => map (fun y0 => distance 0 lat x0 y0 / 1000 / wave) y) x) in *. eexists. split; [rewrite !Z2Nat.id by lia; apply Some_inj in H; symmetry; exact H|]. split; [unfold o; lia|]. split; [rewrite Io; apply ceil_bounds|].
  assert (LD : length dist = S (Z.to_nat hx * o)) by (unfold dist; rewrite map_length; exact LX).
  split. { fold sx. rewrite minus_INR by lia. rewrite Ix. cbn [INR]. split; nra. } split. { fold sy. rewrite minus_INR by lia. rewrite Iy. cbn [INR]. split; nra. }
  split; [lia|]. split; [lia|]. split; [rewrite map_length, combine_length, seq_length; lia|]. intros i I.
  assert (RI : nth i dist [] = map (fun y0 => distance 0 lat (INR i * xs) y0 / 1000 / wave) y). { unfold dist. rewrite (nth_indep _ [] ((fun x0 => map (fun y0 => distance 0 lat x0 y0 / 1000 / wave) y) 0)) by (rewrite map_length; lia). rewrite (map_nth (fun x0 => map (fun y0 => distance 0 lat x0 y0 / 1000 / wave) y)). rewrite NX by lia. rewrite Rplus_0_l. reflexivity. }
  match goal with |- context [nth i (map ?f (combine _ dist)) []] => set (F := f) end.
  assert (NI : nth i (map F (combine (seq 0 (length dist)) dist)) [] = F (i, nth i dist [])). { unfold F. apply (nth_map_combine (fun i row => map (fun '(j, d) => if Rlt_dec (IZR oz) d then 0 else weight oz ((i =? 0)%nat && (j =? Z.to_nat hy * o)%nat) d) (combine (seq 0 (length row)) row)) dist i [] []). lia. }
  rewrite NI. unfold F. rewrite RI. set (row := map (fun y0 => distance 0 lat (INR i * xs) y0 / 1000 / wave) y). assert (LR : length row = S (2 * (Z.to_nat hy * o))) by (unfold row; rewrite map_length; exact LY). split; [rewrite map_length, combine_length, seq_length; lia|]. intros j J.
  assert (RJ : nth j row 0 = norm xs ys lat wave (Z.to_nat hy * o) i j). { unfold row. rewrite (nth_indep _ 0 ((fun y0 => distance 0 lat (INR i * xs) y0 / 1000 / wave) 0)) by (rewrite map_length; lia). rewrite (map_nth (fun y0 => distance 0 lat (INR i * xs) y0 / 1000 / wave)). rewrite NY by lia. unfold norm. rewrite mult_INR, Iy, Io. f_equal. f_equal. f_equal. ring. }
  rewrite (nth_map_combine (fun j d => if Rlt_dec (IZR oz) d then 0 else weight oz ((i =? 0)%nat && (j =? Z.to_nat hy * o)%nat) d) row j 0 0) by lia. rewrite RJ. cbn zeta. rewrite Oz, Io. set (d := norm xs ys lat wave (Z.to_nat hy * o) i j). destruct (Rlt_dec (IZR oz) d) as [Q|Q]; split; intros Z0; try lra; reflexivity.
Qed.
(** ** Theorems *)
(** The three kernels: sizes, and weight of every cell.  A wave length below two cells is
    refused. *)
Theorem C125_kernels : forall xstep ystep lat wave order, 0 < xstep -> 0 < ystep ->
  (forall hx hy k, kernel_lanczos xstep ystep lat wave order = Some (hx, hy, k) -> exists o, INR o - 1 < order <= INR o /\ (1 <= o)%nat /\ (0 <= hx)%Z /\ (0 <= hy)%Z /\
     half_kernel xstep ystep lat wave o (Z.to_nat hx) (Z.to_nat hy) (fun _ d => sinc (d / INR o) * sinc d) k) /\
  (forall hx hy k, kernel_loess xstep ystep lat wave order = Some (hx, hy, k) -> exists o, INR o - 1 < order <= INR o /\ (1 <= o)%nat /\ (0 <= hx)%Z /\ (0 <= hy)%Z /\
     half_kernel xstep ystep lat wave o (Z.to_nat hx) (Z.to_nat hy) (fun _ d => (1 - Rabs d ^ 3) ^ 3) k) /\
  (forall j1 hx hy k, kernel_bessel xstep ystep j1 lat wave order = Some (hx, hy, k) -> exists o, INR o - 1 < order <= INR o /\ (1 <= o)%nat /\ (0 <= hx)%Z /\ (0 <= hy)%Z /\
     half_kernel xstep ystep lat wave o (Z.to_nat hx) (Z.to_nat hy) (fun centre d => if centre then PI else sinc (d / INR o) * j1 (2 * PI * d) / d) k).
Proof.
  intros xs ys lat wave order X0 Y0.
  split; [|split]; intros.
  all: match goal with H : _ = Some (?hx, ?hy, ?k) |- _ => destruct (kernel_spec _ _ _ _ _ _ _ X0 Y0 H) as (o & nx & ny & k' & E & O & OB & K) end; injection E as -> -> ->; exists o; split; [exact OB|]; split; [exact O|]; split; [lia|]; split; [lia|]; rewrite !Nat2Z.id; cbv beta in K; pose proof (INR_IZR_INZ o) as IO; try rewrite <- IO in K; exact K.
Qed.
Print Assumptions C125_kernels.
(** When a kernel exists: order above 0, wave length of two cells at least, latitude
    within the poles. *)
Theorem C125_defined : forall xstep ystep lat wave order, 0 < xstep -> 0 < ystep -> -90 < lat < 90 ->
  (kernel_loess xstep ystep lat wave order = None <-> order <= 0 \/ wave < 2 * km_x xstep lat \/ wave < 2 * km_y ystep) /\
  (kernel_lanczos xstep ystep lat wave order = None <-> order <= 0 \/ wave < 2 * km_x xstep lat \/ wave < 2 * km_y ystep) /\
  (forall j1, kernel_bessel xstep ystep j1 lat wave order = None <-> order <= 0 \/ wave < 2 * km_x xstep lat \/ wave < 2 * km_y ystep).
Proof.
  intros xs ys lat wave order X0 Y0 L. assert (G : forall weight, kernel xs ys weight lat wave order = None <-> order <= 0 \/ wave < 2 * km_x xs lat \/ wave < 2 * km_y ys); [|split; [apply G|split; [apply G|intros; apply G]]].
  intros weight. unfold kernel, estimate_kernel_shape, get_step_in_km. fold (km_x xs lat). fold (km_y ys). pose proof (ceil_bounds order) as OB. fold (check_order order) in OB. pose proof (Rmax_l (km_x xs lat) (km_y ys)) as ML. pose proof (Rmax_r (km_x xs lat) (km_y ys)) as MR. pose proof (Rmax_Rlt (km_x xs lat) (km_y ys)) as MM.
  assert (NX : km_x xs lat <> 0). { unfold km_x. destruct (C122_metric 0 lat 1 lat 0 0) as ([D _] & _ & _ & Z & _). intros Q. assert (distance 0 lat 1 lat = 0) by nra. destruct (proj1 (Z L L) H) as [_ (k & K)]. assert (A : 1 = IZR (360 * k)) by (rewrite mult_IZR; lra). apply (eq_IZR 1) in A. lia. }
  assert (NY : km_y ys <> 0). { unfold km_y. destruct (C122_metric 0 0 0 1 0 0) as ([D _] & _ & _ & Z & _). intros Q. assert (distance 0 0 0 1 = 0) by nra. destruct (proj1 (Z ltac:(lra) ltac:(lra)) H) as [A _]. lra. }
  destruct (Z.ltb_spec (check_order order) 1) as [O|O].
  - split; [intros _; left|reflexivity]. assert (IZR (check_order order) <= 0) by (apply IZR_le; lia). lra.
  - apply IZR_le in O. destruct (Rlt_dec wave (Rmax (km_x xs lat) (km_y ys) * 2)) as [W|W]; cbn [bind].
    + split; [intros _; right|reflexivity]. unfold Rmax in W. destruct (Rle_dec _ _); lra.
    + destruct (Req_EM_T _ _) as [|_]; [contradiction|]. destruct (Req_EM_T _ _) as [|_]; [contradiction|]. cbn [bind]. split; [discriminate|]. intros [Q|[Q|Q]]; exfalso; lra.
Qed.
Print Assumptions C125_defined.

(** Weights of order 1 of kernel_loess: between 0 and 1, 1 only at the centre, decreasing,
    0 from the wave length.  Over order 1 some weights are negative. *)
Theorem C125_loess : forall d, 0 <= d -> let w := fun d => (1 - Rabs d ^ 3) ^ 3 in
  (d <= 1 -> 0 <= w d <= 1) /\ (w d = 1 <-> d = 0) /\ (w d = 0 <-> d = 1) /\ (forall e, 0 <= d < e -> w e < w d) /\ (1 < d -> w d < 0).
Proof.
  intros d D w. assert (W : forall e, 0 <= e -> w e = (1 - e ^ 3) ^ 3) by (intros e E; unfold w; rewrite Rabs_pos_eq by exact E; reflexivity). assert (C : forall a b, a < b -> a ^ 3 < b ^ 3). { intros a b AB. assert (Z : b ^ 3 - a ^ 3 = (b - a) * ((b + a / 2) ^ 2 + 3 / 4 * a ^ 2)) by field. assert (0 < (b + a / 2) ^ 2 + 3 / 4 * a ^ 2). { destruct (Req_dec a 0) as [->|A0]; [assert (0 < b ^ 2) by nra; replace (b + 0 / 2) with b by field; nra|]. pose proof (pow2_ge_0 (b + a / 2)). assert (0 < a ^ 2) by nra. lra. } nra. }
  rewrite (W d D). split; [|split; [|split; [|split]]].
  - intros D1. assert (d ^ 3 <= 1) by (replace 1 with (1 ^ 3) by ring; apply pow_incr; lra). assert (0 <= d ^ 3) by (apply pow_le; exact D). split; [apply pow_le; lra|]. replace 1 with (1 ^ 3) at 2 by ring. apply pow_incr. lra.
  - split; [|intros ->; ring]. intros E. destruct (Rtotal_order (1 - d ^ 3) 1) as [Q|[Q|Q]]; [apply C in Q; lra| |apply C in Q; lra]. destruct (Req_dec d 0) as [|N]; [assumption|]. assert (0 < d ^ 3) by (apply pow_lt; lra). lra.
  - split; [|intros ->; ring]. intros E. destruct (Rtotal_order (1 - d ^ 3) 0) as [Q|[Q|Q]]; [apply C in Q; lra| |apply C in Q; lra]. destruct (Rtotal_order d 1) as [Z|[Z|Z]]; [|exact Z|]; apply C in Z; lra.
  - intros e E. rewrite (W e) by lra. apply C. pose proof (C d e (proj2 E)). lra.
  - intros D1. replace 0 with (0 ^ 3) by ring. apply C. assert (1 ^ 3 < d ^ 3) by (apply C; exact D1). lra.
Qed.
Print Assumptions C125_loess.
(** Weights of kernel_lanczos: 1 at the centre, never over 1, null at the whole wave lengths. *)
Theorem C125_lanczos : forall o d, (1 <= o)%nat -> 0 <= d -> let w := fun d => sinc (d / INR o) * sinc d in
  w 0 = 1 /\ Rabs (w d) <= 1 /\ (forall n, (1 <= n)%nat -> d = INR n -> w d = 0).
Proof.
  intros o d O D w. assert (OP : 0 < INR o) by (apply lt_0_INR; lia). pose proof PI_RGT_0 as PP. assert (S0 : sinc 0 = 1) by (unfold sinc; destruct (Req_EM_T 0 0); [reflexivity|lra]).
  assert (B : forall x, 0 <= x -> Rabs (sinc x) <= 1). { intros x X. unfold sinc. destruct (Req_EM_T x 0); [rewrite Rabs_R1; lra|]. assert (P : 0 < PI * x) by nra. unfold Rdiv. rewrite Rabs_mult, Rabs_inv, (Rabs_pos_eq (PI * x)) by lra. apply (Rmult_le_reg_r (PI * x)); [exact P|]. rewrite Rmult_assoc, Rinv_l by lra. rewrite Rmult_1_r, Rmult_1_l. apply Rabs_le. pose proof (SIN_bound (PI * x)). split; [|apply Rlt_le, sin_lt_x; exact P]. destruct (Rle_dec (PI * x) PI) as [Q|Q]; [pose proof (sin_ge_0 (PI * x) ltac:(lra) Q); lra|pose proof PI2_3_2; lra]. }
  split; [|split].
  - unfold w. replace (0 / INR o) with 0 by (field; lra). rewrite S0. ring.
  - unfold w. rewrite Rabs_mult. assert (0 <= d / INR o) by (apply Rle_mult_inv_pos; lra). pose proof (B d D). pose proof (B _ H). pose proof (Rabs_pos (sinc d)). pose proof (Rabs_pos (sinc (d / INR o))). nra.
  - intros n N ->. unfold w, sinc at 2. assert (0 < INR n) by (apply lt_0_INR; lia). destruct (Req_EM_T (INR n) 0); [lra|]. replace (sin (PI * INR n)) with 0; [unfold Rdiv; ring|]. symmetry. rewrite Rmult_comm, INR_IZR_INZ. apply sin_eq_0_1. exists (Z.of_nat n). reflexivity.
Qed.
Print Assumptions C125_lanczos.
(** The other half of a kernel, filled as a mirror image, has the weights of its own cells;
    the centre is the cell [0, c], at distance 0; a column of the centre goes one wave
    length times the order away, in both directions. *)
Theorem C125_mirror : forall xstep ystep lat wave c i j, 0 < wave ->
  distance 0 lat (- (INR i * xstep)) (lat + (INR j - INR c) * ystep) / 1000 / wave = norm xstep ystep lat wave c i j /\
  norm xstep ystep lat wave c 0 c = 0 /\
  (0 < ystep -> INR c * ystep <= 180 -> (j <= 2 * c)%nat -> norm xstep ystep lat wave c 0 j = Rabs (INR j - INR c) * km_y ystep / wave).
Proof.
  intros xs ys lat wave c i j W. split; [|split].
  - unfold norm. f_equal. f_equal. apply distance_place. rewrite !dot_place. replace ((- (INR i * xs) - 0) * D2R) with (- ((INR i * xs - 0) * D2R)) by ring. rewrite cos_neg. reflexivity.
  - unfold norm. replace (INR 0 * xs) with 0 by (cbn; ring). replace (lat + (INR c - INR c) * ys) with lat by ring. destruct (C122_turns 0 lat 0 lat) as (_ & _ & _ & M & _). rewrite M by (replace (lat - lat) with 0 by ring; rewrite Rabs_R0; lra). replace (lat - lat) with 0 by ring. rewrite Rabs_R0. field. lra.
  - intros Y0 B J. unfold norm, km_y. replace (INR 0 * xs) with 0 by (cbn; ring). set (e := INR j - INR c). assert (EB : - INR c <= e <= INR c). { unfold e. pose proof (pos_INR j). apply le_INR in J. rewrite mult_INR in J. cbn [INR] in J. lra. }
    assert (A : Rabs (e * ys) = Rabs e * ys) by (rewrite Rabs_mult, (Rabs_pos_eq ys) by lra; reflexivity). assert (AE : Rabs e <= INR c) by (apply Rabs_le; exact EB). destruct (C122_turns 0 lat 0 (lat + e * ys)) as (_ & _ & _ & M & _). replace (lat + e * ys - lat) with (e * ys) in M by ring. rewrite M by (rewrite A; nra).
    destruct (C122_turns 0 0 0 1) as (_ & _ & _ & M1 & _). rewrite M1 by (replace (1 - 0) with 1 by ring; rewrite Rabs_R1; lra). replace (1 - 0) with 1 by ring. rewrite Rabs_R1, A. field. lra.
Qed.
Print Assumptions C125_mirror.
(** A quarter of degree, 200 km, at the equator: a kernel; 50 km: refused. *)
Lemma km_equator : km_x (1 / 4) 0 = km_y (1 / 4) /\ km_y (1 / 4) = RE * D2R / 4000.
Proof. unfold km_x, km_y. destruct (C122_turns 0 0 1 0) as (_ & _ & _ & _ & M). destruct (C122_turns 0 0 0 1) as (_ & _ & _ & M1 & _). rewrite M by (replace (1 - 0) with 1 by ring; rewrite Rabs_R1; lra). rewrite M1 by (replace (1 - 0) with 1 by ring; rewrite Rabs_R1; lra). replace (1 - 0) with 1 by ring. rewrite Rabs_R1. split; [reflexivity|field]. Qed.
Lemma km_bounds : 20 < km_y (1 / 4) < 40.
Proof. destruct km_equator as [_ ->]. unfold RE, D2R. pose proof PI2_3_2. pose proof PI_4. lra. Qed.
Example C125_case : (exists r, kernel_loess (1 / 4) (1 / 4) 0 200 1 = Some r) /\ kernel_loess (1 / 4) (1 / 4) 0 30 1 = None.
Proof.
  pose proof km_bounds as B. pose proof (proj1 km_equator) as E. split.
  - destruct (kernel_loess (1 / 4) (1 / 4) 0 200 1) as [r|] eqn:K; [exists r; reflexivity|]. apply (C125_defined (1 / 4) (1 / 4) 0 200 1) in K; lra.
  - apply (C125_defined (1 / 4) (1 / 4) 0 30 1); lra.
Qed.
