(** C90: coordinates of a regular grid. *)
From Coq Require Import List Arith ZArith QArith Qabs Qround Bool Lia Lqa.
From Verif Require Import Base Qaux Grid_model Grid_spec Grid_proofs Setup_model.
Import ListNotations.
Local Close Scope Q_scope.
Local Open Scope nat_scope.

(** Values which never decrease. *)
Definition rising (b : list Q) : Prop := forall i, S i < length b -> (at_ b i <= at_ b (S i))%Q.
Lemma rising_spec : forall b, existsb (fun d => Qlt_bool d 0) (diffs b) = false <-> rising b.
Proof.
  intros b. rewrite <- not_true_iff_false, existsb_exists. unfold rising. split.
  - intros H i I. destruct (Qlt_le_dec (at_ b (S i)) (at_ b i)) as [L|L]; [|exact L]. exfalso. apply H. exists (at_ (diffs b) i). split; [apply nth_In; rewrite length_diffs; lia|]. apply Qlt_bool_iff. rewrite at_diffs by exact I. lra.
  - intros H (d & I & L). apply Qlt_bool_iff in L. apply (In_nth _ _ 0%Q) in I as (i & I & E). rewrite length_diffs in I. fold (at_ (diffs b) i) in E. rewrite at_diffs in E by lia. specialize (H i ltac:(lia)). subst d. lra.
Qed.
Lemma sum_diffs : forall c, 0 < length c -> (fold_right Qplus 0 (diffs c) == at_ c (length c - 1) - at_ c 0)%Q.
Proof.
  intros c. induction c as [|x [|y c] IH]; intros L; [cbn in L; lia|cbn; lra|]. change (diffs (x :: y :: c)) with ((y - x)%Q :: diffs (y :: c)). cbn [fold_right]. rewrite IH by (cbn; lia). cbn [length]. replace (S (S (length c)) - 1) with (S (length (y :: c) - 1)) by (cbn; lia). cbn [at_ nth length]. unfold at_. cbn [nth]. lra.
Qed.
Lemma mean_gap_spec : forall c, 2 <= length c -> (mean_gap c == (at_ c (length c - 1) - at_ c 0) / inject_Z (Z.of_nat (length c - 1)))%Q.
Proof. intros c L. unfold mean_gap. rewrite sum_diffs by lia. rewrite length_diffs. reflexivity. Qed.

(** Centres given: kept as they are with the bounds of C64; refused exactly when bounds decrease; the step is the mean gap. *)
Theorem C90_centres : forall v, 2 <= length v -> exists b, c_to_bounds v = Some b /\
  (setup_axis true v = None <-> ~ rising b) /\
  (forall a, setup_axis true v = Some a -> a_c a = v /\ a_bounds a = b /\ (a_step a == (at_ v (length v - 1) - at_ v 0) / inject_Z (Z.of_nat (length v - 1)))%Q).
Proof.
  intros v L. destruct (c_to_bounds_spec v L) as (b & E & _). exists b. split; [exact E|]. unfold setup_axis. rewrite E. cbn [bind]. pose proof (rising_spec b) as R. destruct (existsb _ (diffs b)) eqn:X.
  - split; [split; [intros _ Y; apply R in Y; discriminate Y|reflexivity]|]. intros a Y. discriminate Y.
  - split; [split; [intros Y; discriminate Y|intros Y; exfalso; apply Y, R; reflexivity]|]. intros a Y. apply Some_inj in Y. subst a. split; [reflexivity|]. split; [reflexivity|]. apply mean_gap_spec. exact L.
Qed.
Print Assumptions C90_centres.
(** Increasing centres are accepted exactly when no gap is more than three times the gap before. *)
Theorem C90_increasing : forall v, 2 <= length v -> (forall i, (S i < length v)%nat -> (0 < gap v i)%Q) ->
  (exists a, setup_axis true v = Some a) <-> forall i, S (S i) < length v -> (gap v (S i) <= 3 * gap v i)%Q.
Proof.
  intros v L P. destruct (c_to_bounds_spec v L) as (b & E & LB & B & Z & W). unfold setup_axis. rewrite E. cbn [bind]. pose proof (rising_spec b) as R.
  assert (RB : rising b <-> forall i, S (S i) < length v -> (gap v (S i) <= 3 * gap v i)%Q).
  { unfold rising. rewrite LB. split.
    - intros H i I. specialize (H i ltac:(lia)). rewrite (B i) in H by lia. destruct (Nat.eq_dec (S (S (S i))) (length v)) as [F|F].
      + replace (S i) with (length v - 2) in H by lia. rewrite (B (length v - 2)) in H by lia. replace (length v - 2) with (S i) in H by lia. unfold gap in *. rewrite ?half_of in H. lra.
      + rewrite (B (S i)) in H by lia. unfold gap in *. rewrite ?half_of in H. lra.
    - intros H i I. destruct (Nat.eq_dec (S i) (length v)) as [F|F].
      + replace i with (length v - 1) by lia. replace (S (length v - 1)) with (length v) by lia. rewrite W, Z. specialize (P (length v - 2) ltac:(lia)). rewrite ?half_of. lra.
      + destruct (Nat.eq_dec (S (S i)) (length v)) as [F'|F'].
        * replace (S i) with (length v - 1) by lia. rewrite Z, (B i) by lia. replace i with (length v - 2) by lia. specialize (P (length v - 2) ltac:(lia)). unfold gap in *. replace (S (length v - 2)) with (length v - 1) in * by lia. rewrite ?half_of. lra.
        * rewrite !B by lia. specialize (H i ltac:(lia)). pose proof (P i ltac:(lia)). unfold gap in *. rewrite ?half_of. lra. }
  rewrite <- RB. destruct (existsb _ (diffs b)) eqn:X.
  - split; [intros (a & Y); discriminate Y|]. intros Y. apply R in Y. discriminate Y.
  - split; [intros _; apply R; reflexivity|]. intros _. eexists. reflexivity.
Qed.
Print Assumptions C90_increasing.
Example C90_increasing_case : (exists a, setup_axis true [0; 1; 4; 5]%Q = Some a) /\ setup_axis true [0; 1; 5; 6]%Q = None.
Proof. split; [eexists; reflexivity|reflexivity]. Qed.

(** Bounds given: kept, one centre for each bound: the middles, then half a gap after the last bound. *)
Theorem C90_bounds : forall v, 2 <= length v ->
  (setup_axis false v = None <-> ~ rising v) /\
  (forall a, setup_axis false v = Some a -> a_bounds a = v /\ length (a_c a) = length v /\
    (forall i, S i < length v -> (at_ (a_c a) i == (at_ v i + at_ v (S i)) / 2)%Q) /\
    (at_ (a_c a) (length v - 1) == at_ v (length v - 1) + gap v (length v - 2) / 2)%Q).
Proof.
  intros v L. pose proof (rising_spec v) as R. unfold setup_axis, bounds_to_c.
  assert (LA : forall b d, length (add_half b d) = length b) by (intros b; induction b as [|x b IH]; intros [|y d]; cbn; auto).
  assert (AA : forall b d i, at_ (add_half b d) i = if (i <? length b) && (i <? length d) then (at_ b i + at_ d i / 2)%Q else at_ b i).
  { intros b. induction b as [|x b IH]; intros d i; [destruct i; reflexivity|]. destruct d as [|y d]; [cbn [add_half length]; rewrite andb_comm; destruct (Nat.ltb_spec i 0); [lia|reflexivity]|]. destruct i as [|i]; [reflexivity|]. cbn [add_half]. unfold at_ in *. cbn [nth length]. rewrite IH. change (S i <? S (length b)) with (i <? length b). change (S i <? S (length d)) with (i <? length d). reflexivity. }
  assert (LD : length (diffs v) = length v - 1) by apply length_diffs. change (-1)%Z with (- Z.of_nat 1)%Z. rewrite pyget_last by (rewrite LA; lia). cbn [bind]. rewrite pyget_last by lia. cbn [bind].
  set (c := add_half v (diffs v)) in *. assert (LC : length c = length v) by apply LA. set (w := (_ + _ / 2)%Q).
  assert (PS : pystore c (- Z.of_nat 1) w = Some (upd c (length v - 1) w)).
  { unfold pystore, pyidx. destruct (Z.leb_spec 0 (- Z.of_nat 1)); [lia|]. rewrite LC. destruct (Z.leb_spec (- Z.of_nat (length v)) (- Z.of_nat 1)); [|lia]. cbn [bind]. unfold store. replace (Z.to_nat (- Z.of_nat 1 + Z.of_nat (length v))) with (length v - 1) by lia. destruct (Nat.ltb_spec (length v - 1) (length c)); [reflexivity|lia]. }
  rewrite PS. cbn [bind]. destruct (existsb _ (diffs v)) eqn:X.
  - split; [split; [intros _ Y; apply R in Y; discriminate Y|reflexivity]|]. intros a Y. discriminate Y.
  - split; [split; [intros Y; discriminate Y|intros Y; exfalso; apply Y, R; reflexivity]|]. intros a Y. apply Some_inj in Y. subst a. cbn [a_bounds a_c]. split; [reflexivity|]. split; [rewrite length_upd; exact LC|]. split.
    + intros i I. rewrite at_upd. destruct (Nat.eqb_spec (length v - 1) i); [lia|]. cbn [andb]. unfold c. rewrite AA, LD. destruct (Nat.ltb_spec i (length v)); [|lia]. destruct (Nat.ltb_spec i (length v - 1)); [|lia]. cbn [andb]. rewrite at_diffs by exact I. field.
    + rewrite at_upd, Nat.eqb_refl, LC. destruct (Nat.ltb_spec (length v - 1) (length v)); [|lia]. cbn [andb]. unfold w, c. rewrite LD, LA. rewrite AA, LD. destruct (Nat.ltb_spec (length v - 1) (length v - 1)); [lia|]. rewrite andb_false_r. rewrite at_diffs by lia. unfold gap. replace (length v - 1 - 1) with (length v - 2) by lia. reflexivity.
Qed.
Print Assumptions C90_bounds.
Example C90_bounds_case : option_map (fun a => map Qred (a_c a)) (setup_axis false [0; 1; 2; 3]%Q) = Some [1 # 2; 3 # 2; 5 # 2; 7 # 2]%Q.
Proof. reflexivity. Qed.

(** Circular: the bounds of both ends, each in its turn, agree to a ten thousandth. *)
Definition agree (tol x y : Q) : Prop := exists j k, (360 * inject_Z j <= x < 360 * inject_Z (j + 1))%Q /\ (360 * inject_Z k <= y < 360 * inject_Z (k + 1))%Q /\
  (Qabs ((x - 360 * inject_Z j) - (y - 360 * inject_Z k)) < tol)%Q.
Lemma turn_unique : forall x j, (360 * inject_Z j <= x < 360 * inject_Z (j + 1))%Q -> (Qmod x 360 == x - 360 * inject_Z j)%Q.
Proof.
  intros x j [H1 H2]. unfold Qmod. assert (E : Qfloor (x / 360) = j); [|rewrite E; reflexivity].
  assert (F : (inject_Z j <= x / 360 < inject_Z (j + 1))%Q). { split; [apply Qle_shift_div_l; [reflexivity|lra]|apply Qlt_shift_div_r; [reflexivity|lra]]. }
  destruct (Qfloor_bounds (x / 360)) as [B1 B2]. rewrite (inject_Z_plus j 1) in F. change (inject_Z 1) with 1%Q in F. set (q := Qfloor (x / 360)) in *. clearbody q.
  assert (A1 : (inject_Z q < inject_Z (j + 1))%Q) by (rewrite inject_Z_plus; change (inject_Z 1) with 1%Q; lra). assert (A2 : (inject_Z j < inject_Z (q + 1))%Q) by (rewrite inject_Z_plus; change (inject_Z 1) with 1%Q; lra). rewrite <- Zlt_Qlt in A1, A2. lia.
Qed.
Lemma agree_spec : forall tol x y, Qlt_bool (Qabs (Qmod x 360 - Qmod y 360)) tol = true <-> agree tol x y.
Proof.
  intros tol x y. rewrite Qlt_bool_iff. split.
  - intros H. assert (T : forall z, (360 * inject_Z (Qfloor (z / 360)) <= z < 360 * inject_Z (Qfloor (z / 360) + 1))%Q).
    { intros z. destruct (Qfloor_bounds (z / 360)) as [B1 B2]. rewrite inject_Z_plus. change (inject_Z 1) with 1%Q. assert (X : (z == 360 * (z / 360))%Q) by field. set (q := (z / 360)%Q) in *. set (f := inject_Z (Qfloor q)) in *. clearbody q f. lra. }
    exists (Qfloor (x / 360)), (Qfloor (y / 360)). split; [apply T|]. split; [apply T|]. unfold Qmod in H. exact H.
  - intros (j & k & J & K & H). rewrite (turn_unique x j J), (turn_unique y k K). exact H.
Qed.
Theorem C90_circular : forall b, 0 < length b -> exists r, circular_bounds b = Some r /\ (r = true <-> agree (1 # 10000) (at_ b 0) (at_ b (length b - 1))).
Proof.
  intros b L. unfold circular_bounds. change 0%Z with (Z.of_nat 0). assert (G : pyget b (Z.of_nat 0) = Some (at_ b 0)) by (unfold pyget, pyidx; destruct (Z.leb_spec 0 (Z.of_nat 0)); [|lia]; destruct (Z.ltb_spec (Z.of_nat 0) (Z.of_nat (length b))); [|lia]; cbn [bind]; apply at_error; exact L).
  rewrite G. cbn [bind]. change (-1)%Z with (- Z.of_nat 1)%Z. rewrite pyget_last by lia. cbn [bind]. eexists. split; [reflexivity|]. apply agree_spec.
Qed.
Print Assumptions C90_circular.
(** The same from the centres, in the interpolation and the advection. *)
Theorem C90_circular_centres : forall c, 2 <= length c -> exists r, is_circular c = Some r /\ (r = true <-> agree (1 # 100000) (at_ c (length c - 1)) (at_ c 0 - gap c 0)).
Proof.
  intros c L. unfold is_circular. assert (G : forall i, i < length c -> pyget c (Z.of_nat i) = Some (at_ c i)) by (intros i I; unfold pyget, pyidx; destruct (Z.leb_spec 0 (Z.of_nat i)); [|lia]; destruct (Z.ltb_spec (Z.of_nat i) (Z.of_nat (length c))); [|lia]; cbn [bind]; rewrite Nat2Z.id; apply at_error; exact I).
  change 0%Z with (Z.of_nat 0) at 1. rewrite (G 0) by lia. cbn [bind]. change 1%Z with (Z.of_nat 1) at 1. rewrite (G 1) by lia. cbn [bind]. change (-1)%Z with (- Z.of_nat 1)%Z. rewrite pyget_last by lia. cbn [bind]. eexists. split; [reflexivity|]. apply agree_spec.
Qed.
Print Assumptions C90_circular_centres.
Lemma agree_turn : forall tol x y k, (0 < tol)%Q -> (x == y + 360 * inject_Z k)%Q -> agree tol x y.
Proof.
  intros tol x y k T E. apply agree_spec. apply Qlt_bool_iff. assert (M : (Qmod x 360 == Qmod y 360)%Q).
  { rewrite (turn_unique x (Qfloor (y / 360) + k)).
    - unfold Qmod. rewrite E, (inject_Z_plus (Qfloor (y / 360)) k). ring.
    - destruct (Qfloor_bounds (y / 360)) as [B1 B2]. rewrite (inject_Z_plus (Qfloor (y / 360) + k) 1), (inject_Z_plus (Qfloor (y / 360)) k). change (inject_Z 1) with 1%Q. assert (X : (y == 360 * (y / 360))%Q) by field. set (q := (y / 360)%Q) in *. set (f := inject_Z (Qfloor q)) in *. set (g := inject_Z k) in *. clearbody q f g. lra. }
  rewrite M. apply Qabs_Qlt_condition. lra.
Qed.
(** Evenly spaced centres around the earth: accepted and circular by both tests, with a step of a turn over the number of cells. *)
Theorem C90_turn : forall v s, 2 <= length v -> regular v s -> (0 < s)%Q -> (inject_Z (Z.of_nat (length v)) * s == 360)%Q ->
  exists a, setup_axis true v = Some a /\ (a_step a == s)%Q /\ circular_bounds (a_bounds a) = Some true /\ is_circular (a_c a) = Some true.
Proof.
  intros v s L R SP T. assert (P : forall i, (S i < length v)%nat -> (0 < gap v i)%Q) by (intros i I; rewrite (R i I); exact SP).
  destruct (proj2 (C90_increasing v L P)) as [a E]; [intros i I; rewrite (R i), (R (S i)) by lia; lra|]. exists a. split; [exact E|].
  destruct (C90_centres v L) as (b & EB & _ & SA). destruct (SA a E) as (-> & -> & ST). destruct (c_to_bounds_spec v L) as (b' & EB' & LB & B & Z & W). rewrite EB in EB'. apply Some_inj in EB'. subst b'.
  assert (N0 : (0 < inject_Z (Z.of_nat (length v - 1)))%Q) by (change 0%Q with (inject_Z 0); rewrite <- Zlt_Qlt; lia).
  assert (NN : (inject_Z (Z.of_nat (length v)) == inject_Z (Z.of_nat (length v - 1)) + 1)%Q) by (replace (Z.of_nat (length v)) with (Z.of_nat (length v - 1) + 1)%Z by lia; rewrite inject_Z_plus; reflexivity).
  pose proof (regular_at v s R (length v - 1) ltac:(lia)) as AL. split; [|split].
  - rewrite ST, AL. field. lra.
  - destruct (C90_circular b ltac:(lia)) as (r & ER & RI). rewrite ER. f_equal. apply RI. apply (agree_turn _ _ _ (-1)); [reflexivity|]. rewrite LB. replace (S (length v) - 1) with (length v) by lia. rewrite W, (B 0) by lia. pose proof (R 0 ltac:(lia)) as G0. pose proof (R (length v - 2) ltac:(lia)) as G1. rewrite G0, G1, AL. change (inject_Z (-1)) with (-(1))%Q. rewrite NN in T. rewrite ?half_of. lra.
  - destruct (C90_circular_centres v L) as (r & ER & RI). rewrite ER. f_equal. apply RI. apply (agree_turn _ _ _ 1); [reflexivity|]. pose proof (R 0 ltac:(lia)) as G0. rewrite G0, AL. change (inject_Z 1) with 1%Q. rewrite NN in T. lra.
Qed.
Print Assumptions C90_turn.
Example C90_turn_case : regular [10; 100; 190; 280]%Q 90 /\ option_map (fun a => circular_bounds (a_bounds a)) (setup_axis true [10; 100; 190; 280]%Q) = Some (Some true).
Proof. split; [intros [|[|[|i]]] I; [reflexivity|reflexivity|reflexivity|cbn in I; lia]|reflexivity]. Qed.
(** A grid whose last bound is within a hundred thousandth of a turn from the first, but on the other side of a multiple of a turn, is not circular. *)
Theorem C90_tolerance_refuted : exists v a, setup_axis true v = Some a /\ (Qabs (at_ (a_bounds a) (length v) - at_ (a_bounds a) 0 - 360) < 1 # 100000)%Q /\ circular_bounds (a_bounds a) = Some false.
Proof. exists [60; 180; 300 - (1 # 200000)]%Q. eexists. split; [reflexivity|]. split; reflexivity. Qed.
Print Assumptions C90_tolerance_refuted.
(** Equal centres are accepted with a step of 0, although the message says strictly increasing. *)
Theorem C90_strict_refuted : exists a, setup_axis true [5; 5; 5]%Q = Some a /\ (a_step a == 0)%Q.
Proof. eexists. split; reflexivity. Qed.
Print Assumptions C90_strict_refuted.
(** Bounds given around the earth: with the last one the last cell is the first again and the columns are counted with one too many, without it the grid is not circular. *)
Theorem C90_bounds_refuted : exists a a', setup_axis false [0; 90; 180; 270; 360]%Q = Some a /\ circular_bounds (a_bounds a) = Some true /\
  length (a_c a) = 5 /\ (at_ (a_c a) 4 == at_ (a_c a) 0 + 360)%Q /\ normalize_x_indice (Z.of_nat (length (a_c a))) 4 <> normalize_x_indice (Z.of_nat (length (a_c a))) 0 /\
  setup_axis false [0; 90; 180; 270]%Q = Some a' /\ length (a_c a') = 4 /\ (at_ (a_c a') 3 == 315)%Q /\ circular_bounds (a_bounds a') = Some false.
Proof. eexists. eexists. split; [reflexivity|]. split; [reflexivity|]. split; [reflexivity|]. split; [reflexivity|]. split; [discriminate|]. split; [reflexivity|]. split; [reflexivity|]. split; reflexivity. Qed.
Print Assumptions C90_bounds_refuted.
(** On evenly spaced centres around the earth any number of column is brought to the column of the grid with the same longitude, to a whole number of turns. *)
Theorem C90_columns : forall v s i, 2 <= length v -> regular v s -> (inject_Z (Z.of_nat (length v)) * s == 360)%Q ->
  exists j, normalize_x_indice (Z.of_nat (length v)) i = Z.of_nat j /\ j < length v /\ exists k, (at_ v 0 + inject_Z i * s == at_ v j + 360 * inject_Z k)%Q.
Proof.
  intros v s i L R T. unfold normalize_x_indice. set (n := Z.of_nat (length v)) in *. assert (N : (0 < n)%Z) by (unfold n; lia).
  pose proof (Z.mod_pos_bound i n N) as B. pose proof (Z.div_mod i n ltac:(lia)) as DM. exists (Z.to_nat (i mod n)). rewrite Z2Nat.id by lia. split; [reflexivity|].
  assert (J : Z.to_nat (i mod n) < length v) by (unfold n in B |- *; lia). split; [exact J|]. exists (i / n)%Z.
  rewrite (regular_at v s R _ J), Z2Nat.id by lia. rewrite <- T. rewrite DM at 1. rewrite inject_Z_plus, inject_Z_mult. ring.
Qed.
Print Assumptions C90_columns.
Example C90_columns_case : regular [10; 100; 190; 280]%Q 90 /\ map (normalize_x_indice 4) [-1; 0; 3; 4; 9]%Z = [3; 0; 3; 0; 1]%Z.
Proof. split; [intros [|[|[|i]]] I; [reflexivity|reflexivity|reflexivity|cbn in I; lia]|reflexivity]. Qed.
