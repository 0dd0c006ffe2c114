From Coq Require Import List Arith ZArith QArith Qround Qabs Bool Lia Lqa.
From Verif Require Import Base Qaux Grid_model TrackObs_more Adv_model Adv_spec Adv_proofs.
Import ListNotations.
Local Close Scope Q_scope.
Local Open Scope nat_scope.

Lemma bilinear_comp : forall a b a' b' q, (a == a')%Q -> (b == b')%Q -> (bilinear a b q == bilinear a' b' q)%Q.
Proof. intros. unfold bilinear, mix. rewrite H, H0. reflexivity. Qed.
Lemma Qfloor_add : forall q k, Qfloor (q + inject_Z k) = (Qfloor q + k)%Z.
Proof.
  intros q k. destruct (Qfloor_bounds (q + inject_Z k)) as [A B]. destruct (Qfloor_bounds q) as [C D].
  assert (Qfloor (q + inject_Z k) < Qfloor q + k + 1)%Z by (apply inject_Z_lt_iff; rewrite !inject_Z_plus; change (inject_Z 1) with 1%Q; lra).
  assert (Qfloor q + k < Qfloor (q + inject_Z k) + 1)%Z by (apply inject_Z_lt_iff; rewrite !inject_Z_plus; change (inject_Z 1) with 1%Q; lra). lia.
Qed.
Lemma place_range : forall f p, (0 <= place_x f p < 1)%Q /\ (0 <= place_y f p < 1)%Q.
Proof.
  intros f p. unfold place_x, place_y, cell_x, cell_y. split.
  - destruct (Qfloor_bounds ((fst p - f_x0 f) / f_xs f)). lra.
  - destruct (Qfloor_bounds ((snd p - f_y0 f) / f_ys f)). lra.
Qed.

Section Apart.
Context {P W : Type}.
Variables (f : frame) (s : Z) (vals : Z -> Z -> outcome P) (vel : W -> Q -> Q -> P -> Q * Q) (c : Q) (k : Z).
Hypothesis XS : ~ (f_xs f == 0)%Q.
Hypothesis WRAP : forall i j, vals (col f i) j = vals i j.
Hypothesis NX : (0 < f_nx f)%Z.
Hypothesis C : (c == inject_Z (k * f_nx f) * f_xs f)%Q.
Hypothesis CK : f_circ f = true \/ k = 0%Z.
Hypothesis VEL : forall w a b a' b' q, (a == a')%Q -> (b == b')%Q -> apart 0 (vel w a b q) (vel w a' b' q).
Lemma cell_x_apart : forall p q, apart c p q -> cell_x f q = (cell_x f p + k * f_nx f)%Z.
Proof.
  intros p q [A _]. unfold cell_x. rewrite <- Qfloor_add. apply Qfloor_comp. rewrite A, C. field. exact XS.
Qed.
Lemma cell_y_apart : forall p q, apart c p q -> cell_y f q = cell_y f p.
Proof. intros p q [_ B]. unfold cell_y. apply Qfloor_comp. rewrite B. reflexivity. Qed.
Lemma sample_apart : forall w p q, apart c p q -> both_apart 0 (sample f s vals vel w p) (sample f s vals vel w q).
Proof.
  intros w p q A. unfold sample. rewrite (cell_x_apart p q A), (cell_y_apart p q A).
  assert (V : vals (cell_x f p + k * f_nx f)%Z (cell_y f p) = vals (cell_x f p) (cell_y f p)).
  { destruct CK as [CC| ->]; [|rewrite Z.mul_0_l, Z.add_0_r; reflexivity]. rewrite <- WRAP, <- (WRAP (cell_x f p)). f_equal. unfold col. rewrite CC. apply Z.mod_add. lia. }
  rewrite V. replace (negb (f_circ f) && ((cell_x f p + k * f_nx f =? s) && (cell_y f p =? s)))%Z with (negb (f_circ f) && ((cell_x f p =? s) && (cell_y f p =? s)))%Z.
  2: { destruct CK as [CC| ->]; [rewrite CC; reflexivity|rewrite Z.mul_0_l, Z.add_0_r; reflexivity]. }
  destruct (negb (f_circ f) && ((cell_x f p =? s) && (cell_y f p =? s)))%Z; [exact I|]. destruct (vals (cell_x f p) (cell_y f p)) as [v| |]; cbn; auto.
  apply VEL.
  - unfold place_x. rewrite (cell_x_apart p q A). destruct A as [A _]. rewrite A, C, inject_Z_plus. field. exact XS.
  - unfold place_y. rewrite (cell_y_apart p q A). destruct A as [_ A]. rewrite A. reflexivity.
Qed.
Lemma obind_apart : forall c1 c2 a b (g h : Q * Q -> outcome (Q * Q)), both_apart c1 a b -> (forall p q, apart c1 p q -> both_apart c2 (g p) (h q)) -> both_apart c2 (obind a g) (obind b h).
Proof. intros c1 c2 a b g h A H. destruct a, b; cbn in *; auto; destruct A. Qed.
Lemma euler_apart : forall w p q, apart c p q -> both_apart c (euler f s vals vel w p) (euler f s vals vel w q).
Proof.
  intros w p q A. unfold euler. eapply obind_apart; [apply sample_apart; exact A|]. intros d e [D1 D2]. destruct A as [A1 A2]. cbn. split; cbn [fst snd]; lra.
Qed.
Lemma rk4_apart : forall half w p q, apart c p q -> both_apart c (rk4 f s vals vel half w p) (rk4 f s vals vel half w q).
Proof.
  intros half w p q A. unfold rk4. destruct A as [A1 A2].
  eapply obind_apart; [apply sample_apart; split; auto|]. intros d1 e1 [D1 E1].
  eapply obind_apart; [apply sample_apart; split; cbn [fst snd]; lra|]. intros d2 e2 [D2 E2].
  eapply obind_apart; [apply sample_apart; split; cbn [fst snd]; lra|]. intros d3 e3 [D3 E3].
  eapply obind_apart; [apply sample_apart; split; cbn [fst snd]; lra|]. intros d4 e4 [D4 E4].
  cbn. split; cbn [fst snd]; [setoid_replace (fst e1) with (fst d1) by lra; setoid_replace (fst e2) with (fst d2) by lra; setoid_replace (fst e3) with (fst d3) by lra; setoid_replace (fst e4) with (fst d4) by lra|rewrite E1, E2, E3, E4]; unfold Qdiv; lra.
Qed.
End Apart.
Lemma journey_apart : forall {W} c (step step' : W -> Q * Q -> outcome (Q * Q)) ws p q,
  (forall w p q, apart c p q -> both_apart c (step w p) (step' w q)) -> apart c p q -> both_apart c (journey step ws p) (journey step' ws q).
Proof.
  intros W c step step' ws. induction ws as [|w ws IH]; intros p q H A; cbn [journey]; [exact A|]. eapply obind_apart; [apply H; exact A|]. intros. apply IH; auto.
Qed.
Lemma speed_apart : forall (w : unit) a b a' b' q, (a == a')%Q -> (b == b')%Q -> apart 0 (speed a b q) (speed a' b' q).
Proof. intros. unfold speed, apart. cbn [fst snd]. split; [rewrite Qplus_0_r|]; symmetry; apply bilinear_comp; auto. Qed.
Lemma speed_t_apart : forall w a b a' b' q, (a == a')%Q -> (b == b')%Q -> apart 0 (speed_t w a b q) (speed_t w a' b' q).
Proof.
  intros. unfold speed_t, speed, apart. cbn [fst snd]. rewrite !(bilinear_comp a b a' b') by auto. split; [rewrite Qplus_0_r|]; reflexivity.
Qed.

(** ** Bounds *)
Lemma mix_between : forall lo hi t a b, (0 <= t)%Q -> (t <= 1)%Q -> (lo <= a /\ a <= hi)%Q -> (lo <= b /\ b <= hi)%Q -> (lo <= mix t a b /\ mix t a b <= hi)%Q.
Proof. intros lo hi t a b T0 T1 [A1 A2] [B1 B2]. unfold mix. split; nra. Qed.
Definition quad_between (lo hi : Q) (q : quad) : Prop :=
  ((lo <= q00 q /\ q00 q <= hi) /\ (lo <= q01 q /\ q01 q <= hi) /\ (lo <= q10 q /\ q10 q <= hi) /\ (lo <= q11 q /\ q11 q <= hi))%Q.
Lemma bilinear_between : forall lo hi a b q, (0 <= a < 1)%Q -> (0 <= b < 1)%Q -> quad_between lo hi q -> (lo <= bilinear a b q /\ bilinear a b q <= hi)%Q.
Proof.
  intros lo hi a b q A B (Q1 & Q2 & Q3 & Q4). unfold bilinear. apply mix_between; [lra|lra| |]; apply mix_between; auto; lra.
Qed.
Lemma node_In : forall {A} (d : A) g i j nx ny, matrix g nx ny -> (0 <= i < nx)%Z -> (0 <= j < ny)%Z -> exists r, In r g /\ In (node d g i j) r.
Proof.
  intros A d g i j nx ny [L R] I J. exists (nth (Z.to_nat i) g []). assert (IN : In (nth (Z.to_nat i) g []) g) by (apply nth_In; lia).
  split; [exact IN|]. unfold node. apply nth_In. rewrite Forall_forall in R. specialize (R _ IN). lia.
Qed.
Lemma cell_value_At : forall f g i j q, cell_value f g i j = At q ->
  (f_circ f = true \/ (0 <= i /\ i + 1 < f_nx f)%Z) /\ (- f_ny f <= j /\ j + 1 < f_ny f)%Z
  /\ q = (quad_of (four f 0%Q (fst (fst g)) i j), quad_of (four f 0%Q (snd (fst g)) i j)) /\ four f true (snd g) i j = (false, false, false, false).
Proof.
  intros f [[u v] m] i j q E. unfold cell_value in E. cbn [fst snd].
  destruct (negb (f_circ f) && ((i <? 0) || (f_nx f <=? i + 1))%Z) eqn:O; [discriminate|].
  destruct (Z.leb_spec (f_ny f) (j + 1)); [discriminate|]. destruct (Z.ltb_spec j (- f_ny f)); [discriminate|].
  split.
  { apply andb_false_iff in O. destruct O as [O|O]; [left; apply negb_false_iff; exact O|right]. apply orb_false_iff in O. destruct O as [O1 O2]. apply Z.ltb_ge in O1. apply Z.leb_gt in O2. lia. }
  split; [lia|]. destruct (four f true m i j) as [[[a b] c] d]. destruct (a || b || c || d) eqn:M; [discriminate|]. injection E as <-. split; [reflexivity|].
  apply orb_false_iff in M. destruct M as [M D]. apply orb_false_iff in M. destruct M as [M CC]. apply orb_false_iff in M. destruct M as [A B]. subst. reflexivity.
Qed.
Lemma row_range : forall f j, (- f_ny f <= j < f_ny f)%Z -> (0 <= row f j < f_ny f)%Z.
Proof. intros f j J. unfold row. destruct (Z.ltb_spec j 0); lia. Qed.
Lemma four_between : forall f (u : list (list Q)) lo hi i j, matrix u (f_nx f) (f_ny f) -> (0 < f_nx f)%Z -> all_between lo hi u ->
  (f_circ f = true \/ (0 <= i /\ i + 1 < f_nx f)%Z) -> (- f_ny f <= j /\ j + 1 < f_ny f)%Z -> quad_between lo hi (quad_of (four f 0%Q u i j)).
Proof.
  intros f u lo hi i j M N B I J.
  assert (C0 : (0 <= col f i < f_nx f)%Z) by (apply col_range; [exact N|destruct I; [left; auto|right; lia]]).
  assert (C1 : (0 <= col f (i + 1) < f_nx f)%Z) by (apply col_range; [exact N|destruct I; [left; auto|right; lia]]).
  assert (R0 : (0 <= row f j < f_ny f)%Z) by (apply row_range; lia). assert (R1 : (0 <= row f (j + 1) < f_ny f)%Z) by (apply row_range; lia).
  assert (H : forall a b, (0 <= a < f_nx f)%Z -> (0 <= b < f_ny f)%Z -> (lo <= node 0%Q u a b /\ node 0%Q u a b <= hi)%Q).
  { intros a b HA HB. destruct (node_In 0%Q u a b _ _ M HA HB) as (r & R & Q). apply (B r); auto. }
  unfold quad_between. cbn. repeat split; try apply H; auto.
Qed.
Section Bounds.
Context {W : Type}.
Variables (sm : W -> Q * Q -> outcome (Q * Q)) (wok : W -> Prop) (lo hi : Q) (comp : Q * Q -> Q).
Hypothesis ADD : forall p d, comp (fst p + fst d, snd p + snd d)%Q = (comp p + comp d)%Q.
Hypothesis RK : forall p d1 d2 d3 d4, (comp (fst p + (fst d1 + 2 * fst d2 + 2 * fst d3 + fst d4) / 6, snd p + (snd d1 + 2 * snd d2 + 2 * snd d3 + snd d4) / 6)%Q
  == comp p + (comp d1 + 2 * comp d2 + 2 * comp d3 + comp d4) * (1 # 6))%Q.
Hypothesis SM : forall w p d, wok w -> sm w p = At d -> (lo <= comp d /\ comp d <= hi)%Q.
Definition moves (step : W -> Q * Q -> outcome (Q * Q)) : Prop :=
  forall w p p', wok w -> step w p = At p' -> (comp p + lo <= comp p' /\ comp p' <= comp p + hi)%Q.
Lemma journey_moves : forall step, moves step -> forall ws p p', (forall w, In w ws -> wok w) -> journey step ws p = At p' ->
  (comp p + inject_Z (Z.of_nat (length ws)) * lo <= comp p' /\ comp p' <= comp p + inject_Z (Z.of_nat (length ws)) * hi)%Q.
Proof.
  intros step M ws. induction ws as [|w ws IH]; intros p p' H J; cbn [journey] in J.
  - injection J as <-. cbn [length]. change (inject_Z (Z.of_nat 0)) with 0%Q. lra.
  - destruct (step w p) as [p1| |] eqn:E; cbn [obind] in J; try discriminate. destruct (M w p p1 (H w (or_introl eq_refl)) E) as [A B].
    destruct (IH p1 p' (fun w' I => H w' (or_intror I)) J) as [A' B']. cbn [length]. rewrite Nat2Z.inj_succ. unfold Z.succ. rewrite inject_Z_plus. change (inject_Z 1) with 1%Q.
    set (n := inject_Z (Z.of_nat (length ws))) in *. split; lra.
Qed.
End Bounds.
Lemma euler_moves : forall {P W} f s (vals : Z -> Z -> outcome P) vel (wok : W -> Prop) lo hi comp,
  (forall p d, comp (fst p + fst d, snd p + snd d)%Q = (comp p + comp d)%Q) ->
  (forall w p d, wok w -> sample f s vals vel w p = At d -> (lo <= comp d /\ comp d <= hi)%Q) -> moves wok lo hi comp (euler f s vals vel).
Proof.
  intros P W f s vals vel wok lo hi comp ADD SM w p p' OK E. unfold euler in E. destruct (sample f s vals vel w p) as [d| |] eqn:S; cbn [obind] in E; try discriminate. injection E as <-.
  rewrite ADD. destruct (SM w p d OK S). lra.
Qed.
Lemma rk4_moves : forall {P W} f s (vals : Z -> Z -> outcome P) vel half (wok : W -> Prop) lo hi comp,
  (forall p d1 d2 d3 d4, (comp (fst p + (fst d1 + 2 * fst d2 + 2 * fst d3 + fst d4) / 6, snd p + (snd d1 + 2 * snd d2 + 2 * snd d3 + snd d4) / 6)%Q
  == comp p + (comp d1 + 2 * comp d2 + 2 * comp d3 + comp d4) * (1 # 6))%Q) ->
  (forall w p d, wok w -> sample f s vals vel w p = At d -> (lo <= comp d /\ comp d <= hi)%Q) ->
  moves (fun w => wok w /\ wok (half w) /\ wok (half (half w))) lo hi comp (rk4 f s vals vel half).
Proof.
  intros P W f s vals vel half wok lo hi comp RK SM w p p' (OK1 & OK2 & OK3) E. unfold rk4 in E.
  destruct (sample f s vals vel w p) as [d1| |] eqn:S1; cbn [obind] in E; try discriminate.
  destruct (sample f s vals vel (half w) (fst p + fst d1 * (1 # 2), snd p + snd d1 * (1 # 2))%Q) as [d2| |] eqn:S2; cbn [obind] in E; try discriminate.
  destruct (sample f s vals vel (half w) (fst p + fst d2 * (1 # 2), snd p + snd d2 * (1 # 2))%Q) as [d3| |] eqn:S3; cbn [obind] in E; try discriminate.
  destruct (sample f s vals vel (half (half w)) (fst p + fst d3, snd p + snd d3)%Q) as [d4| |] eqn:S4; cbn [obind] in E; try discriminate.
  injection E as <-. rewrite RK. destruct (SM _ _ _ OK1 S1), (SM _ _ _ OK2 S2), (SM _ _ _ OK2 S3), (SM _ _ _ OK3 S4). split; lra.
Qed.
Lemma comp_fst_add : forall p d : Q * Q, fst (fst p + fst d, snd p + snd d)%Q = (fst p + fst d)%Q.
Proof. reflexivity. Qed.
Lemma comp_snd_add : forall p d : Q * Q, snd (fst p + fst d, snd p + snd d)%Q = (snd p + snd d)%Q.
Proof. reflexivity. Qed.
Lemma sample_speed : forall f s g (w : unit) p d lo hi lo' hi', fits f g -> all_between lo hi (fst (fst g)) -> all_between lo' hi' (snd (fst g)) ->
  sample f s (cell_value f g) (fun _ => speed) w p = At d -> (lo <= fst d /\ fst d <= hi)%Q /\ (lo' <= snd d /\ snd d <= hi')%Q.
Proof.
  intros f s [[u v] m] w p d lo hi lo' hi' (U & V & M & N & NY) BU BV E. unfold sample in E. destruct (_ && _); [discriminate|].
  destruct (cell_value f (u, v, m) (cell_x f p) (cell_y f p)) as [q| |] eqn:C; cbn [obind] in E; try discriminate. injection E as <-.
  destruct (cell_value_At _ _ _ _ _ C) as (I & J & -> & _). cbn [fst snd] in *. destruct (place_range f p) as [X Y].
  unfold speed. cbn [fst snd]. split; apply bilinear_between; auto; apply four_between; auto.
Qed.
Lemma sample_speed_t : forall f s g0 g1 w p d lo hi lo' hi', fits f g0 -> fits f g1 -> (0 <= w /\ w <= 1)%Q ->
  all_between lo hi (fst (fst g0)) -> all_between lo' hi' (snd (fst g0)) -> all_between lo hi (fst (fst g1)) -> all_between lo' hi' (snd (fst g1)) ->
  sample f s (cell_values f g0 g1) speed_t w p = At d -> (lo <= fst d /\ fst d <= hi)%Q /\ (lo' <= snd d /\ snd d <= hi')%Q.
Proof.
  intros f s [[u v] m] [[u1 v1] m1] w p d lo hi lo' hi' (U & V & M & N & NY) (U1 & V1 & M1 & _ & _) WW BU BV BU1 BV1 E. unfold sample in E. destruct (_ && _); [discriminate|].
  unfold cell_values in E. destruct (cell_value f (u, v, m) (cell_x f p) (cell_y f p)) as [q| |] eqn:C; destruct (cell_value f (u1, v1, m1) (cell_x f p) (cell_y f p)) as [q1| |] eqn:C1; cbn [obind] in E; try discriminate. injection E as <-.
  destruct (cell_value_At _ _ _ _ _ C) as (I & J & -> & _). destruct (cell_value_At _ _ _ _ _ C1) as (_ & _ & -> & _). cbn [fst snd] in *. destruct (place_range f p) as [X Y].
  unfold speed_t, speed. cbn [fst snd].
  assert (H : forall lo hi a b, (lo <= a /\ a <= hi)%Q -> (lo <= b /\ b <= hi)%Q -> (lo <= a * w + b * (1 - w) /\ a * w + b * (1 - w) <= hi)%Q).
  { intros l h a b A B. pose proof (mix_between l h w b a (proj1 WW) (proj2 WW) B A) as H. unfold mix in H. lra. }
  split; apply H; apply bilinear_between; auto; apply four_between; auto.
Qed.

(** ** No loss *)
Definition in_rows (f : frame) (y : Q) : Prop := (f_y0 f <= y /\ y < f_y0 f + inject_Z (f_ny f - 1) * f_ys f)%Q.
Lemma cell_y_rows : forall f p, (0 < f_ys f)%Q -> in_rows f (snd p) -> (0 <= cell_y f p /\ cell_y f p + 1 < f_ny f)%Z.
Proof.
  intros f p P [A B]. unfold cell_y. destruct (Qfloor_bounds ((snd p - f_y0 f) / f_ys f)) as [C D]. split.
  - apply Z.lt_succ_r. apply inject_Z_lt_iff. unfold Z.succ. rewrite inject_Z_plus. change (inject_Z 1) with 1%Q. eapply Qle_lt_trans; [|exact D]. apply Qle_shift_div_l; [exact P|]. change (inject_Z 0) with 0%Q. lra.
  - assert (Qfloor ((snd p - f_y0 f) / f_ys f) < f_ny f - 1)%Z; [|lia]. apply inject_Z_lt_iff. eapply Qle_lt_trans; [exact C|]. apply Qlt_shift_div_r; [exact P|]. lra.
Qed.
Lemma four_no_mask : forall f m i j, matrix m (f_nx f) (f_ny f) -> (0 < f_nx f)%Z -> no_mask m ->
  (f_circ f = true \/ (0 <= i /\ i + 1 < f_nx f)%Z) -> (- f_ny f <= j /\ j + 1 < f_ny f)%Z -> four f true m i j = (false, false, false, false).
Proof.
  intros f u i j M N B I J.
  assert (C0 : (0 <= col f i < f_nx f)%Z) by (apply col_range; [exact N|destruct I; [left; auto|right; lia]]).
  assert (C1 : (0 <= col f (i + 1) < f_nx f)%Z) by (apply col_range; [exact N|destruct I; [left; auto|right; lia]]).
  assert (R0 : (0 <= row f j < f_ny f)%Z) by (apply row_range; lia). assert (R1 : (0 <= row f (j + 1) < f_ny f)%Z) by (apply row_range; lia).
  assert (H : forall a b, (0 <= a < f_nx f)%Z -> (0 <= b < f_ny f)%Z -> node true u a b = false).
  { intros a b HA HB. destruct (node_In true u a b _ _ M HA HB) as (r & R & Q). apply (B r); auto. }
  unfold four. rewrite !H by auto. reflexivity.
Qed.
Lemma cell_value_stay : forall f g p, fits f g -> no_mask (snd g) -> f_circ f = true -> (0 < f_ys f)%Q -> in_rows f (snd p) ->
  exists q, cell_value f g (cell_x f p) (cell_y f p) = At q.
Proof.
  intros f [[u v] m] p (U & V & M & N & NY) B C P R. destruct (cell_y_rows f p P R) as [R0 R1]. unfold cell_value. rewrite C. cbn [negb andb].
  destruct (Z.leb_spec (f_ny f) (cell_y f p + 1)); [lia|]. destruct (Z.ltb_spec (cell_y f p) (- f_ny f)); [lia|].
  rewrite four_no_mask by (auto; lia). cbn [orb]. eexists. reflexivity.
Qed.
Definition low0 (x : Q) : Q := if Qle_bool 0 x then 0%Q else x.
Definition high0 (x : Q) : Q := if Qle_bool 0 x then x else 0%Q.
Lemma low0_le : forall x, (low0 x <= 0 /\ low0 x <= x)%Q.
Proof. intros x. unfold low0. destruct (Qle_bool 0 x) eqn:E; [apply Qle_bool_iff in E|apply Qle_bool_false in E]; lra. Qed.
Lemma high0_le : forall x, (0 <= high0 x /\ x <= high0 x)%Q.
Proof. intros x. unfold high0. destruct (Qle_bool 0 x) eqn:E; [apply Qle_bool_iff in E|apply Qle_bool_false in E]; lra. Qed.
Section Stay.
Context {P W : Type}.
Variables (f : frame) (s : Z) (vals : Z -> Z -> outcome P) (vel : W -> Q -> Q -> P -> Q * Q) (wok : W -> Prop) (lo hi : Q).
Hypothesis SM : forall w p d, wok w -> sample f s vals vel w p = At d -> (lo <= snd d /\ snd d <= hi)%Q.
Hypothesis ST : forall w p, in_rows f (snd p) -> exists d, sample f s vals vel w p = At d.
Definition safe (y : Q) : Prop := in_rows f (y + low0 lo)%Q /\ in_rows f (y + high0 hi)%Q.
Lemma safe_in : forall y d, safe y -> (low0 lo <= d /\ d <= high0 hi)%Q -> in_rows f (y + d)%Q.
Proof. intros y d [[A1 A2] [B1 B2]] [D1 D2]. split; lra. Qed.
Lemma euler_stays : forall w p, wok w -> safe (snd p) -> exists p', euler f s vals vel w p = At p'.
Proof.
  intros w p K Y. unfold euler. destruct (ST w p) as (d & ->); [|cbn; eauto].
  pose proof (safe_in _ 0%Q Y) as [A B]; [pose proof (low0_le lo); pose proof (high0_le hi); lra|]. split; lra.
Qed.
Lemma rk4_stays : forall half w p, wok w /\ wok (half w) /\ wok (half (half w)) -> safe (snd p) -> exists p', rk4 f s vals vel half w p = At p'.
Proof.
  intros half w p (K1 & K2 & K3) Y. unfold rk4. pose proof (low0_le lo) as L. pose proof (high0_le hi) as H.
  destruct (ST w p) as (d1 & E1); [pose proof (safe_in _ 0%Q Y ltac:(lra)) as [A B]; split; lra|]. rewrite E1. cbn [obind].
  destruct (SM _ _ _ K1 E1) as [A1 B1].
  destruct (ST (half w) (fst p + fst d1 * (1 # 2), snd p + snd d1 * (1 # 2))%Q) as (d2 & E2); [apply safe_in; [exact Y|lra]|]. rewrite E2. cbn [obind].
  destruct (SM _ _ _ K2 E2) as [A2 B2].
  destruct (ST (half w) (fst p + fst d2 * (1 # 2), snd p + snd d2 * (1 # 2))%Q) as (d3 & E3); [apply safe_in; [exact Y|lra]|]. rewrite E3. cbn [obind].
  destruct (SM _ _ _ K2 E3) as [A3 B3].
  destruct (ST (half (half w)) (fst p + fst d3, snd p + snd d3)%Q) as (d4 & E4); [apply safe_in; [exact Y|lra]|]. rewrite E4. cbn [obind]. eauto.
Qed.
Lemma journey_stays : forall (step : W -> Q * Q -> outcome (Q * Q)) (wok' : W -> Prop),
  (forall w p, wok' w -> safe (snd p) -> exists p', step w p = At p') -> moves wok' lo hi snd step ->
  forall ws p, (forall w, In w ws -> wok' w) ->
  in_rows f (snd p + inject_Z (Z.of_nat (length ws)) * low0 lo)%Q -> in_rows f (snd p + inject_Z (Z.of_nat (length ws)) * high0 hi)%Q ->
  exists p', journey step ws p = At p'.
Proof.
  intros step wok' STEP MV ws. induction ws as [|w ws IH]; intros p K A B; cbn [journey]; [eauto|].
  pose proof (low0_le lo) as L. pose proof (high0_le hi) as H.
  cbn [length] in A, B. rewrite Nat2Z.inj_succ in A, B. unfold Z.succ in A, B. rewrite inject_Z_plus in A, B. change (inject_Z 1) with 1%Q in A, B.
  assert (N : (0 <= inject_Z (Z.of_nat (length ws)))%Q) by (apply (inject_Z_le_iff 0); lia). set (n := inject_Z (Z.of_nat (length ws))) in *.
  destruct A as [A1 A2]. destruct B as [B1 B2].
  assert (NL : (n * low0 lo <= 0)%Q) by nra. assert (NH : (0 <= n * high0 hi)%Q) by nra.
  destruct (STEP w p (K w (or_introl eq_refl))) as (p' & E); [split; split; lra|]. rewrite E. cbn [obind].
  destruct (MV w p p' (K w (or_introl eq_refl)) E) as [M1 M2]. apply IH; [intros; apply K; right; auto| |]; split; lra.
Qed.
End Stay.

(** ** Two samplers giving the same velocities *)
Lemma both_apart_trans : forall a b c, both_apart 0 a b -> both_apart 0 b c -> both_apart 0 a c.
Proof. intros [p| |] [q| |] [r| |]; cbn; try tauto. intros [A B] [C D]. split; lra. Qed.
Lemma rk4_apart2 : forall {P P' W W'} f f' s s' (vals : Z -> Z -> outcome P) (vals' : Z -> Z -> outcome P') vel vel' (half : W -> W) (half' : W' -> W') c,
  (forall w w' p q, apart c p q -> both_apart 0 (sample f s vals vel w p) (sample f' s' vals' vel' w' q)) ->
  forall w w' p q, apart c p q -> both_apart c (rk4 f s vals vel half w p) (rk4 f' s' vals' vel' half' w' q).
Proof.
  intros P P' W W' f f' s s' vals vals' vel vel' half half' c SA w w' p q A. unfold rk4. destruct A as [A1 A2].
  eapply obind_apart; [apply SA; split; auto|]. intros d1 e1 [D1 E1].
  eapply obind_apart; [apply SA; split; cbn [fst snd]; lra|]. intros d2 e2 [D2 E2].
  eapply obind_apart; [apply SA; split; cbn [fst snd]; lra|]. intros d3 e3 [D3 E3].
  eapply obind_apart; [apply SA; split; cbn [fst snd]; lra|]. intros d4 e4 [D4 E4].
  cbn. split; cbn [fst snd]; [setoid_replace (fst e1) with (fst d1) by lra; setoid_replace (fst e2) with (fst d2) by lra; setoid_replace (fst e3) with (fst d3) by lra; setoid_replace (fst e4) with (fst d4) by lra|rewrite E1, E2, E3, E4]; unfold Qdiv; lra.
Qed.
Lemma euler_apart2 : forall {P P' W W'} f f' s s' (vals : Z -> Z -> outcome P) (vals' : Z -> Z -> outcome P') (vel : W -> _) (vel' : W' -> _) c,
  (forall w w' p q, apart c p q -> both_apart 0 (sample f s vals vel w p) (sample f' s' vals' vel' w' q)) ->
  forall w w' p q, apart c p q -> both_apart c (euler f s vals vel w p) (euler f' s' vals' vel' w' q).
Proof.
  intros P P' W W' f f' s s' vals vals' vel vel' c SA w w' p q A. unfold euler. eapply obind_apart; [apply SA; exact A|]. intros d e [D1 D2]. destruct A as [A1 A2]. cbn. split; cbn [fst snd]; lra.
Qed.
Lemma journey_apart2 : forall {W W'} c (step : W -> Q * Q -> outcome (Q * Q)) (step' : W' -> Q * Q -> outcome (Q * Q)) ws ws' p q, length ws = length ws' ->
  (forall w w' p q, apart c p q -> both_apart c (step w p) (step' w' q)) -> apart c p q -> both_apart c (journey step ws p) (journey step' ws' q).
Proof.
  intros W W' c step step' ws. induction ws as [|w ws IH]; intros [|w' ws'] p q L H A; try discriminate; cbn [journey]; [exact A|]. eapply obind_apart; [apply H; exact A|]. intros. apply IH; auto.
Qed.
Lemma sample_same : forall f s g, fits f g -> ~ (f_xs f == 0)%Q -> forall (w : unit) w' p q, apart 0 p q ->
  both_apart 0 (sample f s (cell_value f g) (fun _ => speed) w p) (sample f s (cell_values f g g) speed_t w' q).
Proof.
  intros f s g F XS w w' p q A.
  assert (N : (0 < f_nx f)%Z) by (destruct g as [[u v] m]; destruct F as (_ & _ & _ & N & _); exact N).
  apply (both_apart_trans _ (sample f s (cell_value f g) (fun _ => speed) w q)).
  - apply (sample_apart f s (cell_value f g) (fun _ : unit => speed) 0%Q 0%Z); auto; [intros; apply cell_value_wrap; exact F|change (inject_Z (0 * f_nx f)) with 0%Q; ring|exact speed_apart].
  - unfold sample. destruct (_ && _); [exact I|]. unfold cell_values. destruct (cell_value f g (cell_x f q) (cell_y f q)) as [v| |]; cbn; auto.
    unfold speed_t, speed, apart. cbn [fst snd]. split; ring.
Qed.
Lemma journey_app : forall {W} (step : W -> Q * Q -> outcome (Q * Q)) ws ws' p, journey step (ws ++ ws') p = obind (journey step ws p) (journey step ws').
Proof. intros W step ws ws'. induction ws as [|w ws IH]; intros p; cbn [app journey obind]; [reflexivity|]. destruct (step w p); cbn [obind]; auto. Qed.
Lemma fate_app : forall {W} (step : W -> Q * Q -> outcome (Q * Q)) ws ws' a b c, fate step ws a = Some b -> fate step ws' b = Some c -> fate step (ws ++ ws') a = Some c.
Proof.
  intros W step ws ws' [pos [|]] b c E1 E2.
  - assert (X : forall l, fate step l (pos, true) = Some (pos, true)) by (intros l; destruct pos; reflexivity). rewrite X in *. apply Some_inj in E1. subst b. rewrite X in E2. exact E2.
  - destruct pos as [p|]; [|discriminate]. cbn [fate] in *. rewrite journey_app. destruct (journey step ws p) as [p1| |]; cbn [obind]; [|apply Some_inj in E1; subst b; cbn in E2; exact E2|discriminate].
    apply Some_inj in E1. subst b. cbn [fate] in E2. exact E2.
Qed.
(** Velocity at a node of the grid. *)
Lemma sample_node : forall f s g (w : unit) i j d, ~ (f_xs f == 0)%Q -> ~ (f_ys f == 0)%Q -> (0 <= j)%Z ->
  sample f s (cell_value f g) (fun _ => speed) w (f_x0 f + inject_Z i * f_xs f, f_y0 f + inject_Z j * f_ys f)%Q = At d ->
  (fst d == node 0 (fst (fst g)) (col f i) j /\ snd d == node 0 (snd (fst g)) (col f i) j)%Q.
Proof.
  intros f s g w i j d XS YS J E. unfold sample in E. destruct (_ && _); [discriminate|].
  set (p := (f_x0 f + inject_Z i * f_xs f, f_y0 f + inject_Z j * f_ys f)%Q) in *.
  assert (CX : cell_x f p = i). { unfold cell_x. transitivity (Qfloor (inject_Z i)); [|apply Qfloor_Z]. apply Qfloor_comp. cbn [p fst]. field. exact XS. }
  assert (CY : cell_y f p = j). { unfold cell_y. transitivity (Qfloor (inject_Z j)); [|apply Qfloor_Z]. apply Qfloor_comp. cbn [p snd]. field. exact YS. }
  assert (PX : (place_x f p == 0)%Q). { unfold place_x. rewrite CX. cbn [p fst]. field. exact XS. }
  assert (PY : (place_y f p == 0)%Q). { unfold place_y. rewrite CY. cbn [p snd]. field. exact YS. }
  rewrite CX, CY in E. destruct (cell_value f g i j) as [q| |] eqn:C; cbn [obind] in E; try discriminate. injection E as <-.
  destruct (cell_value_At _ _ _ _ _ C) as (_ & _ & -> & _). unfold speed. cbn [fst snd].
  rewrite !(bilinear_comp _ _ 0 0 _ PX PY). unfold bilinear, mix, four, quad_of. cbn [q00 q01 q10 q11]. unfold row. destruct (Z.ltb_spec j 0); [lia|]. split; ring.
Qed.
Lemma sample_broken : forall f s g (w : unit) p, sample f s (cell_value f g) (fun _ => speed) w p = Broken ->
  (cell_y f p < - f_ny f)%Z \/ (cell_x f p = s /\ cell_y f p = s).
Proof.
  intros f s [[u v] m] w p E. unfold sample in E. destruct (negb (f_circ f) && ((cell_x f p =? s) && (cell_y f p =? s)))%Z eqn:S0.
  - right. apply andb_true_iff in S0. destruct S0 as [_ S0]. apply andb_true_iff in S0. destruct S0 as [A B]. apply Z.eqb_eq in A. apply Z.eqb_eq in B. auto.
  - left. clear S0. unfold cell_value in E. destruct (_ && _); [discriminate E|]. destruct (f_ny f <=? cell_y f p + 1)%Z; [discriminate E|]. destruct (Z.ltb_spec (cell_y f p) (- f_ny f)); [exact H|].
    destruct (four f true m _ _) as [[[a b] c] d]. destruct (a || b || c || d); discriminate E.
Qed.
