From Coq Require Import List Arith ZArith QArith Qround Qabs Bool Lia Lqa.
From Verif Require Import Base Qaux Corr_model Split_model TrackObs_more Split_net Grp_tracks Grp_more Grid_model Grid_spec.
Import ListNotations.
Local Close Scope Q_scope.
Local Open Scope nat_scope.

Lemma trunc_comp : forall a b, (a == b)%Q -> trunc a = trunc b.
Proof. intros a b E. apply Z.le_antisymm; apply trunc_mono; rewrite E; apply Qle_refl. Qed.
Lemma trunc_opp : forall a, trunc (- a) = (- trunc a)%Z.
Proof. intros [a b]. unfold trunc, Qopp. cbn [Qnum Qden]. apply Z.quot_opp_l. discriminate. Qed.
Lemma trunc_near : forall a, (Qabs (inject_Z (trunc a) - a) < 1)%Q.
Proof.
  intros a. destruct (Qlt_le_dec a 0) as [N|P].
  - assert (P : (0 <= - a)%Q) by lra. destruct (trunc_bounds _ P) as [A B]. rewrite trunc_opp, inject_Z_opp in *. apply Qabs_Qlt_condition. split; lra.
  - destruct (trunc_bounds _ P) as [A B]. apply Qabs_Qlt_condition. split; lra.
Qed.
Lemma trunc_succ : forall a, (trunc (a + 1) <= trunc a + 1)%Z.
Proof.
  intros a. destruct (Qlt_le_dec a 0) as [N|P].
  - destruct (Qlt_le_dec 0 (a + 1)) as [P'|N']; [|].
    2: { assert (P1 : (0 <= - a)%Q) by lra. assert (P2 : (0 <= - (a + 1))%Q) by lra. destruct (trunc_bounds _ P1) as [A B]. destruct (trunc_bounds _ P2) as [A' B']. rewrite trunc_opp, inject_Z_opp in *.
      apply Z.lt_succ_r. apply inject_Z_lt_iff. unfold Z.succ. rewrite !inject_Z_plus. change (inject_Z 1) with 1%Q. lra. }
    destruct (trunc_bounds _ (Qlt_le_weak _ _ P')) as [A B]. assert (P1 : (0 <= - a)%Q) by lra. destruct (trunc_bounds _ P1) as [A' B']. rewrite trunc_opp, inject_Z_opp in *.
      assert (trunc (a + 1) <= 0)%Z. { apply Z.lt_succ_r. apply inject_Z_lt_iff. change (inject_Z (Z.succ 0)) with 1%Q. lra. }
      assert (-1 < trunc a)%Z. { apply inject_Z_lt_iff. change (inject_Z (-1)) with (-1)%Q. lra. } lia.
  - assert (P2 : (0 <= (a + 1))%Q) by lra. destruct (trunc_bounds _ P) as [A B]. destruct (trunc_bounds _ P2) as [A' B'].
    apply Z.lt_succ_r. apply inject_Z_lt_iff. unfold Z.succ. rewrite !inject_Z_plus. change (inject_Z 1) with 1%Q. lra.
Qed.
Lemma trunc_step : forall a b, (Qabs (b - a) <= 1)%Q -> (Z.abs (trunc b - trunc a) <= 1)%Z.
Proof.
  intros a b H. apply Qabs_Qle_condition in H. destruct H as [H1 H2].
  assert (trunc b <= trunc a + 1)%Z. { eapply Z.le_trans; [|apply trunc_succ]. apply trunc_mono. lra. }
  assert (trunc a <= trunc b + 1)%Z. { eapply Z.le_trans; [|apply trunc_succ]. apply trunc_mono. lra. } lia.
Qed.

Lemma wrap_dx_spec : forall nb dx, (0 < nb)%Z -> (- (nb / 2) <= wrap_dx nb dx < nb - nb / 2 /\ exists q, wrap_dx nb dx = dx + q * nb)%Z.
Proof.
  intros nb dx N. unfold wrap_dx. pose proof (Z.mod_pos_bound (dx + nb / 2) nb N). split; [lia|].
  exists (- ((dx + nb / 2) / nb))%Z. pose proof (Z.div_mod (dx + nb / 2) nb ltac:(lia)). lia.
Qed.

Section Path.
Variables (nb x0 y0 x1 y1 : Z).
Let dx := wrap_dx nb (x1 - x0).
Let dy := (y1 - y0)%Z.
Let d := pixel_delta nb x0 y0 x1 y1.
Definition ideal (a e : Z) (k : nat) : Q := (inject_Z a + inject_Z (Z.of_nat k) * (inject_Z e / inject_Z d))%Q.
Lemma ideal_0 : forall a e, trunc (ideal a e 0) = a.
Proof. intros. rewrite <- (trunc_inject a) at 2. apply trunc_comp. unfold ideal. change (inject_Z (Z.of_nat 0)) with 0%Q. ring. Qed.
Lemma ideal_int : forall a e k, e <> 0%Z -> Z.abs e = d -> trunc (ideal a e k) = (a + (if (e <? 0)%Z then -1 else 1) * Z.of_nat k)%Z.
Proof.
  intros a e k N E. rewrite <- (trunc_inject (a + _)). apply trunc_comp. unfold ideal. rewrite inject_Z_plus, inject_Z_mult.
  assert (NE : ~ (inject_Z e == 0)%Q) by (intros F; apply (inject_Z_injective e 0) in F; lia).
  rewrite <- E. destruct (Z.ltb_spec e 0).
  - rewrite Z.abs_neq by lia. rewrite inject_Z_opp. change (inject_Z (-1)) with (-1)%Q. field. exact NE.
  - rewrite Z.abs_eq by lia. change (inject_Z 1) with 1%Q. field. exact NE.
Qed.
Lemma ideal_still : forall a k, trunc (ideal a 0 k) = a.
Proof. intros. rewrite <- (trunc_inject a) at 2. apply trunc_comp. unfold ideal. change (inject_Z 0) with 0%Q. unfold Qdiv. rewrite Qmult_0_l, Qmult_0_r. apply Qplus_0_r. Qed.
Lemma ideal_end : forall a e, d <> 0%Z -> trunc (ideal a e (Z.to_nat d)) = (a + e)%Z.
Proof.
  intros a e N. rewrite <- (trunc_inject (a + e)). apply trunc_comp. unfold ideal. rewrite Z2Nat.id by (unfold d, pixel_delta; lia). rewrite inject_Z_plus. field. intros F. apply (inject_Z_injective d 0) in F. lia.
Qed.
Lemma ideal_step : forall a e k, (Z.abs e <= d)%Z -> (Z.abs (trunc (ideal a e (S k)) - trunc (ideal a e k)) <= 1)%Z.
Proof.
  intros a e k E. apply trunc_step. unfold ideal. rewrite Nat2Z.inj_succ. unfold Z.succ. rewrite inject_Z_plus. change (inject_Z 1) with 1%Q.
  setoid_replace (inject_Z a + (inject_Z (Z.of_nat k) + 1) * (inject_Z e / inject_Z d) - (inject_Z a + inject_Z (Z.of_nat k) * (inject_Z e / inject_Z d)))%Q with (inject_Z e / inject_Z d)%Q by (unfold Qdiv; ring).
  destruct (Z.eq_dec d 0) as [D|D].
  - rewrite D in *. assert (e = 0%Z) as -> by lia. discriminate.
  - assert (0 < d)%Z by (unfold d, pixel_delta in *; lia). assert (P : (0 < inject_Z d)%Q) by (apply (inject_Z_lt_iff 0 d); lia).
    apply Qabs_Qle_condition. split.
    + apply Qle_shift_div_l; [exact P|]. setoid_replace (- (1) * inject_Z d)%Q with (inject_Z (- d))%Q by (rewrite inject_Z_opp; ring). apply inject_Z_le_iff. lia.
    + apply Qle_shift_div_r; [exact P|]. rewrite Qmult_1_l. apply inject_Z_le_iff. lia.
Qed.
Lemma combine_map : forall {A B C} (f : A -> B) (g : A -> C) l, combine (map f l) (map g l) = map (fun a => (f a, g a)) l.
Proof. intros A B C f g l. induction l; cbn; [reflexivity|]. f_equal. auto. Qed.
Lemma repeat_seq : forall {A} (a : A) n s, repeat a n = map (fun _ => a) (seq s n).
Proof. intros A a n. induction n; intros s; cbn; [reflexivity|]. f_equal. auto. Qed.
Lemma pixel_path_form : pixel_path nb x0 y0 x1 y1 = map (fun k => ((trunc (ideal x0 dx k) mod nb)%Z, trunc (ideal y0 dy k))) (seq 0 (Z.to_nat d + 1)).
Proof.
  unfold pixel_path. cbv zeta. fold dx. fold d. fold dy. assert (DX : (Z.abs dx <= d /\ Z.abs dy <= d /\ (d = Z.abs dx \/ d = Z.abs dy))%Z) by (unfold d, pixel_delta; fold dx dy; lia).
  destruct DX as (DX & DY & DD). replace (x0 + dx - x0)%Z with dx by lia.
  destruct (Z.eqb_spec d 0) as [D0|D0].
  { cbn [fst snd]. rewrite !(repeat_seq _ _ 0), map_map, combine_map. apply map_ext. intros k. assert (dx = 0 /\ dy = 0)%Z as [-> ->] by lia. rewrite !ideal_still. reflexivity. }
  assert (AR : forall a e, Z.abs e = d -> arange_to a e = map (fun k => trunc (ideal a e k)) (seq 0 (Z.to_nat d + 1))).
  { intros a e E. unfold arange_to. rewrite E. apply map_ext. intros k. symmetry. apply ideal_int; lia. }
  destruct (Z.eqb_spec dx 0) as [X0|X0].
  { cbn [fst snd]. rewrite AR by lia. rewrite !(repeat_seq _ _ 0), map_map, combine_map. apply map_ext. intros k. rewrite X0, ideal_still. reflexivity. }
  destruct (Z.eqb_spec dy 0) as [Y0|Y0].
  { cbn [fst snd]. rewrite AR by lia. rewrite !(repeat_seq _ _ 0), map_map, combine_map. apply map_ext. intros k. rewrite Y0, ideal_still. reflexivity. }
  assert (ND : ~ (inject_Z d == 0)%Q) by (intros F; apply (inject_Z_injective d 0) in F; lia).
  assert (NX : ~ (inject_Z dx == 0)%Q) by (intros F; apply (inject_Z_injective dx 0) in F; lia).
  assert (NY : ~ (inject_Z dy == 0)%Q) by (intros F; apply (inject_Z_injective dy 0) in F; lia).
  destruct (Z.leb_spec (Z.abs dy) (Z.abs dx)); cbn [fst snd].
  - rewrite AR by lia. rewrite !map_map, combine_map. apply map_ext. intros k. f_equal. rewrite ideal_int by lia. apply trunc_comp. unfold ideal.
    match goal with |- context [(x0 + ?z - x0)%Z] => replace (x0 + z - x0)%Z with z by lia end. rewrite inject_Z_mult. assert (E : d = Z.abs dx) by lia. rewrite E.
    destruct (Z.ltb_spec dx 0); [rewrite Z.abs_neq, inject_Z_opp by lia; change (inject_Z (-1)) with (-1)%Q|rewrite Z.abs_eq by lia; change (inject_Z 1) with 1%Q]; field; auto.
  - rewrite AR by lia. rewrite !map_map, combine_map. apply map_ext. intros k. f_equal. f_equal. rewrite ideal_int by lia. apply trunc_comp. unfold ideal.
    match goal with |- context [(y0 + ?z - y0)%Z] => replace (y0 + z - y0)%Z with z by lia end. rewrite inject_Z_mult. assert (E : d = Z.abs dy) by lia. rewrite E.
    destruct (Z.ltb_spec dy 0); [rewrite Z.abs_neq, inject_Z_opp by lia; change (inject_Z (-1)) with (-1)%Q|rewrite Z.abs_eq by lia; change (inject_Z 1) with 1%Q]; field; auto.
Qed.
Lemma path_length : length (pixel_path nb x0 y0 x1 y1) = Z.to_nat d + 1.
Proof. rewrite pixel_path_form, map_length, seq_length. reflexivity. Qed.
Lemma path_nth : forall k, k <= Z.to_nat d -> nth_error (pixel_path nb x0 y0 x1 y1) k = Some ((trunc (ideal x0 dx k) mod nb)%Z, trunc (ideal y0 dy k)).
Proof. intros k K. rewrite pixel_path_form, nth_error_map, nth_error_seq. destruct (Nat.ltb_spec k (Z.to_nat d + 1)); [reflexivity|lia]. Qed.
Lemma path_first : nth_error (pixel_path nb x0 y0 x1 y1) 0 = Some ((x0 mod nb)%Z, y0).
Proof. rewrite path_nth by lia. rewrite !ideal_0. reflexivity. Qed.
Lemma path_last : (0 < nb)%Z -> nth_error (pixel_path nb x0 y0 x1 y1) (Z.to_nat d) = Some ((x1 mod nb)%Z, y1).
Proof.
  intros N. destruct (wrap_dx_spec nb (x1 - x0) N) as (_ & q & Q). fold dx in Q. rewrite path_nth by lia. destruct (Z.eq_dec d 0) as [D|D].
  - rewrite D. cbn [Z.to_nat]. rewrite !ideal_0. assert (dx = 0 /\ y1 = y0)%Z as [X ->] by (unfold d, pixel_delta in D; fold dx in D; lia). f_equal. f_equal.
    replace x0 with (x1 + q * nb)%Z by lia. apply Z.mod_add. lia.
  - rewrite !ideal_end by exact D. f_equal. f_equal; [|unfold dy; lia]. replace (x0 + dx)%Z with (x1 + q * nb)%Z by lia. apply Z.mod_add. lia.
Qed.
Lemma path_connected : (0 < nb)%Z -> connected nb (pixel_path nb x0 y0 x1 y1).
Proof.
  intros N k p q P Q. pose proof (nth_error_Some_lt _ _ _ Q) as K. rewrite path_length in K. rewrite path_nth in P by lia. rewrite path_nth in Q by lia. apply Some_inj in P, Q. subst p q. cbn [fst snd].
  exists (trunc (ideal x0 dx (S k)) - trunc (ideal x0 dx k))%Z. cbn [fst snd]. split; [|split].
  - apply ideal_step. unfold d, pixel_delta. fold dx. lia.
  - rewrite Z.add_mod_idemp_l by lia. f_equal. lia.
  - apply ideal_step. unfold d, pixel_delta. fold dy. lia.
Qed.
Lemma path_straight : forall k p, nth_error (pixel_path nb x0 y0 x1 y1) k = Some p ->
  exists i, fst p = (i mod nb)%Z /\ (Qabs (inject_Z i - ideal x0 dx k) < 1)%Q /\ (Qabs (inject_Z (snd p) - ideal y0 dy k) < 1)%Q.
Proof.
  intros k p P. pose proof (nth_error_Some_lt _ _ _ P) as K. rewrite path_length in K. rewrite path_nth in P by lia. apply Some_inj in P. subst p. cbn [fst snd].
  exists (trunc (ideal x0 dx k)). split; [reflexivity|]. split; apply trunc_near.
Qed.
End Path.

Lemma qround_near : forall q, (Qabs (inject_Z (qround q) - q) <= 1 # 2)%Q.
Proof.
  intros q. unfold qround. destruct (Qfloor_bounds q) as [A B].
  destruct (Qlt_bool (q - inject_Z (Qfloor q)) (1 # 2)) eqn:E; [apply Qlt_bool_iff in E|apply Qlt_bool_false in E; destruct (Qlt_bool (1 # 2) (q - inject_Z (Qfloor q))) eqn:E2; [apply Qlt_bool_iff in E2|apply Qlt_bool_false in E2; destruct (Z.even (Qfloor q))]];
  apply Qabs_Qle_condition; rewrite ?inject_Z_plus; change (inject_Z 1) with 1%Q; split; lra.
Qed.
Lemma qround_comp : forall a b, (a == b)%Q -> qround a = qround b.
Proof.
  intros a b E. unfold qround. rewrite (Qfloor_comp _ _ E).
  assert (H : forall x y z w, (x == y)%Q -> (z == w)%Q -> Qlt_bool x z = Qlt_bool y w). { intros. apply eq_true_iff_eq. rewrite !Qlt_bool_iff. rewrite H, H0. reflexivity. }
  rewrite (H (a - inject_Z (Qfloor b))%Q (b - inject_Z (Qfloor b))%Q (1 # 2)%Q (1 # 2)%Q), (H (1 # 2)%Q (1 # 2)%Q (a - inject_Z (Qfloor b))%Q (b - inject_Z (Qfloor b))%Q); rewrite ?E; reflexivity.
Qed.
Lemma qround_inject : forall z, qround (inject_Z z) = z.
Proof.
  intros z. pose proof (qround_near (inject_Z z)) as H. apply Qabs_Qle_condition in H. destruct H as [A B].
  assert (qround (inject_Z z) < z + 1)%Z by (apply inject_Z_lt_iff; rewrite inject_Z_plus; change (inject_Z 1) with 1%Q; lra).
  assert (z < qround (inject_Z z) + 1)%Z by (apply inject_Z_lt_iff; rewrite inject_Z_plus; change (inject_Z 1) with 1%Q; lra). lia.
Qed.
Lemma qround_mono : forall a b, (a <= b)%Q -> (qround a <= qround b)%Z.
Proof.
  intros a b L. assert (F := Qfloor_resp_le _ _ L). destruct (Z.eq_dec (Qfloor a) (Qfloor b)) as [E|E].
  - unfold qround. rewrite E. destruct (Qlt_bool (a - _) _) eqn:A1; [destruct (Qlt_bool (b - _) _); [lia|destruct (Qlt_bool (1 # 2) _); [lia|destruct (Z.even _); lia]]|].
    apply Qlt_bool_false in A1. destruct (Qlt_bool (b - _) _) eqn:B1; [apply Qlt_bool_iff in B1; exfalso; lra|].
    destruct (Qlt_bool (1 # 2) (b - _)) eqn:B2; [destruct (Qlt_bool (1 # 2) (a - _)); [lia|destruct (Z.even _); lia]|]. apply Qlt_bool_false in B2.
    destruct (Qlt_bool (1 # 2) (a - _)) eqn:A2; [apply Qlt_bool_iff in A2; exfalso; lra|]. lia.
  - assert (qround a <= Qfloor a + 1)%Z. { unfold qround. repeat destruct (Qlt_bool _ _); try destruct (Z.even _); lia. }
    assert (Qfloor b <= qround b)%Z. { unfold qround. repeat destruct (Qlt_bool _ _); try destruct (Z.even _); lia. } lia.
Qed.

Lemma on_segment_eq : forall {A} xo yo xs ys (f : Z -> Z -> Z -> Z -> A) s,
  on_segment xo yo xs ys f s = f (pixel_x xo xs (fst (fst s))) (pixel_y yo ys (snd (fst s))) (pixel_x xo xs (fst (snd s))) (pixel_y yo ys (snd (snd s))).
Proof. reflexivity. Qed.
Lemma Qeq_le : forall a b, (a == b)%Q -> (a <= b)%Q.
Proof. intros a b E. rewrite E. apply Qle_refl. Qed.

(** ** Ground *)
Lemma sequence_app : forall {A} (a b : list (option A)) r, sequence (a ++ b) = Some r ->
  exists ra rb, sequence a = Some ra /\ sequence b = Some rb /\ r = ra ++ rb.
Proof.
  intros A a. induction a as [|x a IH]; intros b r E; [exists [], r; auto|]. cbn [sequence app] in *.
  destruct x as [x|]; [|discriminate]. cbn [bind] in *. destruct (sequence (a ++ b)) as [r'|] eqn:E'; [|discriminate]. cbn [bind] in E. injection E as <-.
  destruct (IH b r' E') as (ra & rb & Ea & Eb & ->). exists (x :: ra), rb. rewrite Ea, Eb. auto.
Qed.
Lemma sequence_In : forall {A B} (g : A -> option B) l r, sequence (map g l) = Some r -> forall b, In b r <-> exists a, In a l /\ g a = Some b.
Proof.
  intros A B g l. induction l as [|x l IH]; intros r E b; cbn [map sequence] in E.
  - injection E as <-. split; [intros []|intros (a & [] & _)].
  - destruct (g x) as [y|] eqn:G; [|discriminate]. cbn [bind] in E. destruct (sequence (map g l)) as [r'|] eqn:E'; [|discriminate]. cbn [bind] in E. injection E as <-.
    cbn [In]. rewrite (IH r' eq_refl). split.
    + intros [<-|(a & I & H)]; [exists x; auto|exists a; auto].
    + intros (a & [<-|I] & H); [left; congruence|right; exists a; auto].
Qed.
Lemma sequence_len : forall {A} (l : list (option A)) r, sequence l = Some r -> length r = length l.
Proof.
  intros A l. induction l as [|x l IH]; intros r E; cbn [sequence] in E; [injection E as <-; reflexivity|].
  destruct x; [|discriminate]. cbn [bind] in E. destruct (sequence l); [|discriminate]. cbn [bind] in E. injection E as <-. cbn. f_equal. auto.
Qed.
Lemma combine_app : forall {A B} (a a' : list A) (b b' : list B), length a = length b -> combine (a ++ a') (b ++ b') = combine a b ++ combine a' b'.
Proof. intros A B a. induction a as [|x a IH]; intros a' [|y b] b' L; try discriminate; [reflexivity|]. cbn. f_equal. apply IH. cbn in L. lia. Qed.
Lemma combine_repeat : forall {A B} (a : A) (b : list B), combine (repeat a (length b)) b = map (pair a) b.
Proof. intros A B a b. induction b; cbn; [reflexivity|]. f_equal. auto. Qed.
Lemma owners_spec : forall {P} (ground : P -> option bool) (paths : list (list P)) s data k,
  sequence (map ground (concat paths)) = Some data ->
  (In k (map fst (filter snd (combine (repeat_by (seq s (length paths)) (map (@length P) paths)) data)))
   <-> exists j p x, k = s + j /\ nth_error paths j = Some p /\ In x p /\ ground x = Some true).
Proof.
  intros P ground paths. induction paths as [|p paths IH]; intros s data k E.
  - cbn. split; [intros []|intros (j & p & x & _ & N & _); destruct j; discriminate].
  - cbn [concat] in E. rewrite map_app in E. destruct (sequence_app _ _ _ E) as (ra & rb & Ea & Eb & ->).
    cbn [length seq map repeat_by]. pose proof (sequence_len _ _ Ea) as LA. rewrite map_length in LA.
    rewrite combine_app by (rewrite repeat_length; lia). rewrite <- LA, combine_repeat, filter_app, map_app, in_app_iff, (IH (S s) rb k Eb). split.
    + intros [H|(j & p' & x & -> & N & H)].
      * apply in_map_iff in H. destruct H as ([k' b] & <- & H). apply filter_In in H. destruct H as [H B]. cbn in B. subst b. apply in_map_iff in H. destruct H as (b & F & H). injection F as -> ->.
        apply (sequence_In _ _ _ Ea) in H. destruct H as (x & I & G). exists 0, p, x. split; [cbn; lia|]. auto.
      * exists (S j), p', x. split; [lia|]. auto.
    + intros ([|j] & p' & x & -> & N & I & G).
      * left. cbn in N. injection N as ->. apply in_map_iff. exists (s, true). split; [cbn; lia|]. apply filter_In. split; [|reflexivity]. apply in_map_iff. exists true. split; [reflexivity|]. apply (sequence_In _ _ _ Ea). exists x. auto.
      * right. exists j, p', x. split; [lia|]. auto.
Qed.
Lemma sequence_total : forall {A B} (g : A -> option B) l, (forall a, In a l -> g a <> None) -> exists r, sequence (map g l) = Some r.
Proof.
  intros A B g l. induction l as [|x l IH]; intros H; [exists []; reflexivity|]. cbn [map sequence]. destruct (g x) as [y|] eqn:G; [|exfalso; apply (H x); [left|]; auto].
  destruct IH as (r & ->). { intros a I. apply H. right. exact I. } cbn. eauto.
Qed.
Lemma across_ground_spec : forall xo yo xs ys nb ground segs m, across_ground xo yo xs ys nb ground segs = Some m ->
  length m = length segs /\ forall k s, nth_error segs k = Some s ->
    (nth_error m k = Some true <-> forall p, In p (on_segment xo yo xs ys (pixel_path nb) s) -> ground p = Some false).
Proof.
  intros xo yo xs ys nb ground segs m E. unfold across_ground in E. unfold compute_pixel_path in E. cbv zeta in E. cbn [fst snd] in E.
  set (paths := map (on_segment xo yo xs ys (pixel_path nb)) segs) in *.
  destruct (sequence (map ground (concat paths))) as [data|] eqn:D; [|discriminate]. cbn [bind] in E. apply Some_inj in E. subst m.
  split; [rewrite map_length, seq_length; reflexivity|]. intros k s K.
  rewrite nth_error_map, nth_error_seq. pose proof (nth_error_Some_lt _ _ _ K) as KL. destruct (Nat.ltb_spec k (length segs)); [|lia]. cbn [option_map].
  replace (length segs) with (length paths) by (unfold paths; rewrite map_length; reflexivity).
  assert (LP : map (fun d => d + 1) (map (fun s => Z.to_nat (on_segment xo yo xs ys (pixel_delta nb) s)) segs) = map (@length (Z * Z)) paths).
  { unfold paths. rewrite !map_map. apply map_ext. intros s'. unfold on_segment. rewrite path_length. reflexivity. }
  rewrite LP. set (ig := map fst (filter snd (combine _ data))).
  assert (PK : nth_error paths k = Some (on_segment xo yo xs ys (pixel_path nb) s)) by (unfold paths; rewrite nth_error_map, K; reflexivity).
  assert (IG : existsb (Nat.eqb k) ig = true <-> exists x, In x (on_segment xo yo xs ys (pixel_path nb) s) /\ ground x = Some true).
  { rewrite existsb_exists. split.
    - intros (k' & I & Ek). apply Nat.eqb_eq in Ek. subst k'. apply (owners_spec ground paths 0 data k D) in I. destruct I as (j & p & x & -> & N & I & G). cbn in PK. rewrite PK in N. injection N as <-. exists x. exact (conj I G).
    - intros (x & I & G). exists k. split; [|apply Nat.eqb_refl]. apply (owners_spec ground paths 0 data k D). exists k. eexists. exists x. split; [lia|]. split; [exact PK|]. exact (conj I G). }
  split.
  - intros N p I. injection N as N. apply negb_true_iff in N. destruct (ground p) as [[|]|] eqn:G; [|reflexivity|].
    + exfalso. rewrite (proj2 IG (ex_intro _ p (conj I G))) in N. discriminate N.
    + exfalso. assert (C : In p (concat paths)) by (apply in_concat; eexists; split; [eapply nth_error_In; exact PK|exact I]). clear - D C G. revert data D. induction (concat paths) as [|y l IH]; intros data D; [destruct C|]. cbn [map sequence] in D. destruct C as [->|C]; [rewrite G in D; discriminate|].
      destruct (ground y); [|discriminate]. cbn [bind] in D. destruct (sequence (map ground l)) eqn:Q; [|discriminate]. apply (IH C _ eq_refl).
  - intros H'. f_equal. apply negb_true_iff, not_true_iff_false. intros X. apply IG in X. destruct X as (x & I & G). rewrite (H' x I) in G. discriminate G.
Qed.
