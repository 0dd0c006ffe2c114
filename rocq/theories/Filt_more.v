From Coq Require Import List Arith ZArith QArith Qabs Bool Lia Lqa.
From Verif Require Import Base Qaux Spec Obs_model Obs_proofs Corr_model Grid_path Poly_pairs Filt_spec Filt_model Filt_proofs Filt_mean.
Import ListNotations.
Local Close Scope Q_scope.
Local Open Scope nat_scope.

Lemma convolve_spec : forall circular data nx ny y_c kernel lat_max extend, rect nx ny data -> length y_c = ny -> kernels_ok circular nx y_c lat_max kernel ->
  exists out, convolve circular data y_c kernel lat_max extend = Some out /\ length out = ny /\ (forall l, In l out -> length l = nx) /\
    forall x y lat, x < nx -> nth_error y_c y = Some lat -> exists c, cell_of out x y c /\
      ((lat_max < Qabs lat)%Q -> c = Masked) /\ ((forall x', x' < nx -> value_at circular data (Z.of_nat x') (Z.of_nat y) = None) -> c = Masked) /\
      ((Qabs lat <= lat_max)%Q -> (exists x', x' < nx /\ value_at circular data (Z.of_nat x') (Z.of_nat y) <> None) ->
        forall K dx dy, kernel lat = Some K -> odd_kernel K dx dy -> mean_around circular data K dx dy extend x y c).
Proof.
  intros circular data nx ny y_c kernel lat_max extend RD LY HK. unfold convolve.
  assert (H1 : forall i lat, nth_error y_c i = Some lat -> exists out, filter_one circular data y_c kernel lat_max extend i = Some out /\ length out = nx /\
    forall x, x < nx -> exists c, nth_error out x = Some c /\
      ((lat_max < Qabs lat)%Q -> c = Masked) /\ ((forall x', x' < nx -> value_at circular data (Z.of_nat x') (Z.of_nat i) = None) -> c = Masked) /\
      ((Qabs lat <= lat_max)%Q -> (exists x', x' < nx /\ value_at circular data (Z.of_nat x') (Z.of_nat i) <> None) ->
        forall K dx dy, kernel lat = Some K -> odd_kernel K dx dy -> mean_around circular data K dx dy extend x i c)).
  { intros i lat N. apply (filter_one_spec circular data nx ny); auto. intros Hl _. apply HK; [exact (nth_error_In _ _ N)|exact Hl]. }
  rewrite LY. destruct (sequence_total (filter_one circular data y_c kernel lat_max extend) (seq 0 ny)) as (out & E).
  { intros i I. apply in_seq in I. destruct (nth_error_lt_Some y_c i) as (lat & N); [lia|]. destruct (H1 i lat N) as (o & -> & _). discriminate. }
  exists out. split; [exact E|]. destruct (sequence_nth _ _ E) as (LO & NO). rewrite map_length, seq_length in LO. split; [exact LO|].
  assert (H2 : forall i lat, nth_error y_c i = Some lat -> nth_error out i = match filter_one circular data y_c kernel lat_max extend i with Some o => Some o | None => None end).
  { intros i lat N. pose proof (nth_error_Some_lt _ _ _ N). specialize (NO i). rewrite nth_error_map, nth_error_seq in NO. destruct (Nat.ltb_spec i ny); [|lia]. cbn [option_map Nat.add] in NO.
    destruct (nth_error out i); [|discriminate NO]. apply Some_inj in NO. rewrite NO. reflexivity. }
  split.
  - intros l I. destruct (In_nth_error _ _ I) as (i & N). pose proof (nth_error_Some_lt _ _ _ N). destruct (nth_error_lt_Some y_c i) as (lat & NY); [lia|]. rewrite (H2 i lat NY) in N. destruct (H1 i lat NY) as (o & EO & L & _). rewrite EO in N. injection N as <-. exact L.
  - intros x y lat X N. destruct (H1 y lat N) as (o & EO & L & C). destruct (C x X) as (c & NC & R). exists c. split; [|exact R]. exists o. split; [|exact NC]. rewrite (H2 y lat N), EO. reflexivity.
Qed.
Lemma cell_of_fun : forall {A} (out : list (list A)) x y c c', cell_of out x y c -> cell_of out x y c' -> c = c'.
Proof. intros A out x y c c' (l & N & M) (l' & N' & M'). rewrite N in N'. injection N' as <-. rewrite M in M'. injection M' as <-. reflexivity. Qed.
Lemma convolve_val : forall circular data nx ny y_c kernel lat_max extend out x y q, rect nx ny data -> length y_c = ny -> kernels_ok circular nx y_c lat_max kernel ->
  convolve circular data y_c kernel lat_max extend = Some out -> cell_of out x y (Val q) ->
  x < nx /\ exists lat K dx dy, nth_error y_c y = Some lat /\ kernel lat = Some K /\ odd_kernel K dx dy /\ ~ (around_weight circular data K dx dy x y == 0)%Q /\ (q == around_sum circular data K dx dy x y / around_weight circular data K dx dy x y)%Q.
Proof.
  intros circular data nx ny y_c kernel lat_max extend out x y q RD LY HK E C. destruct (convolve_spec circular data nx ny y_c kernel lat_max extend RD LY HK) as (out' & E' & LO & LL & H). rewrite E in E'. apply Some_inj in E'. subst out'.
  destruct C as (l & NL & NX). assert (X : x < nx) by (rewrite <- (LL l (nth_error_In _ _ NL)); exact (nth_error_Some_lt _ _ _ NX)). split; [exact X|].
  destruct (nth_error_lt_Some y_c y) as (lat & NY). { rewrite LY, <- LO. exact (nth_error_Some_lt _ _ _ NL). }
  destruct (H x y lat X NY) as (c & C & H1 & H2 & H3). assert (Ec := cell_of_fun _ _ _ _ _ C (ex_intro _ l (conj NL NX))). subst c.
  assert (Hl : (Qabs lat <= lat_max)%Q). { destruct (Qlt_le_dec lat_max (Qabs lat)) as [Hl|Hl]; [discriminate (H1 Hl)|exact Hl]. }
  destruct (HK lat (nth_error_In _ _ NY) Hl) as (K & dx & dy & EK & OK & _). exists lat, K, dx, dy. split; [exact NY|]. split; [exact EK|]. split; [exact OK|].
  assert (EX : exists x', x' < nx /\ value_at circular data (Z.of_nat x') (Z.of_nat y) <> None).
  { clear -H2. assert (D : forall n, (exists x', x' < n /\ value_at circular data (Z.of_nat x') (Z.of_nat y) <> None) \/ forall x', x' < n -> value_at circular data (Z.of_nat x') (Z.of_nat y) = None).
    { induction n as [|n [(x' & L & V)|IH]]; [right; intros; lia|left; exists x'; split; [lia|exact V]|]. destruct (value_at circular data (Z.of_nat n) (Z.of_nat y)) eqn:V; [left; exists n; split; [lia|rewrite V; discriminate]|]. right. intros x' L. destruct (Nat.eq_dec x' n) as [->|]; [exact V|apply IH; lia]. }
    destruct (D nx) as [D'|D']; [exact D'|]. discriminate (H2 D'). }
  destruct (H3 Hl EX K dx dy EK OK) as (M1 & M2 & M3).
  set (masked := match extend with None => _ | Some e => _ end) in *.
  assert (NM : ~ masked) by (intros M; discriminate (M1 M)).
  assert (W : ~ (around_weight circular data K dx dy x y == 0)%Q) by (intros W; discriminate (M2 NM W)). split; [exact W|].
  destruct (M3 NM W) as (q' & Eq & Qq). injection Eq as ->. exact Qq.
Qed.
Lemma Qsum_scale : forall {A} (f g : A -> Q) c l, (forall a, In a l -> f a == c * g a)%Q -> (Qsum (map f l) == c * Qsum (map g l))%Q.
Proof. intros A f g c l. induction l as [|a l IH]; intros H; [cbn; ring|]. cbn [map Qsum]. rewrite (H a) by (left; reflexivity). rewrite IH by (intros; apply H; right; auto). ring. Qed.
Lemma Qsum_le : forall {A} (f g : A -> Q) l, (forall a, In a l -> f a <= g a)%Q -> (Qsum (map f l) <= Qsum (map g l))%Q.
Proof. intros A f g l. induction l as [|a l IH]; intros H; [cbn; lra|]. cbn [map Qsum]. assert (H1 := H a (or_introl eq_refl)). assert (H2 : (Qsum (map f l) <= Qsum (map g l))%Q) by (apply IH; intros; apply H; right; auto). lra. Qed.
Lemma around_constant : forall circular data K dx dy x y c, (forall X Y v, value_at circular data X Y = Some v -> v == c)%Q -> (around_sum circular data K dx dy x y == c * around_weight circular data K dx dy x y)%Q.
Proof.
  intros circular data K dx dy x y c H. unfold around_sum, around_weight, over. apply Qsum_scale. intros (a, b) _. cbn [fst snd]. destruct (value_at circular data _ _) as [v|] eqn:V; [rewrite (H _ _ _ V)|]; ring.
Qed.
Lemma weight_nonneg : forall K dx dy a b, (forall row w, In row K -> In w row -> 0 <= w)%Q -> (0 <= weight K dx dy a b)%Q.
Proof.
  intros K dx dy a b H. unfold weight. set (i := Z.to_nat (a + Z.of_nat dx)). set (j := Z.to_nat (b + Z.of_nat dy)).
  destruct (Nat.lt_ge_cases i (length K)) as [I|I]; [|rewrite (nth_overflow K) by exact I; destruct j; cbn; lra].
  destruct (Nat.lt_ge_cases j (length (nth i K []))) as [J|J]; [|rewrite nth_overflow by exact J; lra].
  apply (H (nth i K [])); apply nth_In; assumption.
Qed.
Lemma around_bounds : forall circular data K dx dy x y lo hi, (forall row w, In row K -> In w row -> 0 <= w)%Q -> (forall X Y v, value_at circular data X Y = Some v -> lo <= v /\ v <= hi)%Q ->
  (0 <= around_weight circular data K dx dy x y)%Q /\ (lo * around_weight circular data K dx dy x y <= around_sum circular data K dx dy x y)%Q /\ (around_sum circular data K dx dy x y <= hi * around_weight circular data K dx dy x y)%Q.
Proof.
  intros circular data K dx dy x y lo hi HK H. unfold around_sum, around_weight, over.
  set (l := list_prod (span dx) (span dy)).
  set (fw := fun p : Z * Z => match value_at circular data (Z.of_nat x + fst p) (Z.of_nat y + snd p) with Some _ => weight K dx dy (fst p) (snd p) | None => 0%Q end).
  set (fs := fun p : Z * Z => match value_at circular data (Z.of_nat x + fst p) (Z.of_nat y + snd p) with Some v => (weight K dx dy (fst p) (snd p) * v)%Q | None => 0%Q end).
  change (0 <= Qsum (map fw l) /\ lo * Qsum (map fw l) <= Qsum (map fs l) /\ Qsum (map fs l) <= hi * Qsum (map fw l))%Q.
  split; [|split].
  - assert (Z : (Qsum (map (fun _ : Z * Z => 0%Q) l) == 0)%Q) by (clear; induction l as [|a l IH]; [reflexivity|cbn [map Qsum]; rewrite IH; reflexivity]). rewrite <- Z. apply Qsum_le. intros p _. unfold fw. destruct (value_at _ _ _ _); [apply weight_nonneg; exact HK|lra].
  - rewrite <- (Qsum_scale (fun p => lo * fw p)%Q fw lo l) by (intros; reflexivity). apply Qsum_le. intros p _. unfold fw, fs. destruct (value_at _ _ _ _) as [v|] eqn:V; [|lra]. destruct (H _ _ _ V). assert (W := weight_nonneg K dx dy (fst p) (snd p) HK). nra.
  - rewrite <- (Qsum_scale (fun p => hi * fw p)%Q fw hi l) by (intros; reflexivity). apply Qsum_le. intros p _. unfold fw, fs. destruct (value_at _ _ _ _) as [v|] eqn:V; [|lra]. destruct (H _ _ _ V). assert (W := weight_nonneg K dx dy (fst p) (snd p) HK). nra.
Qed.
Lemma nth_turned : forall {A} s (l : list A) x, s <= length l -> x < length l -> nth_error (turned s l) x = nth_error l ((x + s) mod length l).
Proof.
  intros A s l x S X. unfold turned. destruct (Nat.lt_ge_cases x (length l - s)) as [H|H].
  - rewrite nth_error_app1 by (rewrite skipn_length; lia). rewrite nth_skipn. rewrite Nat.mod_small by lia. f_equal. lia.
  - rewrite nth_error_app2 by (rewrite skipn_length; lia). rewrite skipn_length. rewrite nth_firstn by lia. f_equal.
    replace (x + s) with (x - (length l - s) + 1 * length l) by lia. rewrite Nat.mod_add by lia. rewrite Nat.mod_small by lia. reflexivity.
Qed.
Lemma length_turned : forall {A} s (l : list A), s <= length l -> length (turned s l) = length l.
Proof. intros. unfold turned. rewrite app_length, skipn_length, firstn_length. lia. Qed.
Lemma turned_value : forall s (data : grid) x y, s <= length data -> value_at true (turned s data) x y = value_at true data (x + Z.of_nat s) y.
Proof.
  intros s data x y S. unfold value_at. rewrite length_turned by exact S. destruct (Nat.eq_dec (length data) 0) as [Z0|NZ].
  - destruct data; [|discriminate Z0]. replace s with 0 by (cbn in S; lia). unfold turned. cbn [skipn firstn app]. replace (x + Z.of_nat 0)%Z with x by lia. reflexivity.
  - set (n := Z.of_nat (length data)). assert (N : (0 < n)%Z) by lia. assert (B1 := Z.mod_pos_bound x n N). assert (B2 := Z.mod_pos_bound (x + Z.of_nat s) n N).
    destruct (Z.ltb_spec (x mod n) 0); [lia|]. destruct (Z.ltb_spec ((x + Z.of_nat s) mod n) 0); [lia|]. cbn [orb]. destruct (y <? 0)%Z; [reflexivity|].
    rewrite nth_turned by lia. replace ((Z.to_nat (x mod n) + s) mod length data) with (Z.to_nat ((x + Z.of_nat s) mod n)); [reflexivity|].
    apply Nat2Z.inj. rewrite Z2Nat.id by lia. rewrite Nat2Z.inj_mod, Nat2Z.inj_add, Z2Nat.id by lia. fold n. rewrite Zplus_mod_idemp_l. reflexivity.
Qed.
Lemma over_eq : forall dx dy f g, (forall a b, f a b = g a b) -> over dx dy f = over dx dy g.
Proof. intros dx dy f g H. unfold over. f_equal. apply map_ext. intros. apply H. Qed.
Lemma rect_turned : forall {A} s n m (l : list (list A)), s <= n -> rect n m l -> rect n m (turned s l).
Proof. intros A s n m l S (L & R). split; [rewrite length_turned by lia; exact L|]. intros row I. apply R. unfold turned in I. rewrite <- (firstn_skipn s l). apply in_or_app. apply in_app_or in I. tauto. Qed.
Lemma mod_value : forall (data : grid) x y, value_at true data (x mod Z.of_nat (length data)) y = value_at true data x y.
Proof. intros. unfold value_at. rewrite Zmod_mod. reflexivity. Qed.
