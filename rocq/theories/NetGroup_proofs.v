From Coq Require Import List Arith Bool Lia.
Import ListNotations.
From Verif Require Import Base Graph_spec NetGroup_model NetGroup_spec.

(** ** Arrays read with default 0 *)
Definition V (l : list nat) (x : nat) : nat := nth x l 0.
Lemma V_some : forall l x a, nth_error l x = Some a -> V l x = a.
Proof. intros. unfold V. now apply nth_error_nth. Qed.
Lemma V_nth : forall l x, x < length l -> nth_error l x = Some (V l x).
Proof. intros. destruct (nth_error_lt_Some l x H) as [a E]. rewrite E. f_equal. symmetry. now apply V_some. Qed.
Lemma V_out : forall l x, length l <= x -> V l x = 0.
Proof. intros. apply nth_overflow. auto. Qed.

Lemma gather_V : forall l ix, (forall i, In i ix -> i < length l) -> gather l ix = Some (map (V l) ix).
Proof.
  induction ix as [|i ix IH]; intros B; simpl; auto.
  rewrite V_nth by (apply B; left; auto). cbn [bind]. rewrite IH by (intros; apply B; right; auto). reflexivity.
Qed.

Lemma stores_V : forall ix (l vs l' : list nat), stores l ix vs = Some l' ->
  length l' = length l /\
  forall x, (~ In x ix /\ V l' x = V l x) \/ exists q, nth_error ix q = Some x /\ nth_error vs q = Some (V l' x).
Proof.
  induction ix as [|i ix IH]; intros l [|v vs] l' H; simpl in H; try discriminate.
  - injection H as <-. split; auto.
  - apply bind_Some in H as (l1 & S1 & S2). apply store_Some in S1 as [Hi ->].
    destruct (IH _ _ _ S2) as [L D]. rewrite length_upd in L. split; [exact L|].
    intros x. destruct (D x) as [[N E]|(q & Q1 & Q2)].
    + destruct (Nat.eq_dec i x) as [->|NE].
      * right. exists 0. split; [reflexivity|]. rewrite E. simpl. f_equal. symmetry. apply V_some.
        apply nth_error_upd_eq; auto.
      * left. split; [simpl; tauto|]. rewrite E. unfold V.
        destruct (Nat.lt_ge_cases x (length l)) as [Hx|Hx].
        -- apply (nth_error_nth (upd l i v) x 0). rewrite nth_error_upd_neq by auto. apply V_nth; auto.
        -- rewrite !nth_overflow; auto. rewrite length_upd; auto.
    + right. exists (S q). auto.
Qed.

Lemma combine_select : forall {A B} m (a : list A) (b : list B),
  combine (select m a) (select m b) = select m (combine a b).
Proof.
  induction m as [|x m IH]; intros [|u a] [|v b]; simpl; auto.
  - destruct x; auto. destruct (select m a); reflexivity.
  - destruct x; simpl; auto. f_equal. auto.
Qed.

Lemma select_In2 : forall {A} (f : A -> bool) l x, In x (select (map f l) l) <-> In x l /\ f x = true.
Proof.
  induction l as [|a l IH]; intros x; simpl; [tauto|].
  destruct (f a) eqn:E; simpl; rewrite IH; intuition (subst; auto); congruence.
Qed.

Lemma nth_combine : forall {A B} (a : list A) (b : list B) q x y,
  nth_error a q = Some x -> nth_error b q = Some y -> nth_error (combine a b) q = Some (x, y).
Proof.
  induction a as [|u a IH]; intros [|v b] [|q] x y H1 H2; simpl in *; try discriminate; try congruence. auto.
Qed.
Lemma nth_combine_inv : forall {A B} (a : list A) (b : list B) q x y,
  nth_error (combine a b) q = Some (x, y) -> nth_error a q = Some x /\ nth_error b q = Some y.
Proof.
  induction a as [|u a IH]; intros [|v b] [|q] x y H; simpl in *; try discriminate.
  - injection H as -> ->. auto.
  - auto.
Qed.
Lemma map_combine2 : forall {A B} (f : A -> B) (a b : list A),
  combine (map f a) (map f b) = map (fun p => (f (fst p), f (snd p))) (combine a b).
Proof. induction a as [|x a IH]; intros [|y b]; simpl; auto. f_equal. auto. Qed.

(** ** Invariants of the grouping loop *)
Record part (E E' : list (nat * nat)) (gr : list nat) (M : list (nat * nat)) (f : nat) : Prop := {
  p_free : 1 <= f;
  p_low : forall x, V gr x < f;
  p_same : forall x y, V gr x = V gr y -> V gr x <> 0 -> chain E' x y;
  p_merge : forall g h, In (g, h) M -> exists x y, V gr x = g /\ V gr y = h /\ g <> 0 /\ h <> 0 /\ chain E' x y;
  p_old : forall x y, In (x, y) E -> V gr x <> 0 /\ V gr y <> 0 /\ chain M (V gr x) (V gr y);
  p_touch : forall x, V gr x <> 0 -> exists y, joined E' x y
}.

Lemma part_ext : forall E E' gr M f, part E E gr M f -> incl E E' -> part E E' gr M f.
Proof.
  intros E E' gr M f [A B C D F G] I. constructor; auto.
  - intros x y H N. eapply chain_weaken; [exact I|]. auto.
  - intros g h H. destruct (D g h H) as (x & y & X). exists x, y. intuition. eapply chain_weaken; [exact I|]; auto.
  - intros x N. destruct (G x N) as (y & [J|J]); exists y; [left|right]; auto.
Qed.

(** Writes to free positions, taking either a neighbour's number or a fresh one. *)
Lemma part_write : forall E E' gr gr' M f nb (sel : list (nat * nat)),
  part E E' gr M f ->
  (forall q a b, nth_error sel q = Some (a, b) -> joined E' a b) ->
  (forall x, V gr' x = V gr x \/
     (V gr x = 0 /\ exists y, joined E' x y /\ V gr' x = V gr y /\ V gr y <> 0) \/
     (V gr x = 0 /\ exists q a b, nth_error sel q = Some (a, b) /\ (x = a \/ x = b) /\ V gr' x = f + q /\ q < nb)) ->
  part E E' gr' M (f + nb).
Proof.
  intros E E' gr gr' M f nb sel [A B C D F G] SEL W.
  assert (KEEP : forall x, V gr x <> 0 -> V gr' x = V gr x).
  { intros x N. destruct (W x) as [|[[Z _]|[Z _]]]; congruence. }
  (* every written number comes from an old row in chain, or is fresh *)
  assert (SRC : forall x, V gr' x <> 0 ->
     (V gr' x < f /\ exists z, V gr z = V gr' x /\ chain E' x z) \/
     (exists q a b, nth_error sel q = Some (a, b) /\ (x = a \/ x = b) /\ V gr' x = f + q)).
  { intros x N. destruct (W x) as [K|[(Z & y & J & K & NY)|(Z & q & a & b & S & X & K & _)]].
    - left. rewrite K. split; [apply B|]. exists x. split; [auto|constructor].
    - left. rewrite K. split; [apply B|]. exists y. split; [auto|apply chain_one; auto].
    - right. eauto 8. }
  constructor.
  - lia.
  - intros x. destruct (W x) as [K|[(Z & y & J & K & NY)|(Z & q & a & b & S & X & K & Q)]]; rewrite K.
    + specialize (B x). lia.
    + specialize (B y). lia.
    + lia.
  - intros x y K N. destruct (SRC x N) as [(L1 & z & Z1 & C1)|(q & a & b & S & X & K1)];
      destruct (SRC y ltac:(congruence)) as [(L2 & z' & Z2 & C2)|(q' & a' & b' & S' & X' & K2)].
    + eapply chain_trans; [exact C1|]. eapply chain_trans; [|apply chain_sym; exact C2].
      apply C; congruence.
    + exfalso. rewrite K in L1. lia.
    + exfalso. rewrite <- K in L2. lia.
    + assert (q = q') by lia. subst q'. rewrite S in S'. injection S' as <- <-. specialize (SEL q a b S).
      destruct X as [->| ->], X' as [->| ->]; [constructor|apply chain_one; auto|apply chain_one, joined_sym; auto|constructor].
  - intros g h H. destruct (D g h H) as (x & y & Vx & Vy & Ng & Nh & Cxy). exists x, y.
    rewrite !KEEP by congruence. auto.
  - intros x y H. destruct (F x y H) as (N1 & N2 & CH). rewrite !KEEP by auto. auto.
  - intros x N. destruct (W x) as [K|[(Z & y & J & K & NY)|(Z & q & a & b & S & X & K & _)]].
    + apply G. congruence.
    + eauto.
    + specialize (SEL q a b S). destruct X as [->| ->]; eexists; [|apply joined_sym]; eauto.
Qed.

Lemma mask2_map : forall f (g : nat -> nat) a b,
  mask2 f (map g a) (map g b) = map (fun p => f (g (fst p)) (g (snd p))) (combine a b).
Proof.
  intros. unfold mask2. rewrite map_combine2, map_map. reflexivity.
Qed.

Lemma length_map_combine : forall {A B C} (f : A * B -> C) (a : list A) (b : list B),
  length a = length b -> length (map f (combine a b)) = length a.
Proof. intros. rewrite map_length, combine_length. lia. Qed.

Lemma nth_select_pair : forall {A B} m (a : list A) (b : list B) q x, length a = length b ->
  nth_error (select m a) q = Some x -> exists y, nth_error (select m b) q = Some y /\ nth_error (select m (combine a b)) q = Some (x, y).
Proof.
  induction m as [|c m IH]; intros [|u a] [|v b] q x L H; simpl in *; try discriminate;
    try (destruct q; discriminate).
  destruct c; [|apply (IH a b); auto].
  destruct q as [|q]; simpl in *.
  - injection H as ->. eauto.
  - apply (IH a b); auto.
Qed.
Lemma nth_select_pair_r : forall {A B} m (a : list A) (b : list B) q y, length a = length b ->
  nth_error (select m b) q = Some y -> exists x, nth_error (select m a) q = Some x /\ nth_error (select m (combine a b)) q = Some (x, y).
Proof.
  induction m as [|c m IH]; intros [|u a] [|v b] q x L H; simpl in *; try discriminate;
    try (destruct q; discriminate).
  destruct c; [|apply (IH a b); auto].
  destruct q as [|q]; simpl in *.
  - injection H as ->. eauto.
  - apply (IH a b); auto.
Qed.

Lemma select_incl : forall {A} m (l : list A) x, In x (select m l) -> In x l.
Proof.
  induction m as [|b m IH]; intros [|a l] x H; simpl in *; try tauto.
  destruct b; simpl in *; [destruct H; auto|]; auto.
Qed.

Lemma select_map_f : forall {A B} m (f : A -> B) l, select m (map f l) = map f (select m l).
Proof. induction m as [|b m IH]; intros f [|a l]; simpl; auto. destruct b; simpl; rewrite IH; auto. Qed.

Lemma count_select : forall {A} m (l : list A), length m = length l -> length (select m l) = count_true m.
Proof. intros; apply length_select; auto. Qed.

Section Step.
Variables (ii ij : list nat) (n : nat).
Hypothesis LEN : length ii = length ij.
Hypothesis BI : forall i, In i ii -> i < n.
Hypothesis BJ : forall i, In i ij -> i < n.
Let P := combine ii ij.

Lemma P_i : forall a b, In (a, b) P -> In a ii /\ In b ij.
Proof. intros a b H. split; [eapply in_combine_l|eapply in_combine_r]; eauto. Qed.

Lemma group_step_spec : forall E gr M f, length gr = n -> part E E gr M f ->
  exists gr' M' f', group_step ii ij (gr, M, f) = Some (gr', M', f') /\ length gr' = n /\
    part (E ++ P) (E ++ P) gr' M' f'.
Proof.
  intros E gr M f LG I. unfold group_step.
  rewrite (proj2 (Nat.eqb_eq _ _) LEN). cbn [bind].
  set (E' := E ++ P). assert (IE : incl E E') by (unfold E'; apply incl_appl, incl_refl).
  assert (JP : forall a b, In (a, b) P -> joined E' a b).
  { intros a b H. left. unfold E'. apply in_or_app. auto. }
  assert (RD : forall g : list nat, length g = n -> gather g ii = Some (map (V g) ii) /\ gather g ij = Some (map (V g) ij)).
  { intros g Lg. split; apply gather_V; intros i H; rewrite Lg; auto. }
  pose proof (part_ext _ _ _ _ _ I IE) as I0. clear I.
  destruct (RD gr LG) as [-> ->]. cbn [bind]. rewrite mask2_map. fold P.
  set (m1 := map _ P). set (nb := count_true m1).
  assert (Lm1 : length m1 = length ii) by (unfold m1, P; apply length_map_combine; auto).
  assert (SELI : forall {A} (l : list A) m, length l = length ii -> length m = length ii -> length (select m l) = count_true m).
  { intros. apply count_select. lia. }
  (* fresh numbers *)
  destruct (stores_total (select m1 ii) gr (seq f nb)) as [gr1 S1].
  { rewrite seq_length. unfold nb. apply SELI; auto. }
  { intros i H. rewrite LG. apply BI. eapply select_incl; eauto. }
  rewrite S1. cbn [bind]. destruct (stores_V _ _ _ _ S1) as [L1 D1]. rewrite LG in L1.
  destruct (stores_total (select m1 ij) gr1 (seq f nb)) as [gr2 S2].
  { rewrite seq_length. unfold nb. apply SELI; auto. }
  { intros i H. rewrite L1. apply BJ. eapply select_incl; eauto. }
  rewrite S2. cbn [bind]. destruct (stores_V _ _ _ _ S2) as [L2 D2]. rewrite L1 in L2.
  set (sel := select m1 P).
  assert (SELP : forall q a b, nth_error sel q = Some (a, b) -> In (a, b) P /\ V gr a = 0 /\ V gr b = 0).
  { intros q a b H. apply nth_error_In in H. unfold sel, m1 in H.
    apply select_In2 in H as [HP HF]. split; [auto|]. cbn [fst snd] in HF. apply andb_true_iff in HF as [F1 F2].
    unfold free in *. apply Nat.eqb_eq in F1, F2. auto. }
  assert (I2 : part E E' gr2 M (f + nb)).
  { apply (part_write E E' gr gr2 M f nb sel I0).
    - intros q a b H. apply JP. apply (SELP q a b H).
    - intros x. destruct (D2 x) as [[N2 K2]|(q & Q1 & Q2)].
      + destruct (D1 x) as [[N1 K1]|(q & Q1 & Q2)].
        * left. congruence.
        * right. right. destruct (nth_select_pair m1 ii ij q x LEN Q1) as (y & _ & Y).
          pose proof (SELP q x y Y) as (_ & Z & _). split; [exact Z|]. exists q, x, y. split; [exact Y|].
          rewrite K2. rewrite nth_error_seq in Q2. destruct (Nat.ltb_spec q nb); [|discriminate]. injection Q2 as Q2.
          split; [auto|]. split; [lia|auto].
      + right. right. destruct (nth_select_pair_r m1 ii ij q x LEN Q1) as (y & _ & Y).
        pose proof (SELP q y x Y) as (_ & _ & Z). split; [exact Z|]. exists q, y, x. split; [exact Y|].
        rewrite nth_error_seq in Q2. destruct (Nat.ltb_spec q nb); [|discriminate]. injection Q2 as Q2.
        split; [auto|]. split; [lia|auto]. }
  assert (NZ2 : forall a b, In (a, b) P -> V gr2 a <> 0 \/ V gr2 b <> 0).
  { intros a b H. destruct (Nat.eq_dec (V gr a) 0) as [Za|Na].
    - destruct (Nat.eq_dec (V gr b) 0) as [Zb|Nb].
      + right. assert (HS : In (a, b) sel).
        { unfold sel, m1. apply select_In2. split; [auto|]. simpl. unfold free. rewrite Za, Zb. reflexivity. }
        assert (Inb : In b (select m1 ij)).
        { unfold sel, P in HS. rewrite <- combine_select in HS. eapply in_combine_r; eauto. }
        destruct (D2 b) as [[N _]|(q & Q1 & Q2)]; [contradiction|].
        rewrite nth_error_seq in Q2. destruct (Nat.ltb_spec q nb); [|discriminate]. injection Q2 as Q2.
        pose proof (p_free _ _ _ _ _ I0). lia.
      + right. destruct (D2 b) as [[N K]|(q & Q1 & Q2)].
        * rewrite K. destruct (D1 b) as [[N1 K1]|(q & Q1 & Q2)]; [congruence|].
          destruct (nth_select_pair m1 ii ij q b LEN Q1) as (y & _ & Y). pose proof (SELP q b y Y). tauto.
        * destruct (nth_select_pair_r m1 ii ij q b LEN Q1) as (y & _ & Y). pose proof (SELP q y b Y). tauto.
    - left. destruct (D2 a) as [[N K]|(q & Q1 & Q2)].
      + rewrite K. destruct (D1 a) as [[N1 K1]|(q & Q1 & Q2)]; [congruence|].
        destruct (nth_select_pair m1 ii ij q a LEN Q1) as (y & _ & Y). pose proof (SELP q a y Y). tauto.
      + destruct (nth_select_pair_r m1 ii ij q a LEN Q1) as (y & _ & Y). pose proof (SELP q y a Y). tauto. }
  clear D1 D2 S1 S2 SELP.
  (* copy from i to j *)
  destruct (RD gr2 L2) as [-> ->]. cbn [bind]. rewrite mask2_map. fold P. set (m2 := map _ P).
  assert (Lm2 : length m2 = length ii) by (unfold m2, P; apply length_map_combine; auto).
  destruct (stores_total (select m2 ij) gr2 (select m2 (map (V gr2) ii))) as [gr3 S3].
  { rewrite !count_select; rewrite ?map_length; lia. }
  { intros i H. rewrite L2. apply BJ. eapply select_incl; eauto. }
  rewrite S3. cbn [bind]. destruct (stores_V _ _ _ _ S3) as [L3 D3]. rewrite L2 in L3.
  assert (SEL2 : forall q a b, nth_error (select m2 P) q = Some (a, b) -> In (a, b) P /\ V gr2 a <> 0 /\ V gr2 b = 0).
  { intros q a b H. apply nth_error_In in H. unfold m2 in H.
    apply select_In2 in H as [HP HF]. split; [auto|]. cbn [fst snd] in HF. apply andb_true_iff in HF as [F1 F2].
    unfold free in *. apply Nat.eqb_eq in F2. apply negb_true_iff, Nat.eqb_neq in F1. auto. }
  assert (W3 : forall x, V gr3 x = V gr2 x \/
     (V gr2 x = 0 /\ exists y, joined E' x y /\ V gr3 x = V gr2 y /\ V gr2 y <> 0)).
  { intros x. destruct (D3 x) as [[N K]|(q & Q1 & Q2)]; [auto|]. right.
    destruct (nth_select_pair_r m2 ii ij q x LEN Q1) as (y & Y1 & Y2).
    destruct (SEL2 q y x Y2) as (HP & N & Z). split; [exact Z|]. exists y. split; [apply joined_sym, JP; auto|].
    rewrite select_map_f in Q2. rewrite (map_nth_error (V gr2) q _ Y1) in Q2. injection Q2 as Q2. auto. }
  assert (I3 : part E E' gr3 M (f + nb + 0)).
  { apply (part_write E E' gr2 gr3 M (f + nb) 0 [] I2).
    - intros [|q] a b H; discriminate.
    - intros x. destruct (W3 x) as [K|K]; auto. }
  rewrite Nat.add_0_r in I3.
  assert (NZ3 : forall a b, In (a, b) P -> V gr3 b <> 0).
  { intros a b H. destruct (Nat.eq_dec (V gr2 b) 0) as [Zb|Nb].
    - destruct (NZ2 a b H) as [Na|]; [|congruence].
      assert (HS : In b (select m2 ij)).
      { assert (X : In (a, b) (select m2 P)).
        { unfold m2. apply select_In2. split; [auto|]. simpl. unfold free. rewrite Zb. simpl.
          rewrite (proj2 (Nat.eqb_neq _ _) Na). reflexivity. }
        unfold P in X. rewrite <- combine_select in X. eapply in_combine_r; eauto. }
      destruct (D3 b) as [[N _]|(q & Q1 & Q2)]; [contradiction|].
      destruct (nth_select_pair_r m2 ii ij q b LEN Q1) as (y & Y1 & Y2).
      destruct (SEL2 q y b Y2) as (_ & N & _).
      rewrite select_map_f in Q2. rewrite (map_nth_error (V gr2) q _ Y1) in Q2. injection Q2 as Q2. lia.
    - destruct (W3 b) as [K|[Z _]]; congruence. }
  clear D3 S3 SEL2 W3.
  (* copy from j to i *)
  destruct (RD gr3 L3) as [-> ->]. cbn [bind]. rewrite mask2_map. fold P. set (m3 := map _ P).
  assert (Lm3 : length m3 = length ii) by (unfold m3, P; apply length_map_combine; auto).
  destruct (stores_total (select m3 ii) gr3 (select m3 (map (V gr3) ij))) as [gr4 S4].
  { rewrite !count_select; rewrite ?map_length; lia. }
  { intros i H. rewrite L3. apply BI. eapply select_incl; eauto. }
  rewrite S4. cbn [bind]. destruct (stores_V _ _ _ _ S4) as [L4 D4]. rewrite L3 in L4.
  assert (SEL3 : forall q a b, nth_error (select m3 P) q = Some (a, b) -> In (a, b) P /\ V gr3 a = 0 /\ V gr3 b <> 0).
  { intros q a b H. apply nth_error_In in H. unfold m3 in H.
    apply select_In2 in H as [HP HF]. split; [auto|]. cbn [fst snd] in HF. apply andb_true_iff in HF as [F1 F2].
    unfold free in *. apply Nat.eqb_eq in F1. apply negb_true_iff, Nat.eqb_neq in F2. auto. }
  assert (W4 : forall x, V gr4 x = V gr3 x \/
     (V gr3 x = 0 /\ exists y, joined E' x y /\ V gr4 x = V gr3 y /\ V gr3 y <> 0)).
  { intros x. destruct (D4 x) as [[N K]|(q & Q1 & Q2)]; [auto|]. right.
    destruct (nth_select_pair m3 ii ij q x LEN Q1) as (y & Y1 & Y2).
    destruct (SEL3 q x y Y2) as (HP & Z & N). split; [exact Z|]. exists y. split; [apply JP; auto|].
    rewrite select_map_f in Q2. rewrite (map_nth_error (V gr3) q _ Y1) in Q2. injection Q2 as Q2. auto. }
  assert (I4 : part E E' gr4 M (f + nb + 0)).
  { apply (part_write E E' gr3 gr4 M (f + nb) 0 [] I3).
    - intros [|q] a b H; discriminate.
    - intros x. destruct (W4 x) as [K|K]; auto. }
  rewrite Nat.add_0_r in I4.
  assert (NZ4 : forall a b, In (a, b) P -> V gr4 a <> 0 /\ V gr4 b <> 0).
  { intros a b H. pose proof (NZ3 a b H) as Nb. split.
    - destruct (Nat.eq_dec (V gr3 a) 0) as [Za|Na].
      + assert (HS : In a (select m3 ii)).
        { assert (X : In (a, b) (select m3 P)).
          { unfold m3. apply select_In2. split; [auto|]. simpl. unfold free. rewrite Za. simpl.
            rewrite (proj2 (Nat.eqb_neq _ _) Nb). reflexivity. }
          unfold P in X. rewrite <- combine_select in X. eapply in_combine_l; eauto. }
        destruct (D4 a) as [[N _]|(q & Q1 & Q2)]; [contradiction|].
        destruct (nth_select_pair m3 ii ij q a LEN Q1) as (y & Y1 & Y2).
        destruct (SEL3 q a y Y2) as (_ & _ & N).
        rewrite select_map_f in Q2. rewrite (map_nth_error (V gr3) q _ Y1) in Q2. injection Q2 as Q2. lia.
      + destruct (W4 a) as [K|[Z _]]; congruence.
    - destruct (W4 b) as [K|[Z _]]; congruence. }
  clear D4 S4 SEL3 W4 NZ3 NZ2.
  destruct (RD gr4 L4) as [-> ->]. cbn [bind]. rewrite mask2_map. fold P. rewrite map_combine2. fold P.
  rewrite select_map_f, map_map. cbn [fst snd].
  set (m5 := map _ P). set (pairs := map _ (select m5 P)).
  exists gr4, (M ++ pairs), (f + nb). split; [reflexivity|]. split; [exact L4|].
  assert (PR : forall g h, In (g, h) pairs -> exists a b, In (a, b) P /\
     ((g = V gr4 a /\ h = V gr4 b) \/ (g = V gr4 b /\ h = V gr4 a))).
  { intros g h H. unfold pairs in H. apply in_map_iff in H as ([a b] & EQ & HS). cbn [fst snd] in EQ.
    injection EQ as E1 E2. apply select_incl in HS. exists a, b. split; [auto|]. lia. }
  destruct I4 as [A B C D F G]. constructor; auto.
  - intros g h H. apply in_app_or in H as [H|H]; [auto|].
    destruct (PR g h H) as (a & b & HP & X). pose proof (NZ4 a b HP) as [N1 N2].
    destruct X as [[-> ->]|[-> ->]]; [exists a, b|exists b, a]; intuition; apply chain_one; [|apply joined_sym]; apply JP; auto.
  - intros x y H. unfold E' in H. apply in_app_or in H as [H|H].
    + destruct (F x y H) as (N1 & N2 & CH). split; [auto|]. split; [auto|].
      eapply chain_weaken; [|exact CH]. apply incl_appl, incl_refl.
    + pose proof (NZ4 x y H) as [N1 N2]. split; [auto|]. split; [auto|].
      destruct (Nat.eq_dec (V gr4 x) (V gr4 y)) as [EQ|NE]; [rewrite EQ; constructor|].
      apply chain_one. unfold joined. rewrite !in_app_iff.
      assert (X : In (Nat.min (V gr4 x) (V gr4 y), Nat.max (V gr4 x) (V gr4 y)) pairs).
      { unfold pairs. apply in_map_iff. exists (x, y). split; [reflexivity|]. unfold m5. apply select_In2.
        split; [auto|]. cbn [fst snd]. apply negb_true_iff, Nat.eqb_neq. auto. }
      destruct (Nat.lt_ge_cases (V gr4 x) (V gr4 y)).
      * rewrite Nat.min_l, Nat.max_r in X by lia. auto.
      * rewrite Nat.min_r, Nat.max_l in X by lia. auto.
Qed.
End Step.

(** ** The whole loop *)
Lemma view_spec : forall start nb ix, (forall k, In k ix -> k < nb) -> view start nb ix = Some (map (fun k => start + k) ix).
Proof.
  induction ix as [|k ix IH]; intros B; cbn [view map]; auto.
  destruct (Nat.ltb_spec k nb) as [_|H]; [|specialize (B k (or_introl eq_refl)); lia].
  rewrite IH by (intros; apply B; right; auto). reflexivity.
Qed.

Lemma sum_firstn_le : forall l i n, nth_error l i = Some n -> sum_list (firstn i l) + n <= sum_list l.
Proof.
  induction l as [|a l IH]; intros [|i] n H; simpl in *; try discriminate.
  - injection H as ->. lia.
  - specialize (IH i n H). lia.
Qed.

Lemma group_loop_spec : forall nb_obs results E gr M f,
  valid_results nb_obs results -> length gr = sum_list nb_obs -> part E E gr M f ->
  exists gr' M' f', group_loop (excl_sums 0 nb_obs) nb_obs results (gr, M, f) = Some (gr', M', f') /\
    length gr' = sum_list nb_obs /\
    part (E ++ interactions nb_obs results) (E ++ interactions nb_obs results) gr' M' f'.
Proof.
  intros nb_obs. induction results as [|[[[i j] ii] ij] results IH]; intros E gr M f VR LG I.
  - exists gr, M, f. split; [reflexivity|]. split; [auto|]. simpl. rewrite app_nil_r. auto.
  - cbn [group_loop]. destruct (VR i j ii ij (or_introl eq_refl)) as (L & (ni & Ni & Bi) & (nj & Nj & Bj)).
    pose proof (nth_error_Some_lt _ _ _ Ni) as Li. pose proof (nth_error_Some_lt _ _ _ Nj) as Lj.
    rewrite (nth_error_excl_sums nb_obs 0 i Li), Ni, (nth_error_excl_sums nb_obs 0 j Lj), Nj. cbn [bind].
    rewrite !view_spec by auto. cbn [bind]. rewrite !Nat.add_0_l.
    change (map (fun k => sum_list (firstn i nb_obs) + k) ii) with (map (position nb_obs i) ii).
    change (map (fun k => sum_list (firstn j nb_obs) + k) ij) with (map (position nb_obs j) ij).
    destruct (group_step_spec (map (position nb_obs i) ii) (map (position nb_obs j) ij) (sum_list nb_obs)) with (E := E) (gr := gr) (M := M) (f := f)
      as (gr1 & M1 & f1 & S1 & L1 & I1); auto.
    { rewrite !map_length. auto. }
    { intros x H. apply in_map_iff in H as (k & <- & K). apply Bi in K. pose proof (sum_firstn_le _ _ _ Ni). unfold position. lia. }
    { intros x H. apply in_map_iff in H as (k & <- & K). apply Bj in K. pose proof (sum_firstn_le _ _ _ Nj). unfold position. lia. }
    rewrite S1. cbn [bind].
    destruct (IH (E ++ combine (map (position nb_obs i) ii) (map (position nb_obs j) ij)) gr1 M1 f1) as (gr2 & M2 & f2 & S2 & L2 & I2); auto.
    { intros i' j' ii' ij' H. apply VR. right. auto. }
    exists gr2, M2, f2. split; [exact S2|]. split; [exact L2|].
    cbn [interactions flat_map]. rewrite <- app_assoc in I2. exact I2.
Qed.

Lemma part_start : forall n, part [] [] (repeat 0 n) [] 1.
Proof.
  intros n. assert (Z : forall x, V (repeat 0 n) x = 0).
  { intros x. unfold V. destruct (Nat.lt_ge_cases x n).
    - apply nth_repeat.
    - apply nth_overflow. rewrite repeat_length. auto. }
  constructor; intros; rewrite ?Z in *; try contradiction; try lia.
Qed.

(** ** The translator *)
Lemma In_pinsert : forall p l x, In x (pinsert p l) <-> x = p \/ In x l.
Proof.
  induction l as [|a l IH]; intros x; simpl; [intuition|].
  destruct (pair_lt p a); simpl; [intuition|].
  destruct (pair_eq p a) eqn:E; simpl.
  - assert (p = a).
    { unfold pair_eq in E. apply andb_true_iff in E as [E1 E2]. apply Nat.eqb_eq in E1, E2.
      destruct p, a; simpl in *; congruence. }
    subst. intuition.
  - rewrite IH. intuition.
Qed.
Lemma In_psort : forall l x, In x (psort l) <-> In x l.
Proof. induction l as [|a l IH]; intros x; simpl; [tauto|]. rewrite In_pinsert, IH. intuition. Qed.

Definition represents (D : list (nat * nat)) (t : list nat) : Prop :=
  (forall a, a < length t -> V t a < length t /\ chain D a (V t a)) /\
  (forall a b, a < length t -> b < length t -> (V t a = V t b <-> chain D a b)).

Lemma V_apply : forall t x0 x1 a, a < length t -> V (apply_replace t x0 x1) a = if V t a =? x0 then x1 else V t a.
Proof.
  intros. apply V_some. unfold apply_replace. rewrite (map_nth_error _ a t (V_nth t a H)). reflexivity.
Qed.

Lemma represents_step : forall D t i j, represents D t -> (forall x y, In (x, y) D -> x < length t /\ y < length t) ->
  i < length t -> j < length t ->
  represents (D ++ [(i, j)]) (if V t i =? V t j then t else apply_replace t (V t i) (V t j)).
Proof.
  intros D t i j [R1 R2] B Hi Hj.
  set (t' := if V t i =? V t j then t else apply_replace t (V t i) (V t j)).
  assert (LT : length t' = length t).
  { unfold t'. destruct (V t i =? V t j); auto. unfold apply_replace. apply map_length. }
  assert (VT : forall a, a < length t -> V t' a = if V t a =? V t i then V t j else V t a).
  { intros a Ha. unfold t'. destruct (Nat.eqb_spec (V t i) (V t j)) as [E|N].
    - destruct (Nat.eqb_spec (V t a) (V t i)); congruence.
    - apply V_apply; auto. }
  assert (W : forall a b, chain D a b -> chain (D ++ [(i, j)]) a b).
  { intros a b. apply chain_weaken, incl_appl, incl_refl. }
  assert (IJ : chain (D ++ [(i, j)]) i j).
  { apply chain_one. left. apply in_or_app. right. left. auto. }
  assert (RT : forall a, a < length t -> V t' a < length t /\ chain (D ++ [(i, j)]) a (V t' a)).
  { intros a Ha. rewrite VT by auto. destruct (Nat.eqb_spec (V t a) (V t i)) as [E|N].
    - split; [apply R1; auto|]. eapply chain_trans; [apply W; apply (R2 a i); auto|].
      eapply chain_trans; [exact IJ|]. apply W, R1. auto.
    - split; [apply R1; auto|]. apply W, R1. auto. }
  split; rewrite LT; [exact RT|].
  intros a b Ha Hb. split.
  - intros E. eapply chain_trans; [apply RT; auto|]. apply chain_sym. rewrite E. apply RT. auto.
  - intros C. assert (X : b < length t /\ V t' a = V t' b); [|tauto].
    refine (chain_inv (D ++ [(i, j)]) (fun z => z < length t /\ V t' a = V t' z) _ a b C (conj Ha eq_refl)).
    assert (ST : forall x y, In (x, y) (D ++ [(i, j)]) -> x < length t /\ y < length t /\ V t' x = V t' y).
    { intros x y H. apply in_app_or in H as [H|[H|[]]].
      - destruct (B x y H) as [Hx Hy]. split; [auto|]. split; [auto|].
        assert (E : V t x = V t y) by (apply R2; auto; apply chain_one; left; auto).
        rewrite !VT, E by auto. auto.
      - injection H as <- <-. split; [auto|]. split; [auto|]. rewrite !VT by auto. rewrite Nat.eqb_refl.
        destruct (V t j =? V t i); auto. }
    intros x y [J|J] [Hx E]; apply ST in J as (H1 & H2 & H3); split; auto; congruence.
Qed.

Lemma translator_loop_spec : forall duos D t, represents D t ->
  (forall x y, In (x, y) D -> x < length t /\ y < length t) ->
  (forall x y, In (x, y) duos -> x < length t /\ y < length t) ->
  exists t', translator_loop duos t = Some t' /\ length t' = length t /\ represents (D ++ duos) t'.
Proof.
  induction duos as [|[i j] duos IH]; intros D t R BD B.
  - exists t. rewrite app_nil_r. auto.
  - cbn [translator_loop]. destruct (B i j (or_introl eq_refl)) as [Hi Hj]. rewrite !V_nth by auto. cbn [bind].
    set (t1 := if V t i =? V t j then t else apply_replace t (V t i) (V t j)).
    assert (L1 : length t1 = length t).
    { unfold t1. destruct (V t i =? V t j); auto. unfold apply_replace. apply map_length. }
    destruct (IH (D ++ [(i, j)]) t1) as (t' & E & L & R').
    + apply represents_step; auto.
    + rewrite L1. intros x y H. apply in_app_or in H as [H|[H|[]]]; [auto|]. injection H as <- <-. auto.
    + rewrite L1. intros x y H. apply B. right. auto.
    + exists t'. split; [exact E|]. split; [lia|]. rewrite <- app_assoc in R'. exact R'.
Qed.

Lemma represents_seq : forall n, represents [] (seq 0 n).
Proof.
  intros n. assert (S : forall a, a < n -> V (seq 0 n) a = a).
  { intros a Ha. unfold V. rewrite seq_nth by auto. auto. }
  split; rewrite seq_length.
  - intros a Ha. rewrite S by auto. split; [auto|constructor].
  - intros a b Ha Hb. rewrite !S by auto. split; [intros ->; constructor|].
    intros C. inversion C as [|? ? ? [[]|[]] _]; auto.
Qed.

Lemma chain_same : forall E F, (forall x, In x E <-> In x F) -> forall a b, chain E a b <-> chain F a b.
Proof. intros E F H a b. split; apply chain_weaken; intros x; apply H. Qed.

Lemma translator_spec : forall nb duos, (forall x y, In (x, y) duos -> x < nb /\ y < nb) ->
  exists t, group_translator nb duos = Some t /\ length t = nb /\
    (forall a, a < nb -> V t a < nb /\ chain duos a (V t a)) /\
    (forall a b, a < nb -> b < nb -> (V t a = V t b <-> chain duos a b)).
Proof.
  intros nb duos B. unfold group_translator.
  destruct (translator_loop_spec (psort duos) [] (seq 0 nb)) as (t & E & L & R1 & R2).
  - apply represents_seq.
  - intros x y [].
  - rewrite seq_length. intros x y H. apply B. apply In_psort. auto.
  - rewrite seq_length in L. rewrite L in *. exists t. split; [exact E|]. split; [exact L|]. simpl in R1, R2.
    split; intros.
    + split; [apply R1; auto|]. eapply chain_same; [|apply R1; auto]. intros x. symmetry. apply In_psort.
    + rewrite R2 by auto. apply chain_same. apply In_psort.
Qed.

Lemma group_array_spec : forall nb_obs results, valid_results nb_obs results ->
  exists g, get_group_array results nb_obs = Some g /\ length g = sum_list nb_obs /\
    (forall a, a < length g -> (V g a = 0 <-> forall b, ~ joined (interactions nb_obs results) a b)) /\
    (forall a b, a < length g -> b < length g -> V g a <> 0 ->
       (V g a = V g b <-> chain (interactions nb_obs results) a b)).
Proof.
  intros nb_obs results VR. unfold get_group_array.
  destruct (group_loop_spec nb_obs results [] (repeat 0 (sum_list nb_obs)) [] 1) as (gr & M & f & E & L & I); auto.
  { apply repeat_length. } { apply part_start. }
  cbn [app] in I. set (X := interactions nb_obs results) in *. rewrite E. cbn [bind].
  destruct I as [A B C D F G].
  assert (BM : forall x y, In (x, y) M -> x < f /\ y < f).
  { intros x y H. destruct (D x y H) as (u & v & <- & <- & _). auto. }
  destruct (translator_spec f M BM) as (t & T & LT & T1 & T2). rewrite T. cbn [bind].
  rewrite gather_V. 2:{ rewrite LT. intros i H. apply In_nth with (d := 0) in H as (k & Hk & <-). apply B. }
  exists (map (V t) gr). split; [reflexivity|]. rewrite map_length. split; [exact L|].
  assert (VM : forall a, a < length gr -> V (map (V t) gr) a = V t (V gr a)).
  { intros a Ha. apply V_some. rewrite (map_nth_error _ a gr (V_nth gr a Ha)). reflexivity. }
  assert (NM : forall x y, joined M x y -> x <> 0 /\ y <> 0).
  { intros x y [H|H]; apply D in H as (u & v & E1 & E2 & N1 & N2 & _); auto. }
  assert (Z : forall v, v < f -> (V t v = 0 <-> v = 0)).
  { intros v Hv. split.
    - intros E0. destruct (Nat.eq_dec v 0) as [|N]; auto. destruct (T1 v Hv) as [_ CH]. rewrite E0 in CH.
      apply chain_end in CH as (x & J); auto. apply NM in J. tauto.
    - intros ->. destruct (T1 0 Hv) as [_ CH]. destruct (Nat.eq_dec 0 (V t 0)) as [|N]; auto.
      apply chain_sym in CH. apply chain_end in CH as (x & J); auto. apply NM in J. tauto. }
  (* same number iff same component *)
  assert (KEY : forall a b, V gr a <> 0 -> (chain X a b <-> V gr b <> 0 /\ chain M (V gr a) (V gr b))).
  { intros a b N. split.
    - intros CH. apply (chain_inv X (fun z => V gr z <> 0 /\ chain M (V gr a) (V gr z))) with (a := a) (b := b); auto.
      + intros x y J [N1 C1]. assert (Y : V gr y <> 0 /\ chain M (V gr x) (V gr y)).
        { destruct J as [J|J]; apply F in J as (H1 & H2 & H3); split; auto. apply chain_sym; auto. }
        split; [tauto|]. eapply chain_trans; [exact C1|]. tauto.
      + split; [auto|constructor].
    - intros [NB CH].
      assert (Q : forall g, chain M (V gr a) g -> forall y, V gr y = g -> V gr y <> 0 -> chain X a y).
      { intros g CG. apply (chain_inv M (fun g => forall y, V gr y = g -> V gr y <> 0 -> chain X a y)) with (a := V gr a) (b := g); auto.
        intros g1 g2 J IH y EY NY.
        destruct J as [J|J]; destruct (D _ _ J) as (u & v & U & W & N1 & N2 & CUV).
        - eapply chain_trans; [apply (IH u); auto; congruence|]. eapply chain_trans; [exact CUV|]. apply C; congruence.
        - eapply chain_trans; [apply (IH v); auto; congruence|]. eapply chain_trans; [apply chain_sym; exact CUV|]. apply C; congruence. }
      eapply Q; eauto. }
  split.
  - intros a Ha. rewrite VM, Z by auto. split.
    + intros E0 b [J|J]; apply F in J; tauto.
    + intros N. destruct (Nat.eq_dec (V gr a) 0) as [|N0]; auto. destruct (G a N0) as [y J]. exfalso. eapply N; eauto.
  - intros a b Ha Hb. rewrite !VM by auto. intros N. rewrite Z in N by auto. rewrite (KEY a b N), T2 by auto.
    split; [|tauto]. intros CH. split; [|auto]. intros E0. rewrite E0 in CH.
    apply chain_end in CH as (x & J); [|auto]. apply NM in J. tauto.
Qed.
