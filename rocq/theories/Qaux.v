(** Rational helpers: Python [%] on floats (exact arithmetic), comparisons,
    absolute value, sums.  No repository function is transcribed here. *)
From Coq Require Import List ZArith QArith Qround Qabs Lia Lqa.
Import ListNotations.
Local Open Scope Q_scope.

(** Strict comparison as a boolean ([Qle_bool] is in the library). *)
Definition Qlt_bool (x y : Q) : bool := negb (Qle_bool y x).

Lemma Qlt_bool_iff : forall x y, Qlt_bool x y = true <-> x < y.
Proof.
  intros. unfold Qlt_bool. rewrite Bool.negb_true_iff.
  split; intros H.
  - apply Qnot_le_lt. intros C. apply Qle_bool_iff in C. congruence.
  - destruct (Qle_bool y x) eqn:E; auto. apply Qle_bool_iff in E. lra.
Qed.

Lemma Qlt_bool_false : forall x y, Qlt_bool x y = false <-> y <= x.
Proof.
  intros. unfold Qlt_bool. rewrite Bool.negb_false_iff. apply Qle_bool_iff.
Qed.

Lemma Qle_bool_false : forall x y, Qle_bool x y = false <-> y < x.
Proof.
  intros. split; intros H.
  - apply Qnot_le_lt. intros C. apply Qle_bool_iff in C. congruence.
  - destruct (Qle_bool x y) eqn:E; auto. apply Qle_bool_iff in E. lra.
Qed.

(** Python [x % m] for [m > 0]: result in [[0, m)). *)
Definition Qmod (x m : Q) : Q := x - m * inject_Z (Qfloor (x / m)).

Lemma Qfloor_bounds : forall x, inject_Z (Qfloor x) <= x /\ x < inject_Z (Qfloor x) + 1.
Proof.
  intros. split; [apply Qfloor_le|].
  pose proof (Qlt_floor x). rewrite inject_Z_plus in H. exact H.
Qed.

Lemma Qmod_range : forall x m, 0 < m -> 0 <= Qmod x m /\ Qmod x m < m.
Proof.
  intros x m Hm. unfold Qmod.
  destruct (Qfloor_bounds (x / m)) as [H1 H2].
  set (k := inject_Z (Qfloor (x / m))) in *.
  assert (E : x == m * (x / m)) by (field; lra).
  assert (A : m * k <= m * (x / m)) by (apply Qmult_le_l; auto).
  assert (B : m * (x / m) < m * (k + 1)) by (apply Qmult_lt_l; auto).
  split; lra.
Qed.

(** Congruence modulo [m]. *)
Definition Qcong (m x y : Q) : Prop := exists k : Z, x - y == m * inject_Z k.

Lemma Qmod_cong : forall x m, Qcong m (Qmod x m) x.
Proof.
  intros. unfold Qmod. exists (- Qfloor (x / m))%Z.
  rewrite inject_Z_opp. ring.
Qed.

Lemma Qcong_refl : forall m x, Qcong m x x.
Proof. intros. exists 0%Z. change (inject_Z 0) with 0. ring. Qed.

Lemma Qcong_sym : forall m x y, Qcong m x y -> Qcong m y x.
Proof.
  intros m x y [k H]. exists (- k)%Z. rewrite inject_Z_opp.
  setoid_replace (y - x) with (- (x - y)) by ring. rewrite H. ring.
Qed.

Lemma Qcong_trans : forall m x y z, Qcong m x y -> Qcong m y z -> Qcong m x z.
Proof.
  intros m x y z [k H] [l G]. exists (k + l)%Z. rewrite inject_Z_plus.
  setoid_replace (x - z) with ((x - y) + (y - z)) by ring. rewrite H, G. ring.
Qed.

Lemma Qcong_add : forall m x y z, Qcong m x y -> Qcong m (x + z) (y + z).
Proof.
  intros m x y z [k H]. exists k. rewrite <- H. ring.
Qed.

Lemma inject_Z_lt_iff : forall a b, inject_Z a < inject_Z b <-> (a < b)%Z.
Proof. intros. rewrite Zlt_Qlt. tauto. Qed.

Lemma inject_Z_le_iff : forall a b, inject_Z a <= inject_Z b <-> (a <= b)%Z.
Proof. intros. rewrite Zle_Qle. tauto. Qed.

(** Two congruent numbers of one period are equal. *)
Lemma Qcong_unique : forall m a x y,
  0 < m -> a <= x < a + m -> a <= y < a + m -> Qcong m x y -> x == y.
Proof.
  intros m a x y Hm [H1 H2] [H3 H4] [k H].
  assert (K : (k = 0)%Z).
  { assert (A : - m < m * inject_Z k) by lra.
    assert (B : m * inject_Z k < m) by lra.
    assert (A' : inject_Z (-1) < inject_Z k).
    { apply (Qmult_lt_l _ _ m Hm).
      setoid_replace (m * inject_Z (-1)) with (- m) by (change (inject_Z (-1)) with (-(1)); ring).
      exact A. }
    assert (B' : inject_Z k < inject_Z 1).
    { apply (Qmult_lt_l _ _ m Hm).
      setoid_replace (m * inject_Z 1) with m by (change (inject_Z 1) with 1; ring).
      exact B. }
    rewrite inject_Z_lt_iff in A'. rewrite inject_Z_lt_iff in B'. lia. }
  subst k. change (inject_Z 0) with 0 in H. lra.
Qed.

Global Instance Qmod_comp : Proper (Qeq ==> Qeq ==> Qeq) Qmod.
Proof.
  intros x x' Hx m m' Hm. unfold Qmod.
  assert (E : x / m == x' / m') by (apply Qmult_comp; [exact Hx | apply Qinv_comp; exact Hm]).
  rewrite (Qfloor_comp _ _ E). 
  apply Qplus_comp; [exact Hx|]. apply Qopp_comp. apply Qmult_comp; [exact Hm|reflexivity].
Qed.

Global Instance Qcong_comp : Proper (Qeq ==> Qeq ==> Qeq ==> iff) Qcong.
Proof.
  intros m m' Hm x x' Hx y y' Hy. unfold Qcong.
  split; intros [k H]; exists k; [rewrite <- Hx, <- Hy, <- Hm | rewrite Hx, Hy, Hm]; exact H.
Qed.

(** Sum of a list. *)
Fixpoint Qsum (l : list Q) : Q :=
  match l with [] => 0 | x :: l' => x + Qsum l' end.

Lemma Qsum_app : forall a b, Qsum (a ++ b) == Qsum a + Qsum b.
Proof. induction a; intros; simpl. - ring. - rewrite IHa. ring. Qed.
