(** Lemmas on the resampling of contours. *)
From Coq Require Import List Arith Bool ZArith QArith Lqa Lia.
From Verif Require Import Base Corr_model Qaux Resamp_model.
Import ListNotations.
Local Open Scope Q_scope.

Definition rising (xp : list Q) : Prop := forall i, (S i < length xp)%nat -> nth i xp 0 < nth (S i) xp 0.
Lemma rising_tl : forall a l, rising (a :: l) -> rising l.
Proof. intros a l H i I. apply (H (S i)). cbn. lia. Qed.
Lemma rising_le : forall l i j, rising l -> (i <= j)%nat -> (j < length l)%nat -> nth i l 0 <= nth j l 0.
Proof. intros l i j H IJ. induction IJ as [|j IJ IH]; intros J; [apply Qle_refl|]. eapply Qle_trans; [apply IH; lia|]. apply Qlt_le_weak, H. exact J. Qed.

(** Index of the segment where [x] is. *)
Fixpoint locate (xp : list Q) (x : Q) : nat :=
  match xp with
  | _ :: ((x1 :: _ :: _) as xp') => if Qlt_bool x x1 then 0%nat else S (locate xp' x)
  | _ => 0%nat
  end.
Lemma locate_range : forall xp x, rising xp -> (2 <= length xp)%nat -> nth 0 xp 0 <= x -> x <= last xp 0 ->
  (S (locate xp x) < length xp)%nat /\ nth (locate xp x) xp 0 <= x /\ x <= nth (S (locate xp x)) xp 0.
Proof.
  induction xp as [|x0 xp IH]; intros x H L A B; [cbn in L; lia|]. destruct xp as [|x1 [|x2 xp]]; [cbn in L; lia|cbn in *; auto|].
  change (locate (x0 :: x1 :: x2 :: xp) x) with (if Qlt_bool x x1 then 0%nat else S (locate (x1 :: x2 :: xp) x)). destruct (Qlt_bool x x1) eqn:E.
  - apply Qlt_bool_iff in E. cbn. split; [lia|]. split; [exact A|apply Qlt_le_weak, E].
  - apply Qlt_bool_false in E. specialize (IH x (rising_tl _ _ H) ltac:(cbn; lia) E B). cbn [length nth] in *. destruct IH as (I1 & I2 & I3). split; [lia|]. split; [exact I2|exact I3].
Qed.
Lemma interp_from_locate : forall xp fp x, rising xp -> length fp = length xp -> (2 <= length xp)%nat -> nth 0 xp 0 <= x -> x <= last xp 0 ->
  interp_from xp fp x == nth (locate xp x) fp 0 + (nth (S (locate xp x)) fp 0 - nth (locate xp x) fp 0) / (nth (S (locate xp x)) xp 0 - nth (locate xp x) xp 0) * (x - nth (locate xp x) xp 0).
Proof.
  induction xp as [|x0 xp IH]; intros fp x H F L A B; [cbn in L; lia|]. destruct fp as [|f0 fp]; [discriminate F|]. destruct xp as [|x1 xp]; [cbn in L; lia|]. destruct fp as [|f1 fp]; [discriminate F|]. destruct xp as [|x2 xp].
  - pose proof (H 0%nat ltac:(cbn; lia)) as H0. cbn in H0, B |- *. destruct (Qlt_bool x x1) eqn:E; [reflexivity|]. apply Qlt_bool_false in E. assert (X : x == x1) by (apply Qle_antisym; assumption). rewrite X. destruct fp; field; lra.
  - change (locate (x0 :: x1 :: x2 :: xp) x) with (if Qlt_bool x x1 then 0%nat else S (locate (x1 :: x2 :: xp) x)).
    change (interp_from (x0 :: x1 :: x2 :: xp) (f0 :: f1 :: fp) x) with (if Qlt_bool x x1 then f0 + (f1 - f0) / (x1 - x0) * (x - x0) else interp_from (x1 :: x2 :: xp) (f1 :: fp) x).
    destruct (Qlt_bool x x1) eqn:E; [reflexivity|]. apply Qlt_bool_false in E. apply (IH (f1 :: fp) x (rising_tl _ _ H) ltac:(injection F as F; cbn; congruence) ltac:(cbn; lia) E B).
Qed.
Lemma interp_locate : forall xp fp x, rising xp -> length fp = length xp -> (2 <= length xp)%nat -> nth 0 xp 0 <= x -> x <= last xp 0 ->
  interp xp fp x == nth (locate xp x) fp 0 + (nth (S (locate xp x)) fp 0 - nth (locate xp x) fp 0) / (nth (S (locate xp x)) xp 0 - nth (locate xp x) xp 0) * (x - nth (locate xp x) xp 0).
Proof. intros xp fp x H F L A B. unfold interp. destruct (Qlt_bool x (nth 0 xp 0)) eqn:E; [apply Qlt_bool_iff in E; lra|]. apply interp_from_locate; assumption. Qed.
(** On a knot the value of the knot. *)
Lemma interp_knot : forall xp fp i x, rising xp -> length fp = length xp -> (i < length xp)%nat -> x == nth i xp 0 -> interp xp fp x == nth i fp 0.
Proof.
  intros xp fp i x H F I X. unfold interp. destruct (Qlt_bool x (nth 0 xp 0)) eqn:E. { apply Qlt_bool_iff in E. pose proof (rising_le xp 0 i H ltac:(lia) I). lra. } clear E.
  revert fp i H F I X. induction xp as [|x0 xp IH]; intros fp i H F I X; [cbn in I; lia|]. destruct fp as [|f0 fp]; [discriminate F|]. destruct xp as [|x1 xp].
  - cbn in I. assert (i = 0%nat) by lia. subst i. reflexivity.
  - destruct fp as [|f1 fp]; [discriminate F|]. cbn [interp_from]. destruct i as [|i].
    + pose proof (H 0%nat ltac:(cbn; lia)) as H0. cbn in H0, X |- *. destruct (Qlt_bool x x1) eqn:E; [|apply Qlt_bool_false in E; lra]. rewrite X. field. lra.
    + assert (E : Qlt_bool x x1 = false). { apply Qlt_bool_false. rewrite X. apply (rising_le (x0 :: x1 :: xp) 1 (S i) H); [lia|exact I]. }
      rewrite E. apply (IH (f1 :: fp) i (rising_tl _ _ H)); [injection F as F; cbn; congruence|cbn in *; lia|exact X].
Qed.

Lemma nq_S : forall n, nq (S n) == nq n + 1.
Proof. intros n. unfold nq. rewrite Nat2Z.inj_succ. unfold Z.succ. rewrite inject_Z_plus. reflexivity. Qed.
Lemma nq_pos : forall n, (0 < n)%nat -> 0 < nq n.
Proof. intros n H. unfold nq. change 0 with (inject_Z 0). apply inject_Z_lt_iff. lia. Qed.
Lemma nq_nonneg : forall n, 0 <= nq n.
Proof. intros n. unfold nq. change 0 with (inject_Z 0). apply inject_Z_le_iff. lia. Qed.
Lemma nq_le : forall a b, (a <= b)%nat -> nq a <= nq b.
Proof. intros a b H. unfold nq. apply inject_Z_le_iff. lia. Qed.
Lemma nq_lt : forall a b, (a < b)%nat -> nq a < nq b.
Proof. intros a b H. unfold nq. apply inject_Z_lt_iff. lia. Qed.
Lemma nq_mult : forall a b, nq (a * b) == nq a * nq b.
Proof. intros a b. unfold nq. rewrite Nat2Z.inj_mul, inject_Z_mult. reflexivity. Qed.
Lemma nq_minus1 : forall n, (1 <= n)%nat -> nq (n - 1) == nq n - 1.
Proof. intros n H. replace n with (S (n - 1)) at 2 by lia. rewrite nq_S. ring. Qed.

Lemma linspace_length : forall a b n, length (linspace a b n) = n.
Proof. intros a b n. unfold linspace. destruct (Nat.eqb_spec n 1); [subst; reflexivity|]. rewrite map_length, seq_length. reflexivity. Qed.
Lemma linspace_nth : forall a b n k, (2 <= n)%nat -> (k < n)%nat -> nth k (linspace a b n) 0 == a + nq k * ((b - a) / nq (n - 1)).
Proof.
  intros a b n k N K. unfold linspace. destruct (Nat.eqb_spec n 1); [lia|]. set (f := fun i => if (i =? n - 1)%nat then b else a + nq i * ((b - a) / nq (n - 1))).
  rewrite (nth_indep _ 0 (f 0%nat)) by (rewrite map_length, seq_length; exact K). rewrite map_nth, seq_nth by exact K. cbn [Nat.add]. unfold f. destruct (Nat.eqb_spec k (n - 1)) as [->|]; [|reflexivity]. pose proof (nq_pos (n - 1) ltac:(lia)). field. lra.
Qed.
Lemma cumsum_length : forall l a, length (cumsum a l) = length l.
Proof. induction l; intros; cbn; [reflexivity|]. f_equal. apply IHl. Qed.
Lemma cumsum_nth : forall l a i, (i < length l)%nat -> nth i (cumsum a l) 0 == a + Qsum (firstn (S i) l).
Proof.
  induction l as [|d l IH]; intros a i I; [cbn in I; lia|]. destruct i as [|i]; [cbn; ring|]. cbn [cumsum nth]. rewrite IH by (cbn in I; lia). change (firstn (S (S i)) (d :: l)) with (d :: firstn (S i) l). cbn [Qsum]. ring.
Qed.
Lemma Qsum_snoc : forall l i, (i < length l)%nat -> Qsum (firstn (S i) l) == Qsum (firstn i l) + nth i l 0.
Proof. induction l as [|d l IH]; intros i I; [cbn in I; lia|]. destruct i as [|i]; [cbn; ring|]. change (firstn (S (S i)) (d :: l)) with (d :: firstn (S i) l). change (firstn (S i) (d :: l)) with (d :: firstn i l). cbn [Qsum nth]. rewrite IH by (cbn in I; lia). ring. Qed.
Lemma last_nth : forall (l : list Q) d, last l d = nth (length l - 1) l d.
Proof. induction l as [|a l IH]; intros d; [reflexivity|]. destruct l as [|b l]; [reflexivity|]. change (last (a :: b :: l) d) with (last (b :: l) d). rewrite IH. cbn [length]. replace (S (S (length l)) - 1)%nat with (S (length (b :: l) - 1)) by (cbn; lia). reflexivity. Qed.

Section R.
Variable distance : Q * Q -> Q * Q -> Q.
Notation steps := (steps distance). Notation lengths := (lengths distance).
(** Length of a segment: at least one millimetre. *)
Definition seg_length (l : list (Q * Q)) (i : nat) : Q :=
  let d := distance (nth i l (0, 0)) (nth (S i) l (0, 0)) in if Qlt_le_dec d (1 # 1000) then 1 # 1000 else d.
(** Length of the contour from its first vertex to vertex [i]. *)
Fixpoint arc (l : list (Q * Q)) (i : nat) : Q := match i with O => 0 | S j => arc l j + seg_length l j end.
Lemma steps_length : forall l, length (steps l) = (length l - 1)%nat.
Proof. induction l as [|a l IH]; [reflexivity|]. destruct l as [|b l]; [reflexivity|]. change (length (steps (a :: b :: l))) with (S (length (steps (b :: l)))). rewrite IH. cbn. lia. Qed.
Lemma steps_nth : forall l i, (S i < length l)%nat -> nth i (steps l) 0 = seg_length l i.
Proof.
  induction l as [|a l IH]; intros i I; [cbn in I; lia|]. destruct l as [|b l]; [cbn in I; lia|]. destruct i as [|i].
  - cbn [Resamp_model.steps nth]. unfold seg_length. cbn [nth]. destruct (Qlt_le_dec (distance a b) (1 # 1000)) as [E|E]; [apply Qlt_bool_iff in E|apply Qlt_bool_false in E]; rewrite E; reflexivity.
  - change (nth (S i) (steps (a :: b :: l)) 0) with (nth i (steps (b :: l)) 0). rewrite IH by (cbn in *; lia). reflexivity.
Qed.
Lemma seg_pos : forall l i, 1 # 1000 <= seg_length l i.
Proof. intros l i. unfold seg_length. destruct (Qlt_le_dec _ _); [apply Qle_refl|assumption]. Qed.
Lemma lengths_length : forall l, l <> [] -> length (lengths l) = length l.
Proof. intros l H. unfold Resamp_model.lengths. rewrite cumsum_length. cbn [length]. rewrite steps_length. destruct l; [congruence|cbn; lia]. Qed.
Lemma arc_sum : forall l i, (i < length l)%nat -> arc l i == Qsum (firstn i (steps l)).
Proof.
  intros l i. induction i as [|i IH]; intros I; [cbn; reflexivity|]. cbn [arc]. rewrite IH by lia. rewrite Qsum_snoc by (rewrite steps_length; lia). rewrite steps_nth by exact I. reflexivity.
Qed.
Lemma lengths_nth : forall l i, (i < length l)%nat -> nth i (lengths l) 0 == arc l i.
Proof.
  intros l i I. unfold Resamp_model.lengths. rewrite cumsum_nth by (cbn [length]; rewrite steps_length; lia). rewrite arc_sum by exact I. change (firstn (S i) (0 :: steps l)) with (0 :: firstn i (steps l)). cbn [Qsum]. ring.
Qed.
Lemma lengths_rising : forall l, l <> [] -> rising (lengths l).
Proof. intros l H i I. rewrite lengths_length in I by exact H. rewrite !lengths_nth by lia. cbn [arc]. pose proof (seg_pos l i). lra. Qed.
Lemma arc_le : forall l i j, (i <= j)%nat -> arc l i <= arc l j.
Proof. intros l i j H. induction H as [|j H IH]; [apply Qle_refl|]. cbn [arc]. pose proof (seg_pos l j). lra. Qed.
Lemma lengths_last : forall l, l <> [] -> last (lengths l) 0 == arc l (length l - 1).
Proof. intros l H. rewrite last_nth, lengths_length by exact H. apply lengths_nth. destruct l; [congruence|cbn; lia]. Qed.
End R.
