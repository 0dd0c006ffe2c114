(** Lemmas about the filters along tracks. *)
From Coq Require Import List Arith ZArith Bool QArith Qabs Lia Lqa.
Import ListNotations.
From Verif Require Import Base Qaux Spec Corr_model TrackObs_model TrackObs_spec TrackObs_proofs.
Local Close Scope Q_scope.
Local Open Scope nat_scope.

(** ** Median filter *)
Lemma slice_kept : forall {A} (l : list A) p n P, p <= n -> n <= length l ->
  (forall j, p <= j < n <-> (j < length l /\ P j)) -> kept l P (slice l p n).
Proof.
  intros A l p n P H1 H2 H3. unfold slice. exists (seq p (n - p)).
  split; [rewrite seq_length, firstn_length, skipn_length; lia|].
  split.
  { intros u v a b H Ha Hb. rewrite nth_error_seq in Ha, Hb.
    destruct (u <? n - p); [|discriminate]. destruct (v <? n - p); [|discriminate].
    apply Some_inj in Ha. apply Some_inj in Hb. lia. }
  split.
  { intros i. rewrite in_seq, <- H3. lia. }
  intros u i H. rewrite nth_error_seq in H. destruct (Nat.ltb_spec u (n - p)); [|discriminate].
  apply Some_inj in H. subst i.
  assert (E : forall (a : list A) k m, m < k -> nth_error (firstn k a) m = nth_error a m).
  { induction a as [|x a IH]; intros [|k] [|m] Hk; simpl; auto; try lia. apply IH. lia. }
  rewrite E by lia. clear. revert p. induction l as [|a l IH]; intros [|p]; simpl; auto. destruct u; reflexivity.
Qed.

Section Median.
Variables (hw : Q) (x : list Q) (track : list nat).
Hypothesis LX : length x = length track.
Hypothesis HW : (0 <= hw)%Q.
Hypothesis G : grouped track.
Hypothesis GR : growing track x.

(** Lower and upper halves of the window of row [i]. *)
Definition low (i j : nat) : Prop :=
  nth_error track j = nth_error track i /\
  forall a b, nth_error x i = Some a -> nth_error x j = Some b -> (a - b <= hw)%Q.
Definition up (i j : nat) : Prop :=
  nth_error track j = nth_error track i /\
  forall a b, nth_error x i = Some a -> nth_error x j = Some b -> (b - a <= hw)%Q.

Lemma advance_previous_spec : forall fuel i xi cur p,
  nth_error x i = Some xi -> nth_error track i = Some cur -> p <= i -> i < fuel + p ->
  exists p', advance_previous hw x track fuel xi cur p = Some p' /\ p <= p' <= i /\
    low i p' /\ forall j, p <= j < p' -> ~ low i j.
Proof.
  induction fuel as [|fuel IH]; intros i xi cur p Hx Ht Hp Hf; [lia|].
  assert (Li : i < length x) by (eapply nth_error_Some_lt; eauto).
  destruct (nth_error_lt_Some x p) as [xp Hxp]; [lia|].
  destruct (nth_error_lt_Some track p) as [tp Htp]; [lia|].
  cbn [advance_previous]. rewrite Hxp, Htp. cbn [bind].
  destruct (Qlt_bool hw (xi - xp) || negb (cur =? tp)) eqn:E.
  - assert (N : ~ low i p).
    { intros [A B]. apply orb_true_iff in E as [E|E].
      - apply Qlt_bool_iff in E. specialize (B _ _ Hx Hxp). lra.
      - apply negb_true_iff, Nat.eqb_neq in E. congruence. }
    assert (p <> i).
    { intros ->. apply N. split; auto. intros a b Ha Hb. assert (a = b) by congruence. subst. lra. }
    destruct (IH i xi cur (S p) Hx Ht) as (p' & R & B & L & M); [lia|lia|].
    exists p'. split; auto. split; [lia|]. split; auto. intros j Hj.
    destruct (Nat.eq_dec j p) as [->|]; auto. apply M. lia.
  - exists p. split; auto. split; [lia|]. split.
    + apply orb_false_iff in E as [E1 E2]. apply negb_false_iff, Nat.eqb_eq in E2.
      apply Qlt_bool_false in E1. split; [congruence|]. intros a b Ha Hb. rewrite Hx in Ha. rewrite Hxp in Hb.
      apply Some_inj in Ha. apply Some_inj in Hb. subst. exact E1.
    + intros j Hj. lia.
Qed.

Lemma advance_next_spec : forall fuel i xi cur n,
  nth_error x i = Some xi -> nth_error track i = Some cur -> n <= length x -> length x < fuel + n ->
  exists n', advance_next hw x track fuel xi cur n = Some n' /\ n <= n' <= length x /\
    (forall j, n <= j < n' -> up i j) /\ (n' < length x -> ~ up i n').
Proof.
  induction fuel as [|fuel IH]; intros i xi cur n Hx Ht Hn Hf; [lia|].
  cbn [advance_next]. destruct (Nat.eq_dec n (length x)) as [E|NE].
  - rewrite (proj2 (nth_error_None x n)) by lia. exists n. split; auto. split; [lia|]. split; intros; lia.
  - destruct (nth_error_lt_Some x n) as [xn Hxn]; [lia|].
    destruct (nth_error_lt_Some track n) as [tn Htn]; [lia|]. rewrite Hxn, Htn.
    destruct (Qle_bool (xn - xi) hw && (cur =? tn)) eqn:E.
    + apply andb_true_iff in E as [E1 E2]. apply Qle_bool_iff in E1. apply Nat.eqb_eq in E2.
      destruct (IH i xi cur (S n) Hx Ht) as (n' & R & B & U & M); [lia|lia|].
      exists n'. split; auto. split; [lia|]. split; auto. intros j Hj.
      destruct (Nat.eq_dec j n) as [->|]; [|apply U; lia].
      split; [congruence|]. intros a b Ha Hb. rewrite Hx in Ha. rewrite Hxn in Hb.
      apply Some_inj in Ha. apply Some_inj in Hb. subst. exact E1.
    + exists n. split; auto. split; [lia|]. split; [intros; lia|]. intros _ [A B].
      apply andb_false_iff in E as [E|E].
      * apply Qle_bool_false in E. specialize (B _ _ Hx Hxn). lra.
      * apply Nat.eqb_neq in E. congruence.
Qed.

(** Rows of the window of row [i]. *)
Definition in_window (i j : nat) : Prop :=
  nth_error track j = nth_error track i /\
  forall a b, nth_error x i = Some a -> nth_error x j = Some b -> (a - hw <= b)%Q /\ (b <= a + hw)%Q.

Lemma grow : forall i j a b, i <= j -> nth_error track i = nth_error track j ->
  nth_error x i = Some a -> nth_error x j = Some b -> (a <= b)%Q.
Proof.
  intros i j a b H T Ha Hb. destruct (Nat.eq_dec i j) as [->|N]; [assert (a = b) by congruence; subst; lra|].
  destruct (nth_error_lt_Some track j) as [t Ht]. { rewrite <- LX. eapply nth_error_Some_lt; eauto. }
  eapply (GR i j t); eauto; [lia|congruence].
Qed.

Lemma window_exact : forall i p n, i < length x ->
  p <= i -> i < n -> n <= length x -> low i p -> (forall j, j < p -> ~ low i j) ->
  (forall j, i <= j < n -> up i j) -> (n < length x -> ~ up i n) ->
  forall j, p <= j < n <-> (j < length x /\ in_window i j).
Proof.
  intros i p n Li Hp Hn Ln [T0 Lo] NL U NU j.
  destruct (nth_error_lt_Some x i Li) as [a Ha].
  destruct (nth_error_lt_Some track i) as [t Ht]; [lia|]. split.
  - intros Hj. split; [lia|].
    destruct (nth_error_lt_Some x j) as [b Hb]; [lia|].
    destruct (Nat.le_gt_cases i j) as [C|C].
    + destruct (U j) as [T1 B]; [lia|]. split; auto. intros a' b' Ha' Hb'.
      rewrite Ha in Ha'. rewrite Hb in Hb'. apply Some_inj in Ha'. apply Some_inj in Hb'. subst a' b'.
      specialize (B _ _ Ha Hb). pose proof (grow i j a b C ltac:(congruence) Ha Hb). split; lra.
    + assert (T1 : nth_error track j = Some t).
      { destruct (Nat.eq_dec j p) as [->|]; [congruence|]. apply (G p j i t); auto; try lia. congruence. }
      split; [congruence|]. intros a' b' Ha' Hb'.
      rewrite Ha in Ha'. rewrite Hb in Hb'. apply Some_inj in Ha'. apply Some_inj in Hb'. subst a' b'.
      destruct (nth_error_lt_Some x p) as [c Hc]; [lia|]. specialize (Lo _ _ Ha Hc).
      pose proof (grow p j c b ltac:(lia) ltac:(congruence) Hc Hb).
      pose proof (grow j i b a ltac:(lia) ltac:(congruence) Hb Ha). split; lra.
  - intros [Lj [T1 W]]. destruct (nth_error_lt_Some x j Lj) as [b Hb]. destruct (W _ _ Ha Hb) as [W1 W2].
    split.
    + destruct (Nat.le_gt_cases p j); auto. exfalso. apply (NL j H). split; auto.
      intros a' b' Ha' Hb'. rewrite Ha in Ha'. rewrite Hb in Hb'. apply Some_inj in Ha'. apply Some_inj in Hb'. subst. lra.
    + destruct (Nat.lt_ge_cases j n); auto. exfalso. apply NU; [lia|].
      assert (T2 : nth_error track n = Some t).
      { destruct (Nat.eq_dec n j) as [->|]; [congruence|]. apply (G i n j t); auto; try lia. congruence. }
      split; [congruence|]. intros a' b' Ha' Hb'. rewrite Ha in Ha'. apply Some_inj in Ha'. subst a'.
      pose proof (grow n j b' b H ltac:(congruence) Hb' Hb). lra.
Qed.

Lemma low_next : forall i i' j, j < i -> i < i' -> i' < length x -> ~ low i j -> ~ low i' j.
Proof.
  intros i i' j H1 H2 H3 N [T L]. apply N.
  destruct (nth_error_lt_Some track i') as [t Ht]; [lia|].
  assert (Ti : nth_error track i = Some t) by (apply (G j i i' t); auto; congruence).
  split; [congruence|]. intros a b Ha Hb. destruct (nth_error_lt_Some x i' H3) as [c Hc].
  specialize (L _ _ Hc Hb). pose proof (grow i i' a c ltac:(lia) ltac:(congruence) Ha Hc). lra.
Qed.

Lemma median_loop_spec : forall {Y} (med : list Y -> Y) (y : list Y) k i p n,
  length y = length x -> i + k = length x ->
  p <= i -> (k <> 0 -> forall j, j < p -> ~ low i j) ->
  i <= n -> n <= length x -> (k <> 0 -> forall j, i <= j < n -> up i j) ->
  exists r, median_loop hw x track med y (seq i k) p n = Some r /\ length r = k /\
    forall m, m < k -> exists w, kept y (in_window (i + m)) w /\ nth_error r m = Some (med w).
Proof.
  intros Y med y. induction k as [|k IH]; intros i p n LY Hk Hp NL Hn Ln U.
  - exists []. split; [reflexivity|]. split; [reflexivity|]. intros; lia.
  - specialize (NL ltac:(lia)). specialize (U ltac:(lia)). cbn [seq median_loop].
    destruct (nth_error_lt_Some x i) as [xi Hx]; [lia|].
    destruct (nth_error_lt_Some track i) as [cur Ht]; [lia|]. rewrite Hx, Ht. cbn [bind].
    destruct (advance_previous_spec (S (length x)) i xi cur p Hx Ht) as (p' & -> & B1 & L1 & M1); [lia|lia|]. cbn [bind].
    destruct (advance_next_spec (S (length x)) i xi cur n Hx Ht) as (n' & -> & B2 & U2 & M2); [lia|lia|]. cbn [bind].
    assert (UI : up i i).
    { split; auto. intros a b Ha Hb. assert (a = b) by congruence. subst. lra. }
    assert (In' : i < n').
    { destruct (Nat.eq_dec n' i) as [->|]; [|lia]. exfalso. apply M2; [lia|exact UI]. }
    assert (NL' : forall j, j < p' -> ~ low i j).
    { intros j Hj. destruct (Nat.lt_ge_cases j p); [apply NL; auto|apply M1; lia]. }
    assert (U' : forall j, i <= j < n' -> up i j).
    { intros j Hj. destruct (Nat.lt_ge_cases j n); [apply U; lia|apply U2; lia]. }
    destruct (IH (S i) p' n') as (r & R & Lr & W); try lia; auto.
    { intros Nk j Hj. apply (low_next i); auto; lia. }
    { intros Nk j Hj. destruct (U' j) as [T1 V1]; [lia|]. destruct (U' (S i)) as [T2 V2]; [lia|].
      split; [congruence|]. intros a b Ha Hb. specialize (V1 _ _ Hx Hb).
      pose proof (grow i (S i) xi a ltac:(lia) ltac:(congruence) Hx Ha). lra. }
    rewrite R. cbn [bind]. eexists. split; [reflexivity|]. split; [simpl; lia|].
    intros [|m] Hm.
    + rewrite Nat.add_0_r. exists (slice y p' n'). split; [|reflexivity].
      apply slice_kept; [lia|lia|]. rewrite LY.
      apply window_exact; auto; lia.
    + destruct (W m) as (w & K & E); [lia|]. exists w. rewrite Nat.add_succ_r. split; [exact K|]. exact E.
Qed.

End Median.

Lemma median_filter_spec : forall {Y} (med : list Y -> Y) hw x (y : list Y) track,
  (0 <= hw)%Q -> length x = length track -> length y = length track -> grouped track -> growing track x ->
  exists r, track_median_filter med hw x y track = Some r /\ length r = length y /\
    forall i, i < length y -> exists w, kept y (in_window hw x track i) w /\ nth_error r i = Some (med w).
Proof.
  intros Y med hw x y track HW LX LY G GR. unfold track_median_filter.
  apply (median_loop_spec hw x track LX HW G GR med y (length y) 0 0 0); try lia.
Qed.

(** ** Median *)
Lemma In_qinsert : forall a l b, In b (qinsert a l) <-> b = a \/ In b l.
Proof.
  induction l as [|c l IH]; intros b; simpl; [intuition congruence|].
  destruct (Qle_bool a c); simpl; [intuition congruence|]. rewrite IH. intuition congruence.
Qed.
Lemma length_qinsert : forall a l, length (qinsert a l) = S (length l).
Proof. induction l as [|c l IH]; simpl; auto. destruct (Qle_bool a c); simpl; lia. Qed.
Lemma length_qsort : forall l, length (qsort l) = length l.
Proof. induction l as [|a l IH]; simpl; auto. rewrite length_qinsert, IH. reflexivity. Qed.

Lemma qsorted_cons : forall a l, qsorted (a :: l) <-> qsorted l /\ forall b, In b l -> (a <= b)%Q.
Proof.
  intros a l. split.
  - intros S. split.
    + intros i j u v H A B. apply (S (Datatypes.S i) (Datatypes.S j)); auto; lia.
    + intros b H. apply In_nth_error in H as [j Hj]. apply (S 0 (Datatypes.S j)); auto; lia.
  - intros [S B] i j u v H A C. destruct j; [lia|]. simpl in C. destruct i; simpl in A.
    + apply Some_inj in A. subst. apply B. eapply nth_error_In; eauto.
    + apply (S i j); auto; lia.
Qed.
Lemma qsorted_qinsert : forall a l, qsorted l -> qsorted (qinsert a l).
Proof.
  induction l as [|c l IH]; intros S; simpl.
  - apply qsorted_cons. split; auto. intros b [].
  - apply qsorted_cons in S as [S B]. destruct (Qle_bool a c) eqn:E.
    + apply Qle_bool_iff in E. apply qsorted_cons. split; [apply qsorted_cons; auto|].
      intros b [<-|H]; auto. specialize (B b H). lra.
    + apply Qle_bool_false in E. apply qsorted_cons. split; auto. intros b H. apply In_qinsert in H as [->|H]; auto. lra.
Qed.
Lemma qsorted_qsort : forall l, qsorted (qsort l).
Proof.
  induction l as [|a l IH]; simpl; [intros i j u v _ H; destruct i; discriminate|].
  apply qsorted_qinsert. exact IH.
Qed.

(** Number of elements satisfying a test does not change. *)
Definition cnt (f : Q -> bool) (l : list Q) : nat := length (filter f l).
Lemma cnt_qinsert : forall f a l, cnt f (qinsert a l) = cnt f (a :: l).
Proof.
  unfold cnt. induction l as [|c l IH]; auto. cbn [qinsert]. destruct (Qle_bool a c); auto.
  cbn [filter]. cbn [filter] in IH. destruct (f c); cbn [length]; rewrite IH; destruct (f a); reflexivity.
Qed.
Lemma cnt_qsort : forall f l, cnt f (qsort l) = cnt f l.
Proof.
  intros f. induction l as [|a l IH]; auto. cbn [qsort fold_right]. change (fold_right qinsert [] l) with (qsort l).
  rewrite cnt_qinsert. unfold cnt in *. cbn [filter]. destruct (f a); cbn [length]; rewrite IH; reflexivity.
Qed.
Lemma cnt_app : forall f a b, cnt f (a ++ b) = cnt f a + cnt f b.
Proof. intros. unfold cnt. rewrite filter_app, app_length. reflexivity. Qed.
Lemma cnt_none : forall f l, (forall a, In a l -> f a = false) -> cnt f l = 0.
Proof.
  unfold cnt. induction l as [|a l IH]; intros H; auto. cbn [filter]. rewrite (H a (or_introl eq_refl)).
  apply IH. intros; apply H; right; auto.
Qed.
Lemma cnt_le : forall f l, cnt f l <= length l.
Proof. unfold cnt. induction l as [|a l IH]; simpl; auto. destruct (f a); simpl; lia. Qed.

Lemma nth_error_nth_q : forall (l : list Q) k, k < length l -> nth_error l k = Some (nth k l 0%Q).
Proof. intros. apply nth_error_nth'. exact H. Qed.

Lemma nth_error_firstn_lt : forall {A} (a : list A) k m b, nth_error (firstn k a) m = Some b -> m < k /\ nth_error a m = Some b.
Proof.
  induction a as [|x a IH]; intros [|k] [|m] b H; simpl in *; try discriminate; [split; [lia|auto]|].
  destruct (IH _ _ _ H). split; [lia|auto].
Qed.
Lemma nth_error_skipn_add : forall {A} (a : list A) k m, nth_error (skipn k a) m = nth_error a (k + m).
Proof. induction a as [|x a IH]; intros [|k] m; simpl; auto. destruct m; reflexivity. Qed.

(** At most half of the values lie strictly on each side of the median. *)
Lemma np_median_spec : forall l, l <> [] ->
  2 * cnt (fun a => Qlt_bool a (np_median l)) l <= length l /\
  2 * cnt (fun a => Qlt_bool (np_median l) a) l <= length l.
Proof.
  intros l NE. unfold np_median. set (s := qsort l). set (n := length s).
  assert (Ln : n = length l) by apply length_qsort.
  assert (Nz : n <> 0) by (rewrite Ln; destruct l; [congruence|discriminate]).
  pose proof (qsorted_qsort l) as S. fold s in S.
  set (h0 := (n - 1) / 2). set (h1 := n / 2).
  assert (H0 : h0 <= h1 /\ h1 < n /\ h1 <= h0 + 1 /\ h0 + h1 + 1 = n).
  { unfold h0, h1. pose proof (Nat.div_mod n 2 ltac:(lia)). pose proof (Nat.mod_upper_bound n 2 ltac:(lia)).
    pose proof (Nat.div_mod (n - 1) 2 ltac:(lia)). pose proof (Nat.mod_upper_bound (n - 1) 2 ltac:(lia)). lia. }
  set (m := ((nth h0 s 0 + nth h1 s 0) / 2)%Q).
  assert (E0 : nth_error s h0 = Some (nth h0 s 0%Q)) by (apply nth_error_nth_q; lia).
  assert (E1 : nth_error s h1 = Some (nth h1 s 0%Q)) by (apply nth_error_nth_q; lia).
  assert (M : (nth h0 s 0 <= nth h1 s 0)%Q).
  { destruct (Nat.eq_dec h0 h1) as [->|]; [apply Qle_refl|]. apply (S h0 h1); auto; lia. }
  assert (M1 : (nth h0 s 0 <= m)%Q /\ (m <= nth h1 s 0)%Q).
  { unfold m. assert (D : (m == (nth h0 s 0 + nth h1 s 0) * (1#2))%Q) by (unfold m; field). unfold m in D. rewrite D. lra. }
  split.
  - rewrite <- cnt_qsort. fold s. rewrite <- (firstn_skipn h1 s), cnt_app.
    rewrite (cnt_none _ (skipn h1 s)).
    + pose proof (cnt_le (fun a => Qlt_bool a m) (firstn h1 s)). rewrite firstn_length in H. lia.
    + intros a I. apply Qlt_bool_false. apply In_nth_error in I as [k Hk]. rewrite nth_error_skipn_add in Hk.
      destruct k; [rewrite Nat.add_0_r in Hk; rewrite E1 in Hk; apply Some_inj in Hk; subst; tauto|].
      pose proof (S h1 (h1 + Datatypes.S k) _ _ ltac:(lia) E1 Hk). lra.
  - rewrite <- cnt_qsort. fold s. rewrite <- (firstn_skipn (h0 + 1) s), cnt_app.
    rewrite (cnt_none _ (firstn (h0 + 1) s)).
    + pose proof (cnt_le (fun a => Qlt_bool m a) (skipn (h0 + 1) s)). rewrite skipn_length in H. fold n in H. lia.
    + intros a I. apply Qlt_bool_false. apply In_nth_error in I as [k Hk]. apply nth_error_firstn_lt in Hk as [Lk Hk].
      destruct (Nat.eq_dec k h0) as [->|]; [rewrite E0 in Hk; apply Some_inj in Hk; subst; tauto|].
      pose proof (S k h0 _ _ ltac:(lia) Hk E0). lra.
Qed.

(** ** Loess filter *)
Section Loess.
Variables (hw : Q) (x y : list Q) (track : list nat).
Hypothesis LX : length x = length track.
Hypothesis LY : length y = length track.
Hypothesis HW : (0 <= hw)%Q.
Hypothesis G : grouped track.
Hypothesis GR : growing track x.

Definition qn (l : list Q) (j : nat) : Q := nth j l 0%Q.
(** Weight of row [j] for row [i]: the tricube of the distance. *)
Definition tricube (d : Q) : Q :=
  let u := (1 - (d / hw) * (d / hw) * (d / hw))%Q in (u * u * u)%Q.
Definition weight (i j : nat) : Q := tricube (Qabs (qn x i - qn x j)).
Definition near (i j : nat) : Prop :=
  nth_error track j = nth_error track i /\ (Qabs (qn x i - qn x j) < hw)%Q.

Lemma qn_eq : forall l i a, nth_error l i = Some a -> qn l i = a.
Proof. intros. unfold qn. apply nth_error_nth with (d := 0%Q) in H. exact H. Qed.

Lemma loess_weight_abs : forall dx d, (0 <= dx)%Q -> (d == dx \/ d == - dx)%Q -> (loess_weight hw dx == tricube (Qabs d))%Q.
Proof.
  intros dx d H E.
  assert (A : (Qabs d == dx)%Q).
  { destruct E as [E|E]; rewrite E; [apply Qabs_pos; auto|]. rewrite Qabs_opp. apply Qabs_pos; auto. }
  unfold loess_weight, tricube, cube. cbv zeta. rewrite A. reflexivity.
Qed.

Definition sums (i : nat) (W : list nat) (acc acc' : Q * Q) : Prop :=
  (fst acc' == fst acc + Qsum (map (fun j => weight i j * qn y j) W))%Q /\
  (snd acc' == snd acc + Qsum (map (weight i) W))%Q.

Lemma loess_back_spec : forall p i xi cur acc, nth_error x i = Some xi -> nth_error track i = Some cur -> p < i ->
  exists acc' q, loess_back hw x y track xi cur p acc = Some acc' /\ q <= p /\
    sums i (seq (S q) (p - q)) acc acc' /\
    (forall j, q < j <= p -> near i j) /\ (q = 0 \/ ~ near i q).
Proof.
  induction p as [|p IH]; intros i xi cur acc Hx Ht Hp.
  - exists acc, 0. split; [reflexivity|]. split; [lia|]. split; [|split; [intros; lia|auto]].
    unfold sums; simpl. split; ring.
  - assert (Li : i < length x) by (eapply nth_error_Some_lt; eauto).
    cbn [loess_back]. destruct (nth_error_lt_Some x (S p)) as [xp Hxp]; [lia|].
    destruct (nth_error_lt_Some track (S p)) as [tp Htp]; [lia|].
    destruct (nth_error_lt_Some y (S p)) as [yp Hyp]; [lia|].
    rewrite Hxp, Htp, Hyp. cbn [bind].
    destruct (Qlt_bool (xi - xp) hw && (cur =? tp)) eqn:E.
    + apply andb_true_iff in E as [E1 E2]. apply Qlt_bool_iff in E1. apply Nat.eqb_eq in E2. subst tp.
      assert (D : (xp <= xi)%Q) by (eapply (GR (S p) i cur); eauto).
      destruct (IH i xi cur (fst acc + yp * loess_weight hw (xi - xp), snd acc + loess_weight hw (xi - xp))%Q Hx Ht)
        as (acc' & q & R & Lq & S & N & Q0); [lia|].
      exists acc', q. split; [exact R|]. split; [lia|].
      assert (WE : (loess_weight hw (xi - xp) == weight i (Datatypes.S p))%Q).
      { unfold weight. rewrite (qn_eq _ _ _ Hx), (qn_eq _ _ _ Hxp). apply loess_weight_abs; [lra|left; reflexivity]. }
      split.
      * replace (Datatypes.S p - q) with ((p - q) + 1) by lia. rewrite seq_app.
        replace (Datatypes.S q + (p - q)) with (Datatypes.S p) by lia.
        destruct S as [S1 S2]. cbn [fst snd] in S1, S2. unfold sums. rewrite !map_app, !Qsum_app. cbn [seq map Qsum].
        rewrite (qn_eq _ _ _ Hyp). rewrite S1, S2, WE. split; ring.
      * split; auto. intros j Hj. destruct (Nat.eq_dec j (Datatypes.S p)) as [->|]; [|apply N; lia].
        split; [congruence|]. rewrite (qn_eq _ _ _ Hx), (qn_eq _ _ _ Hxp). rewrite Qabs_pos by lra. exact E1.
    + exists acc, (S p). split; [reflexivity|]. split; [lia|]. rewrite Nat.sub_diag. split; [unfold sums; simpl; split; ring|].
      split; [intros; lia|]. right. intros [T N]. rewrite (qn_eq _ _ _ Hx), (qn_eq _ _ _ Hxp) in N.
      apply andb_false_iff in E as [E|E].
      * apply Qlt_bool_false in E. assert (cur = tp) by congruence. subst tp.
        assert (D : (xp <= xi)%Q) by (eapply (GR (S p) i cur); eauto). rewrite Qabs_pos in N by lra. lra.
      * apply Nat.eqb_neq in E. congruence.
Qed.

Lemma loess_next_spec : forall k n i xi cur acc, nth_error x i = Some xi -> nth_error track i = Some cur -> i < n ->
  n + k = length x - 1 ->
  exists acc' q, loess_next hw x y track xi cur k n acc = Some acc' /\ n <= q <= n + k /\
    sums i (seq n (q - n)) acc acc' /\
    (forall j, n <= j < q -> near i j) /\ (q = n + k \/ ~ near i q).
Proof.
  induction k as [|k IH]; intros n i xi cur acc Hx Ht Hn Hk.
  - exists acc, n. split; [reflexivity|]. split; [lia|]. rewrite Nat.sub_diag. split; [unfold sums; simpl; split; ring|].
    split; [intros; lia|]. left. lia.
  - cbn [loess_next]. destruct (nth_error_lt_Some x n) as [xn Hxn]; [lia|].
    destruct (nth_error_lt_Some track n) as [tn Htn]; [lia|].
    destruct (nth_error_lt_Some y n) as [yn Hyn]; [lia|].
    rewrite Hxn, Htn, Hyn. cbn [bind].
    destruct (Qlt_bool (xn - xi) hw && (cur =? tn)) eqn:E.
    + apply andb_true_iff in E as [E1 E2]. apply Qlt_bool_iff in E1. apply Nat.eqb_eq in E2. subst tn.
      assert (D : (xi <= xn)%Q) by (eapply (GR i n cur); eauto).
      destruct (IH (S n) i xi cur (fst acc + yn * loess_weight hw (xn - xi), snd acc + loess_weight hw (xn - xi))%Q Hx Ht)
        as (acc' & q & R & Lq & S & N & Q0); [lia|lia|].
      exists acc', q. split; [exact R|]. split; [lia|].
      assert (WE : (loess_weight hw (xn - xi) == weight i n)%Q).
      { unfold weight. rewrite (qn_eq _ _ _ Hx), (qn_eq _ _ _ Hxn). apply loess_weight_abs; [lra|right; ring]. }
      split.
      * replace (q - n) with (Datatypes.S (q - Datatypes.S n)) by lia. cbn [seq].
        destruct S as [S1 S2]. cbn [fst snd] in S1, S2. unfold sums. cbn [map Qsum].
        rewrite (qn_eq _ _ _ Hyn). rewrite S1, S2, WE. split; ring.
      * split; [|destruct Q0; [left; lia|auto]].
        intros j Hj. destruct (Nat.eq_dec j n) as [->|]; [|apply N; lia].
        split; [congruence|]. rewrite (qn_eq _ _ _ Hx), (qn_eq _ _ _ Hxn).
        rewrite Qabs_neg by lra. lra.
    + exists acc, n. split; [reflexivity|]. split; [lia|]. rewrite Nat.sub_diag. split; [unfold sums; simpl; split; ring|].
      split; [intros; lia|]. right. intros [T N]. rewrite (qn_eq _ _ _ Hx), (qn_eq _ _ _ Hxn) in N.
      apply andb_false_iff in E as [E|E].
      * apply Qlt_bool_false in E. assert (cur = tn) by congruence. subst tn.
        assert (D : (xi <= xn)%Q) by (eapply (GR i n cur); eauto). rewrite Qabs_neg in N by lra. lra.
      * apply Nat.eqb_neq in E. congruence.
Qed.

(** Rows taking part in the value of row [i]. *)
Definition used (i j : nat) : Prop :=
  j = i \/ (j < length y /\ near i j /\ j <> 0 /\ j <> length y - 1).

Lemma weight_self : forall i, (weight i i == 1)%Q.
Proof.
  intros. unfold weight, tricube. cbv zeta.
  assert (E : (qn x i - qn x i == 0)%Q) by ring. rewrite E. change (Qabs 0) with 0%Q.
  assert (E2 : (0 / hw == 0)%Q) by (unfold Qdiv; ring). rewrite E2. ring.
Qed.

Lemma weight_range : forall i j, near i j -> (0 < weight i j)%Q /\ (weight i j <= 1)%Q.
Proof.
  intros i j [_ N]. unfold weight, tricube. cbv zeta.
  pose proof (Qabs_nonneg (qn x i - qn x j)) as P. set (d := Qabs (qn x i - qn x j)) in *.
  assert (H : (0 < hw)%Q) by lra.
  assert (U0 : (0 <= d / hw)%Q) by (apply Qle_shift_div_l; lra).
  assert (U1 : (d / hw < 1)%Q) by (apply Qlt_shift_div_r; lra).
  set (u := (d / hw)%Q) in *. clearbody u.
  assert (C : (0 <= u * u)%Q) by nra. assert (C' : (u * u < 1)%Q) by nra.
  assert (C0 : (0 <= u * u * u)%Q) by nra.
  assert (C1 : (u * u * u < 1)%Q) by nra.
  set (c := (u * u * u)%Q) in *. clearbody c.
  split.
  - assert (0 < 1 - c)%Q by lra. assert (0 < (1 - c) * (1 - c))%Q by nra. nra.
  - assert (0 <= 1 - c)%Q by lra. assert (1 - c <= 1)%Q by lra.
    assert ((1 - c) * (1 - c) <= 1)%Q by nra. assert (0 <= (1 - c) * (1 - c))%Q by nra. nra.
Qed.

Lemma near_between : forall i j k, i < length y -> j <= length y - 1 -> near i j ->
  (i <= k <= j \/ j <= k <= i) -> near i k.
Proof.
  intros i j k Li Lj [T N] B.
  destruct (nth_error_lt_Some track i) as [t Ht]; [lia|].
  assert (Tj : nth_error track j = Some t) by congruence.
  assert (Tk : nth_error track k = Some t).
  { destruct (Nat.eq_dec k i) as [->|]; auto. destruct (Nat.eq_dec k j) as [->|]; auto.
    destruct B; [apply (G i k j t)|apply (G j k i t)]; auto; lia. }
  split; [congruence|].
  destruct (nth_error_lt_Some x i) as [a Ha]; [lia|].
  destruct (nth_error_lt_Some x j) as [b Hb]; [lia|].
  destruct (nth_error_lt_Some x k) as [c Hc]; [lia|].
  rewrite (qn_eq _ _ _ Ha) in *. rewrite (qn_eq _ _ _ Hb) in *. rewrite (qn_eq _ _ _ Hc) in *.
  pose proof (grow x track LX GR) as GW.
  destruct B as [B|B].
  - pose proof (GW i k a c ltac:(lia) ltac:(congruence) Ha Hc).
    pose proof (GW k j c b ltac:(lia) ltac:(congruence) Hc Hb).
    rewrite Qabs_neg in N by lra. rewrite Qabs_neg by lra. lra.
  - pose proof (GW k i c a ltac:(lia) ltac:(congruence) Hc Ha).
    pose proof (GW j k b c ltac:(lia) ltac:(congruence) Hb Hc).
    rewrite Qabs_pos in N by lra. rewrite Qabs_pos by lra. lra.
Qed.

Lemma Qsum_pos : forall (l : list Q), (forall a, In a l -> (0 <= a)%Q) -> (0 <= Qsum l)%Q.
Proof.
  induction l as [|a l IH]; intros H; simpl; [lra|].
  specialize (IH ltac:(intros; apply H; right; auto)). specialize (H a (or_introl eq_refl)). lra.
Qed.

Lemma loess_at_spec : forall i, i < length y ->
  exists v W, loess_at hw x y track i = Some v /\ NoDup W /\ (forall j, In j W <-> used i j) /\
    (0 < Qsum (map (weight i) W))%Q /\
    (v * Qsum (map (weight i) W) == Qsum (map (fun j => weight i j * qn y j) W))%Q.
Proof.
  intros i Hi. unfold loess_at.
  destruct (nth_error_lt_Some x i) as [xi Hx]; [lia|].
  destruct (nth_error_lt_Some track i) as [cur Ht]; [lia|].
  destruct (nth_error_lt_Some y i) as [yi Hy]; [lia|]. rewrite Hx, Ht, Hy. cbn [bind].
  set (last := length y - 1) in *.
  (* backward part *)
  assert (BK : exists a q, (if i =? 0 then Some (yi, 1%Q) else loess_back hw x y track xi cur (i - 1) (yi, 1%Q)) = Some a /\
     q <= i /\ sums i (seq q (i - q)) (yi, 1%Q) a /\
     (forall j, q <= j < i -> near i j) /\ (forall j, j < i -> near i j -> j <> 0 -> q <= j) /\ (0 < i -> 0 < q)).
  { destruct (Nat.eqb_spec i 0) as [->|Ni].
    - exists (yi, 1%Q), 0. split; [reflexivity|]. split; [lia|]. split; [unfold sums; simpl; split; ring|].
      split; [intros; lia|]. split; intros; lia.
    - destruct (loess_back_spec (i - 1) i xi cur (yi, 1%Q) Hx Ht) as (a & q & R & Lq & S & N & Q0); [lia|].
      exists a, (Datatypes.S q). split; [exact R|]. split; [lia|].
      split; [replace (i - Datatypes.S q) with (i - 1 - q) by lia; exact S|].
      split; [intros j Hj; apply N; lia|]. split; [|lia].
      intros j Hj Nj J0. destruct (Nat.lt_ge_cases q j); [lia|]. exfalso.
      destruct Q0 as [Q0|Q0]; [lia|]. apply Q0. apply (near_between i j q); auto; lia. }
  destruct BK as (a & q & -> & Lq & Sa & Na & Ma & Pq). cbn [bind].
  assert (FW : exists b r, (if i =? last then Some a else loess_next hw x y track xi cur (last - (i + 1)) (i + 1) a) = Some b /\
     i < r <= length y /\ sums i (seq (i + 1) (r - (i + 1))) a b /\
     (forall j, i < j < r -> near i j /\ j <> last) /\ (forall j, i < j < length y -> near i j -> j <> last -> j < r)).
  { destruct (Nat.eqb_spec i last) as [E|Ni].
    - exists a, (i + 1). split; [reflexivity|]. split; [lia|]. rewrite Nat.sub_diag. split; [unfold sums; simpl; split; ring|].
      split; [intros; lia|]. intros; lia.
    - destruct (loess_next_spec (last - (i + 1)) (i + 1) i xi cur a Hx Ht) as (b & r & R & Lr & S & N & Q0); [lia|lia|].
      exists b, r. split; [exact R|]. split; [lia|]. split; [exact S|].
      split; [intros j Hj; split; [apply N; lia|lia]|].
      intros j Hj Nj J0. destruct (Nat.lt_ge_cases j r); [lia|]. exfalso.
      destruct Q0 as [Q0|Q0]; [lia|]. apply Q0. apply (near_between i j r); auto; lia. }
  destruct FW as (b & r & -> & Lr & Sb & Nb & Mb). cbn [bind].
  exists (fst b / snd b)%Q, (seq q (i - q) ++ i :: seq (i + 1) (r - (i + 1))). split; [reflexivity|].
  assert (EW : seq q (i - q) ++ i :: seq (i + 1) (r - (i + 1)) = seq q (r - q)).
  { replace (r - q) with ((i - q) + Datatypes.S (r - (i + 1))) by lia. rewrite seq_app.
    replace (q + (i - q)) with i by lia. cbn [seq]. rewrite Nat.add_1_r. reflexivity. }
  split; [rewrite EW; apply seq_NoDup|].
  assert (IW : forall j, In j (seq q (i - q) ++ i :: seq (i + 1) (r - (i + 1))) <-> used i j).
  { intros j. rewrite EW, in_seq. unfold used. split.
    - intros Hj. destruct (Nat.lt_trichotomy j i) as [C|[C|C]]; [right|left; auto|right].
      + split; [lia|]. split; [apply Na; lia|]. split; [|lia]. lia.
      + destruct (Nb j ltac:(lia)) as [N1 N2]. split; [lia|]. split; auto. split; [lia|auto].
    - intros [->|(J1 & J2 & J3 & J4)]; [lia|].
      destruct (Nat.lt_trichotomy j i) as [C|[C|C]]; [|lia|].
      + pose proof (Ma j C J2 J3). lia.
      + pose proof (Mb j ltac:(lia) J2 J4). lia. }
  split; [exact IW|].
  destruct Sa as [A1 A2]. destruct Sb as [B1 B2]. cbn [fst snd] in A1, A2.
  set (W1 := seq q (i - q)) in *. set (W2 := seq (i + 1) (r - (i + 1))) in *.
  assert (SW : (Qsum (map (weight i) (W1 ++ i :: W2)) == snd b)%Q).
  { rewrite map_app, Qsum_app. cbn [map Qsum]. rewrite weight_self, B2, A2. ring. }
  assert (SY : (Qsum (map (fun j => weight i j * qn y j) (W1 ++ i :: W2)) == fst b)%Q).
  { rewrite map_app, Qsum_app. cbn [map Qsum]. rewrite weight_self, B1, A1, (qn_eq _ _ _ Hy). ring. }
  assert (PW : (0 < Qsum (map (weight i) (W1 ++ i :: W2)))%Q).
  { rewrite map_app, Qsum_app. cbn [map Qsum]. rewrite weight_self.
    assert (P1 : (0 <= Qsum (map (weight i) W1))%Q).
    { apply Qsum_pos. intros w I. apply in_map_iff in I as (j & <- & I). apply in_seq in I.
      destruct (weight_range i j); [apply Na; lia|lra]. }
    assert (P2 : (0 <= Qsum (map (weight i) W2))%Q).
    { apply Qsum_pos. intros w I. apply in_map_iff in I as (j & <- & I). apply in_seq in I.
      destruct (weight_range i j); [apply Nb; lia|lra]. }
    lra. }
  split; [exact PW|]. rewrite SW in PW |- *. rewrite SY. field. lra.
Qed.

Lemma sequence_total : forall {A} (l : list (option A)), (forall o, In o l -> exists a, o = Some a) ->
  exists r, sequence l = Some r /\ length r = length l /\ forall i o, nth_error l i = Some o -> nth_error r i = o.
Proof.
  induction l as [|o l IH]; intros H.
  - exists []. split; [reflexivity|]. split; [reflexivity|]. intros [|i]; discriminate.
  - destruct (H o (or_introl eq_refl)) as [a ->]. destruct IH as (r & R & L & V); [intros; apply H; right; auto|].
    cbn [sequence bind]. rewrite R. cbn [bind]. exists (a :: r). split; [reflexivity|]. split; [simpl; lia|].
    intros [|i] o E; simpl in *; [congruence|auto].
Qed.

Lemma loess_filter_spec :
  exists r, track_loess_filter hw x y track = Some r /\ length r = length y /\
    forall i v, nth_error r i = Some v ->
      exists W, NoDup W /\ (forall j, In j W <-> used i j) /\
        (0 < Qsum (map (weight i) W))%Q /\
        (v * Qsum (map (weight i) W) == Qsum (map (fun j => weight i j * qn y j) W))%Q.
Proof.
  unfold track_loess_filter.
  destruct (sequence_total (map (loess_at hw x y track) (seq 0 (length y)))) as (r & R & L & V).
  { intros o I. apply in_map_iff in I as (i & <- & I). apply in_seq in I.
    destruct (loess_at_spec i) as (v & W & E & _); [lia|]. eauto. }
  rewrite map_length, seq_length in L. exists r. split; [exact R|]. split; [exact L|].
  intros i v Hv. assert (Hi : i < length y) by (rewrite <- L; eapply nth_error_Some_lt; eauto).
  destruct (loess_at_spec i Hi) as (v' & W & E & S).
  assert (X : nth_error r i = Some v').
  { apply V. rewrite nth_error_map, nth_error_seq. destruct (Nat.ltb_spec i (length y)); [|lia]. cbn. congruence. }
  assert (v' = v) by congruence. subst v'. exists W. exact S.
Qed.

(** A weighted mean lies between the extreme values. *)
Lemma weighted_mean_bounds : forall (W : list nat) (w f : nat -> Q) v lo hi,
  (forall j, In j W -> (0 <= w j)%Q /\ (lo <= f j)%Q /\ (f j <= hi)%Q) ->
  (0 < Qsum (map w W))%Q -> (v * Qsum (map w W) == Qsum (map (fun j => w j * f j) W))%Q ->
  (lo <= v)%Q /\ (v <= hi)%Q.
Proof.
  intros W w f v lo hi H P E.
  assert (B : (lo * Qsum (map w W) <= Qsum (map (fun j => w j * f j) W))%Q /\ (Qsum (map (fun j => w j * f j) W) <= hi * Qsum (map w W))%Q).
  { clear P E. induction W as [|j W IH]; [simpl; lra|]. cbn [map Qsum].
    destruct IH as [I1 I2]; [intros; apply H; right; auto|]. destruct (H j (or_introl eq_refl)) as (H1 & H2 & H3).
    split; nra. }
  rewrite <- E in B. destruct B as [B1 B2]. split.
  - apply (Qmult_le_r _ _ (Qsum (map w W))); auto.
  - apply (Qmult_le_r _ _ (Qsum (map w W))); auto.
Qed.

Lemma loess_bounds : forall r i v lo hi, track_loess_filter hw x y track = Some r -> nth_error r i = Some v ->
  (forall j a, nth_error y j = Some a -> nth_error track j = nth_error track i ->
     (Qabs (qn x i - qn x j) <= hw)%Q -> (lo <= a)%Q /\ (a <= hi)%Q) ->
  (lo <= v)%Q /\ (v <= hi)%Q.
Proof.
  intros r i v lo hi R Hv B. destruct loess_filter_spec as (r' & R' & L & S).
  assert (r' = r) by congruence. subst r'. destruct (S i v Hv) as (W & _ & U & P & E).
  assert (Hi : i < length y) by (rewrite <- L; eapply nth_error_Some_lt; eauto).
  apply (weighted_mean_bounds W (weight i) (qn y) v); auto.
  intros j I. apply U in I. destruct I as [->|(J1 & J2 & _)].
  - split; [rewrite weight_self; lra|]. destruct (nth_error_lt_Some y i Hi) as [a Ha]. rewrite (qn_eq _ _ _ Ha).
    apply (B i a Ha eq_refl). assert (E0 : (qn x i - qn x i == 0)%Q) by ring. rewrite E0. exact HW.
  - split; [destruct (weight_range _ _ J2); lra|]. destruct (nth_error_lt_Some y j J1) as [a Ha]. rewrite (qn_eq _ _ _ Ha).
    destruct J2 as [T N]. apply (B j a Ha T). lra.
Qed.

End Loess.
