(** Property C130: centred differences of a field. *)
From Coq Require Import List Arith Bool ZArith Reals Lia Lra.
Import ListNotations.
From Verif Require Import Base Spec Corr_model Match_props TrackObs_filter Sph_model Sph_proofs Fdif_model.
Local Open Scope R_scope.

(** ** Specification *)
(** Value at a longitude and a latitude. *)
Definition at_ {A} (d : list (list A)) (i j : nat) : option A := match nth_error d i with Some c => nth_error c j | None => None end.
Definition shape {A} (d : list (list A)) (n m : nat) : Prop := length d = n /\ forall c, In c d -> length c = m.
(** [r] is [(a - b) / d], nan if [a] or [b] is nan. *)
Definition centred (d : R) (a b r : option R) : Prop :=
  match a, b with Some x, Some y => r = Some ((x - y) / d) | _, _ => r = None end.
(** Length of one degree of a great circle of the sphere, in metres. *)
Definition metres : R := 2 * PI * RE / 360.

Lemma bound_pos : forall n k, bound n (Z.of_nat k) = Nat.min k n.
Proof. intros. unfold bound. destruct (Z.ltb_spec (Z.of_nat k) 0); lia. Qed.
Lemma bound_neg : forall n k, (1 <= k)%nat -> bound n (- Z.of_nat k) = (n - k)%nat.
Proof. intros. unfold bound. destruct (Z.ltb_spec (- Z.of_nat k) 0); lia. Qed.
Lemma nth_firstn : forall {X} (l : list X) k m, (m < k)%nat -> nth_error (firstn k l) m = nth_error l m.
Proof. induction l as [|x l IH]; intros [|k] [|m] H; try lia; try reflexivity. cbn [firstn nth_error]. apply IH. lia. Qed.
Lemma nth_repeat : forall {X} (x : X) k m, (m < k)%nat -> nth_error (repeat x k) m = Some x.
Proof. induction k; intros [|m] H; try lia; [reflexivity|]. cbn [repeat nth_error]. apply IHk. lia. Qed.
Lemma put_same : forall {A} (l : list A) a b v, length v = (b - a)%nat -> (a <= b)%nat -> put l a b v = Some (firstn a l ++ v ++ skipn b l).
Proof. intros A l a b v H L. unfold put. rewrite H, Nat.eqb_refl. repeat f_equal. lia. Qed.

Lemma shifted_nan : forall {A} (nan : A) k l, (1 <= k)%nat ->
  shifted nan false (Z.of_nat k) l = Some (skipn (Nat.min k (length l)) l ++ repeat nan (Nat.min k (length l)), repeat nan (Nat.min k (length l)) ++ firstn (length l - k) l).
Proof.
  intros A nan k l K. unfold shifted, put_upto, put_from, from, upto. rewrite !bound_pos, !bound_neg by exact K. unfold slice. cbn [skipn]. rewrite Nat.sub_0_r.
  rewrite put_same by (rewrite ?firstn_length, ?skipn_length; lia). cbn [bind firstn app]. rewrite put_same by (rewrite ?firstn_length, ?skipn_length; lia). cbn [bind]. rewrite skipn_all, app_nil_r.
  rewrite (firstn_all2 (n := length l - Nat.min k (length l)) (skipn _ _)) by (rewrite skipn_length; lia).
  f_equal. unfold nan_from, nan_upto. rewrite !app_length, !firstn_length, !skipn_length. rewrite bound_neg by exact K. rewrite bound_pos. f_equal.
  - rewrite firstn_app, skipn_length, firstn_all2 by (rewrite skipn_length; lia). match goal with |- context [firstn ?a (skipn _ _)] => replace a with 0%nat by lia end. cbn [firstn]. rewrite app_nil_r. f_equal. f_equal. lia.
  - f_equal; [f_equal; lia|]. rewrite skipn_app, firstn_length. rewrite (skipn_all2 (firstn _ _)) by (rewrite firstn_length; lia). cbn [app]. match goal with |- context [skipn ?a (firstn _ _)] => replace a with 0%nat by lia end. reflexivity.
Qed.
Lemma shifted_wrap : forall {A} (nan : A) k l, (1 <= k)%nat ->
  shifted nan true (Z.of_nat k) l = Some (skipn (Nat.min k (length l)) l ++ firstn (Nat.min k (length l)) l, skipn (length l - k) l ++ firstn (length l - k) l).
Proof.
  intros A nan k l K. unfold shifted, put_upto, put_from, from, upto. rewrite !bound_pos, !bound_neg by exact K. unfold slice. cbn [skipn]. rewrite !Nat.sub_0_r.
  rewrite put_same by (rewrite ?firstn_length, ?skipn_length; lia). cbn [bind firstn app]. rewrite put_same by (rewrite ?firstn_length, ?skipn_length; lia). cbn [bind]. rewrite skipn_all, app_nil_r.
  rewrite (firstn_all2 (n := length l - Nat.min k (length l)) (skipn _ _)) by (rewrite skipn_length; lia).
  set (d1 := skipn (Nat.min k (length l)) l ++ skipn (length l - k) l). set (d2 := firstn (Nat.min k (length l)) l ++ firstn (length l - k) l).
  assert (L1 : length d1 = length l) by (unfold d1; rewrite app_length, !skipn_length; lia). assert (L2 : length d2 = length l) by (unfold d2; rewrite app_length, !firstn_length; lia). rewrite L1, L2, !bound_neg by exact K. rewrite bound_pos.
  rewrite put_same by (rewrite ?firstn_length, ?skipn_length; lia). cbn [bind]. rewrite put_same by (rewrite ?firstn_length, ?skipn_length; lia). cbn [bind firstn app]. f_equal. f_equal.
  - rewrite (skipn_all2 (n := length l) d1) by lia. rewrite app_nil_r. unfold d1. rewrite firstn_app, skipn_length, firstn_all2 by (rewrite skipn_length; lia). match goal with |- context [firstn ?a (skipn (length l - k) l)] => replace a with 0%nat by lia end. cbn [firstn]. rewrite app_nil_r. reflexivity.
  - rewrite (firstn_all2 (skipn _ _)) by (rewrite skipn_length; lia). f_equal. unfold d2. rewrite skipn_app, firstn_length. rewrite (skipn_all2 (firstn _ _)) by (rewrite firstn_length; lia). cbn [app]. match goal with |- context [skipn ?a (firstn _ _)] => replace a with 0%nat by lia end. reflexivity.
Qed.
Lemma nth_app : forall {X} (a b : list X) i, nth_error (a ++ b) i = if (i <? length a)%nat then nth_error a i else nth_error b (i - length a).
Proof. intros. destruct (Nat.ltb_spec i (length a)); [apply nth_error_app1; assumption|apply nth_error_app2; assumption]. Qed.

Lemma nan_values : forall {A} (nan : A) k l, (1 <= k)%nat -> exists l1 l2, shifted nan false (Z.of_nat k) l = Some (l1, l2) /\ length l1 = length l /\ length l2 = length l /\
  forall i, (i < length l)%nat -> nth_error l1 i = (if (i + k <? length l)%nat then nth_error l (i + k) else Some nan) /\ nth_error l2 i = (if (k <=? i)%nat then nth_error l (i - k) else Some nan).
Proof.
  intros A nan k l K. rewrite (shifted_nan nan k l K). do 2 eexists. split; [reflexivity|]. rewrite !app_length, repeat_length, skipn_length, firstn_length. split; [lia|]. split; [lia|]. intros i Hi. rewrite !nth_app, repeat_length, skipn_length. split.
  - destruct (Nat.ltb_spec (i + k) (length l)).
    + destruct (Nat.ltb_spec i (length l - Nat.min k (length l))); [|lia]. rewrite nth_error_skipn_add. f_equal. lia.
    + destruct (Nat.ltb_spec i (length l - Nat.min k (length l))); [lia|]. apply nth_repeat. lia.
  - destruct (Nat.leb_spec k i).
    + destruct (Nat.ltb_spec i (Nat.min k (length l))); [lia|]. rewrite nth_firstn by lia. f_equal. lia.
    + destruct (Nat.ltb_spec i (Nat.min k (length l))); [|lia]. apply nth_repeat. lia.
Qed.
Lemma wrap_values : forall {A} (nan : A) k l, (1 <= k <= length l)%nat -> exists l1 l2, shifted nan true (Z.of_nat k) l = Some (l1, l2) /\ length l1 = length l /\ length l2 = length l /\
  forall i, (i < length l)%nat -> nth_error l1 i = nth_error l ((i + k) mod length l) /\ nth_error l2 i = nth_error l ((i + (length l - k)) mod length l).
Proof.
  intros A nan k l K. rewrite (shifted_wrap nan k l) by lia. do 2 eexists. split; [reflexivity|]. rewrite !app_length, !skipn_length, !firstn_length. split; [lia|]. split; [lia|]. intros i Hi. rewrite !nth_app, !skipn_length.
  assert (M : forall a, (a < length l)%nat -> (a mod length l)%nat = a) by (intros; apply Nat.mod_small; lia). assert (M2 : forall a, (length l <= a < length l + length l)%nat -> (a mod length l)%nat = (a - length l)%nat) by (intros a Ha; symmetry; apply (Nat.mod_unique a (length l) 1); lia). split.
  - destruct (Nat.ltb_spec i (length l - Nat.min k (length l))); [rewrite nth_error_skipn_add, M by lia; f_equal; lia|]. rewrite nth_firstn by lia. rewrite M2 by lia. f_equal. lia.
  - destruct (Nat.ltb_spec i (length l - (length l - k))); [rewrite nth_error_skipn_add, M by lia; f_equal; lia|]. rewrite nth_firstn by lia. rewrite M2 by lia. f_equal. lia.
Qed.

Lemma zip3_length : forall {A B C D} (f : A -> B -> C -> D) l m n, length m = length l -> length n = length l -> length (zip3 f l m n) = length l.
Proof. induction l as [|a l IH]; intros [|b m] [|c n] H1 H2; try discriminate; [reflexivity|]. cbn [zip3 length] in *. rewrite IH; lia. Qed.
Lemma zip3_nth : forall {A B C D} (f : A -> B -> C -> D) l m n i a b c, nth_error l i = Some a -> nth_error m i = Some b -> nth_error n i = Some c -> nth_error (zip3 f l m n) i = Some (f a b c).
Proof. induction l as [|x l IH]; intros [|y m] [|z n] [|i] a b c H1 H2 H3; cbn in *; try discriminate. - inversion H1; inversion H2; inversion H3; subst. reflexivity. - apply IH; assumption. Qed.
Lemma quotient_centred : forall d a b, centred d a b (quotient d a b).
Proof. intros d [a|] [b|]; cbn; reflexivity. Qed.
Lemma at_inv : forall {A} (d : list (list A)) n m i j, shape d n m -> (i < n)%nat -> (j < m)%nat -> exists c x, nth_error d i = Some c /\ nth_error c j = Some x /\ at_ d i j = Some x /\ length c = m.
Proof.
  intros A d n m i j [L W] Hi Hj. destruct (nth_error_lt_Some d i ltac:(lia)) as [c Hc]. pose proof (W c (nth_error_In _ _ Hc)) as LC. destruct (nth_error_lt_Some c j ltac:(lia)) as [x Hx]. exists c, x. unfold at_. rewrite Hc. auto.
Qed.

(** ** Property C130 *)
(** In latitude: difference of the values [k] rows after and [k] rows before over the distance
    between these rows; nan for the [k] first and the [k] last rows. *)
Theorem C130_latitude : forall x_c y_c data k wrap, (1 <= k)%nat -> shape data (length x_c) (length y_c) ->
  exists r, compute_finite_difference x_c y_c data (Z.of_nat k) wrap true = Some r /\ shape r (length x_c) (length y_c) /\
  forall i j, (i < length x_c)%nat -> (j < length y_c)%nat ->
    ((k <= j)%nat /\ (j + k < length y_c)%nat -> exists a b v, at_ data i (j + k) = Some a /\ at_ data i (j - k) = Some b /\ at_ r i j = Some v /\ centred (2 * INR k * mean_step y_c * metres) a b v) /\
    ((j < k)%nat \/ (length y_c <= j + k)%nat -> at_ r i j = Some None).
Proof.
  intros x_c y_c data k wrap K Sh. unfold compute_finite_difference. set (d := degree * (mean_step y_c * 2 * IZR (Z.of_nat k))).
  set (row := fun c : list (option R) => zip3 quotient (map (fun _ => d) c) (skipn (Nat.min k (length c)) c ++ repeat None (Nat.min k (length c))) (repeat None (Nat.min k (length c)) ++ firstn (length c - k) c)).
  rewrite (seq_some _ row). 2:{ intros c _. rewrite (shifted_nan None k c K). reflexivity. }
  eexists. split; [reflexivity|]. destruct Sh as [L W].
  assert (RL : forall c, length (row c) = length c) by (intros c; unfold row; rewrite zip3_length; rewrite ?map_length, ?app_length, ?repeat_length, ?skipn_length, ?firstn_length; lia).
  split. { split; [rewrite map_length; exact L|]. intros c I. apply in_map_iff in I as (c' & <- & I). rewrite RL. apply W, I. }
  assert (DE : d = 2 * INR k * mean_step y_c * metres) by (unfold d, degree, metres; rewrite <- INR_IZR_INZ; field). rewrite <- DE.
  intros i j Hi Hj. destruct (at_inv data _ _ i j (conj L W) Hi Hj) as (c & x & Hc & Hx & _ & LC). destruct (nan_values (@None R) k c K) as (l1 & l2 & E & N1 & N2 & V). rewrite (shifted_nan None k c K) in E. apply Some_inj in E. inversion E as [[E1 E2]].
  assert (RV : forall a b, nth_error l1 j = Some a -> nth_error l2 j = Some b -> at_ (map row data) i j = Some (quotient d a b)). { intros a b Ha Hb. unfold at_. rewrite nth_error_map, Hc. cbn [option_map]. unfold row. rewrite E1, E2. apply zip3_nth; [rewrite nth_error_map, Hx; reflexivity|exact Ha|exact Hb]. }
  destruct (V j ltac:(lia)) as [V1 V2]. rewrite LC in V1. unfold at_ at 1 2. rewrite Hc. split.
  - intros [B1 B2]. destruct (Nat.ltb_spec (j + k) (length y_c)); [|lia]. destruct (Nat.leb_spec k j); [|lia]. destruct (nth_error_lt_Some c (j + k) ltac:(lia)) as [a Ha]. destruct (nth_error_lt_Some c (j - k) ltac:(lia)) as [b Hb]. exists a, b, (quotient d a b). split; [exact Ha|]. split; [exact Hb|]. split; [apply RV; congruence|apply quotient_centred].
  - intros B. assert (X : exists a b, nth_error l1 j = Some a /\ nth_error l2 j = Some b /\ (a = None \/ b = None)). { destruct (Nat.ltb_spec (j + k) (length y_c)); destruct (Nat.leb_spec k j); try lia. - destruct (nth_error_lt_Some c (j + k) ltac:(lia)) as [a Ha]. exists a, None. split; [congruence|]. split; [exact V2|right; reflexivity]. - destruct (nth_error_lt_Some c (j - k) ltac:(lia)) as [b Hb]. exists None, b. split; [exact V1|]. split; [congruence|left; reflexivity]. - exists None, None. auto. }
    destruct X as (a & b & Ha & Hb & X). rewrite (RV a b Ha Hb). destruct X; subst; [reflexivity|]. destruct a; reflexivity.
Qed.
Print Assumptions C130_latitude.

(** In longitude, common part. *)
Lemma horizontal : forall x_c y_c data k wrap l1 l2, (1 <= k)%nat -> shape data (length x_c) (length y_c) ->
  shifted (repeat None (length y_c)) wrap (Z.of_nat k) data = Some (l1, l2) -> length l1 = length data -> length l2 = length data ->
  (forall c, In c l1 -> length c = length y_c) -> (forall c, In c l2 -> length c = length y_c) ->
  exists r, compute_finite_difference x_c y_c data (Z.of_nat k) wrap false = Some r /\ shape r (length x_c) (length y_c) /\
  forall i j y, (i < length x_c)%nat -> nth_error y_c j = Some y -> exists a b v, at_ l1 i j = Some a /\ at_ l2 i j = Some b /\ at_ r i j = Some v /\ centred (2 * INR k * mean_step x_c * metres * cos (y * D2R)) a b v.
Proof.
  intros x_c y_c data k wrap l1 l2 K [L W] E L1 L2 W1 W2. unfold compute_finite_difference. rewrite E. cbn [bind fst snd]. set (ds := map _ y_c). eexists. split; [reflexivity|].
  assert (LD : length ds = length y_c) by (unfold ds; apply map_length).
  split. { split; [rewrite zip3_length; lia|]. intros c I. apply In_nth_error in I as [i Hi]. assert (B : (i < length data)%nat) by (apply nth_error_Some_lt in Hi; rewrite zip3_length in Hi; lia). destruct (nth_error_lt_Some data i B) as [u Hu]. destruct (nth_error_lt_Some l1 i ltac:(lia)) as [v Hv]. destruct (nth_error_lt_Some l2 i ltac:(lia)) as [w Hw]. rewrite (zip3_nth _ _ _ _ _ _ _ _ Hu Hv Hw) in Hi. apply Some_inj in Hi. subst c. pose proof (W1 v (nth_error_In _ _ Hv)). pose proof (W2 w (nth_error_In _ _ Hw)). rewrite zip3_length; lia. }
  intros i j y Hi Hy. assert (Hj : (j < length y_c)%nat) by (apply nth_error_Some_lt in Hy; exact Hy). destruct (at_inv l1 (length x_c) _ i j (conj (eq_trans L1 L) W1) Hi Hj) as (c1 & a & C1 & A1 & A & _). destruct (at_inv l2 (length x_c) _ i j (conj (eq_trans L2 L) W2) Hi Hj) as (c2 & b & C2 & B1 & B & _). destruct (nth_error_lt_Some data i ltac:(lia)) as [u Hu].
  exists a, b. eexists. split; [exact A|]. split; [exact B|]. split. { unfold at_. rewrite (zip3_nth _ _ _ _ _ _ _ _ Hu C1 C2). apply zip3_nth; [|exact A1|exact B1]. unfold ds. rewrite nth_error_map, Hy. reflexivity. }
  match goal with |- centred ?u _ _ (quotient ?v _ _) => replace u with v; [apply quotient_centred|] end. unfold degree, metres. rewrite <- INR_IZR_INZ. field.
Qed.
Lemma length_all : forall {A} (data l1 : list (list A)) m, (forall c, In c data -> length c = m) -> (forall i c, nth_error l1 i = Some c -> (exists i', nth_error data i' = Some c) \/ length c = m) -> forall c, In c l1 -> length c = m.
Proof. intros A data l1 m W H c I. apply In_nth_error in I as [i Hi]. destruct (H i c Hi) as [[i' X]|X]; [apply W, (nth_error_In _ _ X)|exact X]. Qed.

(** In longitude, without wrap: the same along the columns, the distance is the one at the
    latitude. *)
Theorem C130_longitude : forall x_c y_c data k, (1 <= k)%nat -> shape data (length x_c) (length y_c) ->
  exists r, compute_finite_difference x_c y_c data (Z.of_nat k) false false = Some r /\ shape r (length x_c) (length y_c) /\
  forall i j y, (i < length x_c)%nat -> nth_error y_c j = Some y ->
    ((k <= i)%nat /\ (i + k < length x_c)%nat -> exists a b v, at_ data (i + k) j = Some a /\ at_ data (i - k) j = Some b /\ at_ r i j = Some v /\ centred (2 * INR k * mean_step x_c * metres * cos (y * D2R)) a b v) /\
    ((i < k)%nat \/ (length x_c <= i + k)%nat -> at_ r i j = Some None).
Proof.
  intros x_c y_c data k K Sh. pose proof Sh as [L W]. destruct (nan_values (repeat (@None R) (length y_c)) k data K) as (l1 & l2 & E & L1 & L2 & V).
  destruct (horizontal x_c y_c data k false l1 l2 K Sh E L1 L2) as (r & Er & Sr & Vr).
  { apply (length_all data l1 _ W). intros i c Hc. pose proof (nth_error_Some_lt _ _ _ Hc) as B. destruct (V i ltac:(lia)) as [V1 _]. rewrite Hc in V1. destruct (i + k <? length data)%nat; [left; exists (i + k)%nat; symmetry; exact V1|right; apply Some_inj in V1; subst c; apply repeat_length]. }
  { apply (length_all data l2 _ W). intros i c Hc. pose proof (nth_error_Some_lt _ _ _ Hc) as B. destruct (V i ltac:(lia)) as [_ V1]. rewrite Hc in V1. destruct (k <=? i)%nat; [left; exists (i - k)%nat; symmetry; exact V1|right; apply Some_inj in V1; subst c; apply repeat_length]. }
  exists r. split; [exact Er|]. split; [exact Sr|]. intros i j y Hi Hy. destruct (Vr i j y Hi Hy) as (a & b & v & A & B & C & D). destruct (V i ltac:(lia)) as [V1 V2]. unfold at_ in A, B. rewrite V1 in A. rewrite V2 in B. rewrite L in A. pose proof (nth_error_Some_lt _ _ _ Hy) as Hj. split.
  - intros [B1 B2]. destruct (Nat.ltb_spec (i + k) (length x_c)); [|lia]. destruct (Nat.leb_spec k i); [|lia]. exists a, b, v. auto.
  - intros BB. assert (X : a = None \/ b = None). { destruct (Nat.ltb_spec (i + k) (length x_c)); [destruct (Nat.leb_spec k i); [lia|]; right; rewrite nth_repeat in B by lia; congruence|left; rewrite nth_repeat in A by lia; congruence]. }
    rewrite C. destruct X; subst; [cbn in D; congruence|destruct a; cbn in D; congruence].
Qed.
Print Assumptions C130_longitude.

(** With wrap, a width up to the number of columns: the columns go on after the last one. *)
Theorem C130_wrap : forall x_c y_c data k, (1 <= k <= length x_c)%nat -> shape data (length x_c) (length y_c) ->
  exists r, compute_finite_difference x_c y_c data (Z.of_nat k) true false = Some r /\ shape r (length x_c) (length y_c) /\
  forall i j y i1 i2, (i < length x_c)%nat -> nth_error y_c j = Some y ->
    (i1 < length x_c)%nat -> (i2 < length x_c)%nat ->
    (exists t, Z.of_nat i1 = Z.of_nat i + Z.of_nat k + t * Z.of_nat (length x_c))%Z -> (exists t, Z.of_nat i2 = Z.of_nat i - Z.of_nat k + t * Z.of_nat (length x_c))%Z ->
    exists a b v, at_ data i1 j = Some a /\ at_ data i2 j = Some b /\ at_ r i j = Some v /\ centred (2 * INR k * mean_step x_c * metres * cos (y * D2R)) a b v.
Proof.
  intros x_c y_c data k K Sh. pose proof Sh as [L W]. rewrite <- L in K. destruct (wrap_values (repeat (@None R) (length y_c)) k data K) as (l1 & l2 & E & L1 & L2 & V).
  destruct (horizontal x_c y_c data k true l1 l2 ltac:(lia) Sh E L1 L2) as (r & Er & Sr & Vr).
  { apply (length_all data l1 _ W). intros i c Hc. pose proof (nth_error_Some_lt _ _ _ Hc) as B. destruct (V i ltac:(lia)) as [V1 _]. rewrite Hc in V1. left. eexists. symmetry. exact V1. }
  { apply (length_all data l2 _ W). intros i c Hc. pose proof (nth_error_Some_lt _ _ _ Hc) as B. destruct (V i ltac:(lia)) as [_ V1]. rewrite Hc in V1. left. eexists. symmetry. exact V1. }
  exists r. split; [exact Er|]. split; [exact Sr|]. intros i j y i1 i2 Hi Hy H1 H2 [t1 T1] [t2 T2]. destruct (Vr i j y Hi Hy) as (a & b & v & A & B & C & D). destruct (V i ltac:(lia)) as [V1 V2]. unfold at_ in A, B. rewrite V1 in A. rewrite V2 in B.
  assert (M1 : ((i + k) mod length data)%nat = i1). { symmetry. apply (Nat.mod_unique _ _ (Z.to_nat (- t1))); [lia|]. assert (Q1 : (- t1 = 0 \/ - t1 = 1)%Z) by nia. destruct Q1 as [Q1|Q1]; rewrite Q1; cbn [Z.to_nat]; [nia|change (Pos.to_nat 1) with 1%nat; nia]. }
  assert (M2 : ((i + (length data - k)) mod length data)%nat = i2). { symmetry. apply (Nat.mod_unique _ _ (Z.to_nat (1 - t2))); [lia|]. assert (Q1 : (1 - t2 = 0 \/ 1 - t2 = 1)%Z) by nia. destruct Q1 as [Q1|Q1]; rewrite Q1; cbn [Z.to_nat]; [nia|change (Pos.to_nat 1) with 1%nat; nia]. }
  rewrite M1 in A. rewrite M2 in B. exists a, b, v. auto.
Qed.
Print Assumptions C130_wrap.

(** Exact slopes: for an affine field on a regular grid, the values are the slopes for one
    metre to the north and for one metre to the east. *)
Definition regular (x0 dx : R) (n : nat) : list R := map (fun i => x0 + INR i * dx) (seq 0 n).
Definition sampled (f : R -> R -> R) (xs ys : list R) : list (list (option R)) := map (fun x => map (fun y => Some (f x y)) ys) xs.
Lemma regular_nth : forall x0 dx n i, (i < n)%nat -> nth_error (regular x0 dx n) i = Some (x0 + INR i * dx).
Proof. intros. unfold regular. rewrite nth_error_map, (nth_error_seq n 0 i). destruct (Nat.ltb_spec i n); [reflexivity|lia]. Qed.
Lemma diffs_regular : forall dx n s x0, diffs (map (fun i => x0 + INR i * dx) (seq s (S n))) = repeat dx n.
Proof.
  intros dx. induction n as [|n IH]; intros s x0; [reflexivity|]. change (seq s (S (S n))) with (s :: seq (S s) (S n)). rewrite map_cons. specialize (IH (S s) x0). change (seq (S s) (S n)) with (S s :: seq (S (S s)) n) in *. rewrite map_cons in *. cbn [diffs]. cbn [repeat]. f_equal; [|exact IH]. rewrite S_INR. ring.
Qed.
Lemma mean_regular : forall x0 dx n, (2 <= n)%nat -> mean_step (regular x0 dx n) = dx.
Proof.
  intros x0 dx [|[|n]] H; try lia. unfold mean_step, regular. rewrite diffs_regular, repeat_length. assert (SUM : forall k, fold_right Rplus 0 (repeat dx k) = INR k * dx). { induction k; [cbn; ring|]. cbn [repeat fold_right]. rewrite IHk, S_INR. ring. } rewrite SUM. field. apply not_0_INR. lia.
Qed.
Lemma regular_length : forall x0 dx n, length (regular x0 dx n) = n.
Proof. intros. unfold regular. rewrite map_length, seq_length. reflexivity. Qed.
Lemma sampled_shape : forall f xs ys, shape (sampled f xs ys) (length xs) (length ys).
Proof. intros. split; [apply map_length|]. intros c I. apply in_map_iff in I as (x & <- & _). apply map_length. Qed.
Lemma sampled_at : forall f xs ys i j x y, nth_error xs i = Some x -> nth_error ys j = Some y -> at_ (sampled f xs ys) i j = Some (Some (f x y)).
Proof. intros f xs ys i j x y H1 H2. unfold at_, sampled. rewrite nth_error_map, H1. cbn [option_map]. rewrite nth_error_map, H2. reflexivity. Qed.
Lemma metres_pos : 0 < metres.
Proof. unfold metres, RE. pose proof PI_RGT_0. lra. Qed.

Theorem C130_slope : forall a b c x0 dx n y0 dy m k wrap, (1 <= k)%nat -> (2 <= n)%nat -> (2 <= m)%nat -> dx <> 0 -> dy <> 0 ->
  let xs := regular x0 dx n in let ys := regular y0 dy m in let h := sampled (fun x y => a + b * x + c * y) xs ys in
  exists north east, compute_finite_difference xs ys h (Z.of_nat k) wrap true = Some north /\ compute_finite_difference xs ys h (Z.of_nat k) false false = Some east /\
  forall i j, (i < n)%nat -> (j < m)%nat ->
    ((k <= j)%nat -> (j + k < m)%nat -> at_ north i j = Some (Some (c / metres))) /\
    ((k <= i)%nat -> (i + k < n)%nat -> cos ((y0 + INR j * dy) * D2R) <> 0 -> at_ east i j = Some (Some (b / (metres * cos ((y0 + INR j * dy) * D2R))))).
Proof.
  intros a b c x0 dx n y0 dy m k wrap K N M DX DY xs ys h. pose proof metres_pos as MP. assert (KR : INR k <> 0) by (apply not_0_INR; lia).
  destruct (C130_latitude xs ys h k wrap K (sampled_shape _ _ _)) as (no & E1 & _ & V1). destruct (C130_longitude xs ys h k K (sampled_shape _ _ _)) as (ea & E2 & _ & V2).
  exists no, ea. split; [exact E1|]. split; [exact E2|]. assert (LX : length xs = n) by apply regular_length. assert (LY : length ys = m) by apply regular_length. rewrite LX, LY in V1. rewrite LX in V2.
  assert (X : forall i, (i < n)%nat -> nth_error xs i = Some (x0 + INR i * dx)) by (intros; apply regular_nth; assumption). assert (Y : forall j, (j < m)%nat -> nth_error ys j = Some (y0 + INR j * dy)) by (intros; apply regular_nth; assumption).
  intros i j Hi Hj. split.
  - intros B1 B2. destruct (V1 i j Hi Hj) as [V _]. destruct (V (conj B1 B2)) as (u & v & w & U & W & T & C). unfold h in U, W. rewrite (sampled_at _ _ _ _ _ _ _ (X i Hi) (Y (j + k)%nat ltac:(lia))) in U. rewrite (sampled_at _ _ _ _ _ _ _ (X i Hi) (Y (j - k)%nat ltac:(lia))) in W. apply Some_inj in U, W. subst u v. cbn in C. rewrite T, C. f_equal. f_equal. unfold ys. rewrite mean_regular by lia. rewrite plus_INR, minus_INR by lia. field. repeat split; lra.
  - intros B1 B2 CO. destruct (V2 i j _ Hi (Y j Hj)) as [V _]. destruct (V (conj B1 B2)) as (u & v & w & U & W & T & C). unfold h in U, W. rewrite (sampled_at _ _ _ _ _ _ _ (X (i + k)%nat ltac:(lia)) (Y j Hj)) in U. rewrite (sampled_at _ _ _ _ _ _ _ (X (i - k)%nat ltac:(lia)) (Y j Hj)) in W. apply Some_inj in U, W. subst u v. cbn in C. rewrite T, C. f_equal. f_equal. unfold xs. rewrite mean_regular by lia. rewrite plus_INR, minus_INR by lia. field. repeat split; lra.
Qed.
Print Assumptions C130_slope.

(** Widths which are not refused: 0 is an error of shapes, a negative one gives differences
    over another distance with the wrong sign, and with wrap a width over the number of
    columns gives 0 everywhere. *)
Lemma shifted_0 : forall {A} (nan : A) wrap l, (2 <= length l)%nat -> shifted nan wrap 0 l = None.
Proof. intros A nan wrap [|x [|y l]] L; try (cbn in L; lia). unfold shifted, put_upto, from. change (- 0)%Z with 0%Z. assert (B0 : forall n, bound n 0 = 0%nat) by (intros; apply (bound_pos _ 0)). rewrite B0. unfold slice. cbn [skipn]. rewrite Nat.sub_0_r, firstn_all. reflexivity. Qed.
Lemma shifted_neg : forall {A} (nan : A) k l, (1 <= k <= length l)%nat -> shifted nan false (- Z.of_nat k) l = Some (skipn (length l - k) l ++ repeat nan (length l - k), repeat nan (length l - k) ++ firstn k l).
Proof.
  intros A nan k l K. unfold shifted, put_upto, put_from, from, upto. rewrite Z.opp_involutive, !bound_pos, !bound_neg by lia. rewrite !Nat.min_l by lia. unfold slice. cbn [skipn]. rewrite !Nat.sub_0_r.
  rewrite put_same by (rewrite ?firstn_length, ?skipn_length; lia). cbn [bind firstn app]. rewrite put_same by (rewrite ?firstn_length, ?skipn_length; lia). cbn [bind]. rewrite skipn_all, app_nil_r. rewrite (firstn_all2 (skipn _ _)) by (rewrite skipn_length; lia).
  f_equal. unfold nan_from, nan_upto. rewrite !app_length, !firstn_length, !skipn_length. rewrite bound_neg by lia. rewrite bound_pos. f_equal.
  - rewrite firstn_app, skipn_length, firstn_all2 by (rewrite skipn_length; lia). match goal with |- context [firstn ?a (skipn k l)] => replace a with 0%nat by lia end. cbn [firstn]. rewrite app_nil_r. f_equal. f_equal. lia.
  - f_equal; [f_equal; lia|]. rewrite skipn_app, firstn_length. rewrite (skipn_all2 (firstn _ _)) by (rewrite firstn_length; lia). cbn [app]. match goal with |- context [skipn ?a (firstn k l)] => replace a with 0%nat by lia end. reflexivity.
Qed.

Theorem C130_width_refuted :
  (forall x_c y_c data wrap, shape data (length x_c) (length y_c) -> (2 <= length x_c)%nat -> (2 <= length y_c)%nat ->
     compute_finite_difference x_c y_c data 0 wrap false = None /\ compute_finite_difference x_c y_c data 0 wrap true = None) /\
  (forall a b c x0 dx n y0 dy m k wrap, (1 <= k < m)%nat -> (2 <= n)%nat -> dx <> 0 -> dy <> 0 ->
     let xs := regular x0 dx n in let ys := regular y0 dy m in
     exists r, compute_finite_difference xs ys (sampled (fun x y => a + b * x + c * y) xs ys) (- Z.of_nat k) wrap true = Some r /\
     forall i j, (i < n)%nat -> (m - k <= j < k)%nat -> at_ r i j = Some (Some (- (c / metres) * (INR (m - k) / INR k)))) /\
  (forall x_c y_c f k, (length x_c < k)%nat -> exists r, compute_finite_difference x_c y_c (sampled f x_c y_c) (Z.of_nat k) true false = Some r /\
     forall i j, (i < length x_c)%nat -> (j < length y_c)%nat -> at_ r i j = Some (Some 0)).
Proof.
  split; [|split].
  - intros x_c y_c data wrap [L W] N M. unfold compute_finite_difference. rewrite shifted_0 by lia. split; [reflexivity|]. destruct data as [|c data]; [cbn in L; lia|]. cbn [map sequence]. rewrite shifted_0 by (rewrite (W c (or_introl eq_refl)); lia). reflexivity.
  - intros a b c x0 dx n y0 dy m k wrap K N DX DY xs ys. pose proof metres_pos as MP. assert (KR : INR k <> 0) by (apply not_0_INR; lia). set (h := sampled _ xs ys). unfold compute_finite_difference. set (d := degree * _).
    destruct (sampled_shape (fun x y => a + b * x + c * y) xs ys) as [L W]. fold h in L, W. assert (LY : length ys = m) by apply regular_length. rewrite LY in W.
    rewrite (seq_some _ (fun col : list (option R) => zip3 quotient (map (fun _ => d) col) (skipn (length col - k) col ++ repeat None (length col - k)) (repeat None (length col - k) ++ firstn k col))). 2:{ intros col I. rewrite (shifted_neg None k col) by (rewrite (W col I); lia). reflexivity. }
    eexists. split; [reflexivity|]. intros i j Hi Hj. unfold at_. rewrite nth_error_map.
    set (col := map (fun y => Some (a + b * (x0 + INR i * dx) + c * y)) ys). assert (HC : nth_error h i = Some col). { unfold h, sampled. rewrite nth_error_map. unfold xs. rewrite regular_nth by lia. reflexivity. }
    rewrite HC. cbn [option_map]. assert (LC : length col = m) by (unfold col, ys; rewrite map_length; apply regular_length). rewrite LC.
    assert (CV : forall q, (q < m)%nat -> nth_error col q = Some (Some (a + b * (x0 + INR i * dx) + c * (y0 + INR q * dy)))). { intros q Hq. unfold col. rewrite nth_error_map. unfold ys. rewrite regular_nth by lia. reflexivity. }
    erewrite zip3_nth; [|rewrite nth_error_map, (CV j ltac:(lia)); reflexivity|rewrite nth_app, skipn_length, LC; destruct (Nat.ltb_spec j (m - (m - k))); [|lia]; rewrite nth_error_skipn_add; apply CV; lia|rewrite nth_app, repeat_length; destruct (Nat.ltb_spec j (m - k)); [lia|]; rewrite nth_firstn by lia; apply CV; lia].
    cbn [quotient]. f_equal. f_equal. unfold d, ys. rewrite mean_regular by lia. rewrite opp_IZR, <- INR_IZR_INZ. rewrite plus_INR, (minus_INR j) by lia. replace degree with metres by (unfold metres, degree; field). field. repeat split; lra.
  - intros x_c y_c f k K. destruct (sampled_shape f x_c y_c) as [L W]. set (h := sampled f x_c y_c) in *. assert (E : shifted (repeat None (length y_c)) true (Z.of_nat k) h = Some (h, h)). { rewrite shifted_wrap by lia. rewrite Nat.min_r by lia. replace (length h - k)%nat with 0%nat by lia. cbn [firstn skipn]. rewrite skipn_all, firstn_all, app_nil_r. reflexivity. }
    destruct (Nat.eq_dec k 0); [lia|]. destruct (horizontal x_c y_c h k true h h ltac:(lia) (conj L W) E eq_refl eq_refl W W) as (r & Er & Sr & V). exists r. split; [exact Er|]. intros i j Hi Hj. destruct (nth_error_lt_Some y_c j Hj) as [y Hy]. destruct (nth_error_lt_Some x_c i Hi) as [x Hx]. destruct (V i j y Hi Hy) as (u & v & w & U & VV & T & C). unfold h in U, VV. rewrite (sampled_at _ _ _ _ _ _ _ Hx Hy) in U, VV. apply Some_inj in U, VV. subst u v. cbn in C. rewrite T, C. f_equal. f_equal. unfold Rdiv. ring.
Qed.
Print Assumptions C130_width_refuted.

(** A case of the theorems on differences: a field with a nan. *)
Example C130_case : let data := [[Some 1; Some 2]; [None; Some 5]; [Some 3; Some 7]] in
  shape data (length [0; 1; 2]) (length [10; 11]) /\
  compute_finite_difference [0; 1; 2] [10; 11] data 1 true false <> None.
Proof. cbn zeta. split; [split; [reflexivity|]; intros c [<-|[<-|[<-|[]]]]; reflexivity|]. cbn. discriminate. Qed.
