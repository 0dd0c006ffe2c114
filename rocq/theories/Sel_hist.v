(** Proofs on histograms of observations. *)
From Coq Require Import List Arith ZArith QArith Qround Bool Lia Lqa.
From Verif Require Import Base Qaux Spec Obs_spec Sel_model Sel_spec.
Import ListNotations.
Local Close Scope Q_scope.
Local Open Scope nat_scope.

Lemma Qsum_fold : forall l, Qsum l = fold_right Qplus 0%Q l.
Proof. reflexivity. Qed.
Lemma Qsum_ones : forall {A} (l : list A), (Qsum (map (fun _ => 1%Q) l) == qnat (length l))%Q.
Proof. induction l as [|a l IH]; cbn [map Qsum length]; [reflexivity|]. rewrite IH. unfold qnat. rewrite Nat2Z.inj_succ, <- Z.add_1_r, inject_Z_plus. change (inject_Z 1) with 1%Q. ring. Qed.
Lemma qnat_S : forall n, (qnat (S n) == qnat n + 1)%Q.
Proof. intros n. unfold qnat. rewrite Nat2Z.inj_succ, <- Z.add_1_r, inject_Z_plus. reflexivity. Qed.
Lemma qnat_pos : forall n, (0 <= qnat n)%Q.
Proof. intros n. unfold qnat. change 0%Q with (inject_Z 0). rewrite <- Zle_Qle. lia. Qed.

Lemma length_histogram : forall bins xw, length (histogram bins xw) = length bins - 1.
Proof. induction bins as [|a [|b r] IH]; intros xw; auto. cbn [histogram length] in *. rewrite IH. lia. Qed.

Lemma nth_histogram : forall bins xw i a b, nth_error bins i = Some a -> nth_error bins (S i) = Some b ->
  nth_error (histogram bins xw) i = Some (Qsum (map snd (filter (fun p => in_bin (S (S i) =? length bins) a b (fst p)) xw))).
Proof.
  induction bins as [|c [|d r] IH]; intros xw i a b A B.
  - destruct i; discriminate A.
  - destruct i; [discriminate B|]. destruct i; discriminate A.
  - destruct i as [|i].
    + cbn in A, B. injection A as <-. injection B as <-. cbn [histogram nth_error]. destruct r; reflexivity.
    + cbn [histogram nth_error] in A, B |- *. exact (IH xw i a b A B).
Qed.

Lemma in_bin_spec : forall bins i a b v, nth_error bins i = Some a -> nth_error bins (S i) = Some b -> (in_bin (S (S i) =? length bins) a b v = true <-> bin_holds bins i v) \/ ~ (a < b)%Q.
Proof.
  intros bins i a b v A B. destruct (Qlt_le_dec a b) as [AB|AB]; [left|right; lra]. unfold in_bin, bin_holds. rewrite andb_true_iff, Qle_bool_iff. split.
  - intros [X Y]. exists a, b. split; [exact A|]. split; [exact B|]. split; [exact X|]. destruct (Nat.eqb_spec (S (S i)) (length bins)) as [E|E].
    + apply Qle_bool_iff in Y. destruct (Qlt_le_dec v b) as [L|L]; [left; exact L|right; split; [exact E|lra]].
    + left. apply Qlt_bool_iff, Y.
  - intros (a' & b' & A' & B' & X & Y). assert (a' = a) by congruence. assert (b' = b) by congruence. subst. split; [exact X|]. destruct (Nat.eqb_spec (S (S i)) (length bins)) as [E|E].
    + apply Qle_bool_iff. destruct Y as [Y|[_ Y]]; lra.
    + apply Qlt_bool_iff. destruct Y as [Y|[Y _]]; [exact Y|contradiction].
Qed.

Lemma bins_values : forall bins xw i, increasing bins -> S i < length bins ->
  exists ws, bin_values bins i xw ws /\ nth_error (histogram bins xw) i = Some (Qsum ws) /\
    exists p, (forall v, p v = true <-> bin_holds bins i v) /\ ws = map snd (filter (fun e => p (fst e)) xw).
Proof.
  intros bins xw i IN L. destruct (nth_error_lt_Some bins i ltac:(lia)) as [a A]. destruct (nth_error_lt_Some bins (S i) L) as [b B].
  assert (AB : (a < b)%Q) by (apply (IN i (S i)); auto).
  assert (D : forall v, in_bin (S (S i) =? length bins) a b v = true <-> bin_holds bins i v) by (intros v; destruct (in_bin_spec bins i a b v A B) as [H|H]; [exact H|contradiction]).
  exists (map snd (filter (fun e => in_bin (S (S i) =? length bins) a b (fst e)) xw)). split; [eexists; split; [exact D|reflexivity]|]. split; [exact (nth_histogram bins xw i a b A B)|].
  eexists. split; [exact D|reflexivity].
Qed.

(** Values in a bin do not depend on the test which is used. *)
Lemma bin_values_unique : forall bins i xw ws ws', bin_values bins i xw ws -> bin_values bins i xw ws' -> ws = ws'.
Proof.
  intros bins i xw ws ws' (p & P & ->) (p' & P' & ->). f_equal. apply filter_ext. intros e. apply eq_true_iff_eq. rewrite P, P'. reflexivity.
Qed.

Lemma filter_weights : forall (p : Q -> bool) (x w : list Q), length w = length x ->
  length (filter (fun e => p (fst e)) (map (fun v => (v, 1%Q)) x)) = length (filter (fun e => p (fst e)) (combine x w)).
Proof. induction x as [|v x IH]; intros [|a w] L; cbn in L; try discriminate; auto. cbn [map combine filter fst]. destruct (p v); cbn [length]; rewrite (IH w) by lia; reflexivity. Qed.

Lemma ones_filter : forall (p : Q -> bool) x, (Qsum (map snd (filter (fun e => p (fst e)) (map (fun v => (v, 1%Q)) x))) == qnat (length (filter p x)))%Q.
Proof.
  induction x as [|v x IH]; [reflexivity|]. cbn [map filter fst]. destruct (p v); cbn [map snd Qsum length]; [|exact IH]. rewrite IH, qnat_S. ring.
Qed.

Lemma count_bin : forall bins x i, increasing bins -> S i < length bins ->
  exists p c, (forall v, p v = true <-> bin_holds bins i v) /\ nth_error (hist_numba x bins) i = Some c /\ (c == qnat (length (filter p x)))%Q.
Proof.
  intros bins x i IN L. unfold hist_numba. destruct (bins_values bins (map (fun v => (v, 1%Q)) x) i IN L) as (ws & _ & N & p & P & ->). exists p. eexists. split; [exact P|]. split; [exact N|]. apply ones_filter.
Qed.

(** ** Sums over the bins *)
Lemma increasing_tl : forall a l, increasing (a :: l) -> increasing l.
Proof. intros a l H i j x y L X Y. apply (H (S i) (S j)); auto. lia. Qed.
Lemma increasing_le : forall l i j a b, increasing l -> i <= j -> nth_error l i = Some a -> nth_error l j = Some b -> (a <= b)%Q.
Proof. intros l i j a b H L A B. destruct (Nat.eq_dec i j) as [->|D]; [assert (a = b) by congruence; subst; lra|]. assert (a < b)%Q by (apply (H i j); auto; lia). lra. Qed.

Lemma filter_split_sum : forall (p q r : Q -> bool) (xw : list (Q * Q)), (forall v, (if p v then 1 else 0) = (if q v then 1 else 0) + (if r v then 1 else 0)) ->
  (Qsum (map snd (filter (fun e => p (fst e)) xw)) == Qsum (map snd (filter (fun e => q (fst e)) xw)) + Qsum (map snd (filter (fun e => r (fst e)) xw)))%Q.
Proof.
  intros p q r xw H. induction xw as [|[v w] xw IH]; [reflexivity|]. cbn [filter fst]. specialize (H v). destruct (p v), (q v), (r v); cbn [map snd Qsum]; try discriminate H; rewrite IH; ring.
Qed.

Definition within_b (a b v : Q) : bool := Qle_bool a v && Qle_bool v b.

Lemma histogram_sum : forall bins xw a z, increasing bins -> 2 <= length bins -> nth_error bins 0 = Some a -> nth_error bins (length bins - 1) = Some z ->
  (Qsum (histogram bins xw) == Qsum (map snd (filter (fun e => within_b a z (fst e)) xw)))%Q.
Proof.
  induction bins as [|c bins IH]; intros xw a z IN L A Z; [cbn in L; lia|]. cbn in A. injection A as <-. destruct bins as [|b [|d r]].
  - cbn in L. lia.
  - cbn in Z. injection Z as <-. cbn [histogram Qsum]. unfold in_bin, within_b. ring.
  - assert (CB : (c < b)%Q) by (apply (IN 0 1); auto). assert (IN' := increasing_tl _ _ IN). assert (Z' : nth_error (b :: d :: r) (length (b :: d :: r) - 1) = Some z) by (cbn [length] in Z |- *; replace (S (S (length r)) - 1) with (S (length r)) by lia; replace (S (S (S (length r))) - 1) with (S (S (length r))) in Z by lia; exact Z).
    assert (BZ : (b <= z)%Q) by (apply (increasing_le (b :: d :: r) 0 (length (b :: d :: r) - 1)); auto; lia).
    change (histogram (c :: b :: d :: r) xw) with (Qsum (map snd (filter (fun p => in_bin false c b (fst p)) xw)) :: histogram (b :: d :: r) xw). cbn [Qsum]. rewrite (IH xw b z IN' ltac:(cbn; lia) eq_refl Z').
    rewrite (filter_split_sum (within_b c z) (in_bin false c b) (within_b b z)); [reflexivity|]. intros v. unfold within_b, in_bin, Qlt_bool.
    destruct (Qle_bool c v) eqn:E1, (Qle_bool v z) eqn:E2, (Qle_bool b v) eqn:E3; cbn; try reflexivity; try apply Qle_bool_iff in E1; try apply Qle_bool_iff in E2; try apply Qle_bool_iff in E3; try apply Qle_bool_false in E1; try apply Qle_bool_false in E2; try apply Qle_bool_false in E3; lra.
Qed.

(** ** Default bins *)
Lemma qmin_spec : forall v a, qmin v = Some a -> In a v /\ forall x, In x v -> (a <= x)%Q.
Proof.
  intros [|h r] a E; [discriminate E|]. cbn in E. apply Some_inj in E. subst a. revert h. induction r as [|y r IH]; intros h; cbn [fold_left].
  - split; [left; reflexivity|]. intros x [<-|[]]. lra.
  - destruct (Qlt_bool y h) eqn:C.
    + apply Qlt_bool_iff in C. destruct (IH y) as [I M]. split; [right; exact I|]. intros x [<-|X]; [|exact (M x X)]. specialize (M y (or_introl eq_refl)). lra.
    + apply Qlt_bool_false in C. destruct (IH h) as [I M]. split; [destruct I as [I|I]; [left; exact I|right; right; exact I]|]. intros x [<-|[<-|X]]; [apply M; left; reflexivity|specialize (M h (or_introl eq_refl)); lra|apply M; right; exact X].
Qed.
Lemma qmax_spec : forall v a, qmax v = Some a -> In a v /\ forall x, In x v -> (x <= a)%Q.
Proof.
  intros [|h r] a E; [discriminate E|]. cbn in E. apply Some_inj in E. subst a. revert h. induction r as [|y r IH]; intros h; cbn [fold_left].
  - split; [left; reflexivity|]. intros x [<-|[]]. lra.
  - destruct (Qlt_bool h y) eqn:C.
    + apply Qlt_bool_iff in C. destruct (IH y) as [I M]. split; [right; exact I|]. intros x [<-|X]; [|exact (M x X)]. specialize (M y (or_introl eq_refl)). lra.
    + apply Qlt_bool_false in C. destruct (IH h) as [I M]. split; [destruct I as [I|I]; [left; exact I|right; right; exact I]|]. intros x [<-|[<-|X]]; [apply M; left; reflexivity|specialize (M h (or_introl eq_refl)); lra|apply M; right; exact X].
Qed.

Lemma length_arange : forall a b, length (arange a b) = Z.to_nat (Qceiling (b - a)).
Proof. intros. unfold arange. rewrite map_length, seq_length. reflexivity. Qed.
Lemma nth_arange : forall a b i, i < length (arange a b) -> nth_error (arange a b) i = Some (a + qnat i)%Q.
Proof. intros a b i L. rewrite length_arange in L. unfold arange. rewrite nth_error_map, nth_error_seq. destruct (Nat.ltb_spec i (Z.to_nat (Qceiling (b - a)))); [reflexivity|lia]. Qed.
Lemma increasing_arange : forall a b, increasing (arange a b).
Proof.
  intros a b i j x y L X Y. assert (LI := nth_error_Some_lt _ _ _ X). assert (LJ := nth_error_Some_lt _ _ _ Y). rewrite nth_arange in X, Y by assumption. injection X as <-. injection Y as <-.
  assert (qnat i < qnat j)%Q by (unfold qnat; rewrite <- Zlt_Qlt; lia). lra.
Qed.
(** The last edge is more than the greatest value. *)
Lemma arange_last : forall lo hi, (lo <= hi)%Q -> 2 <= length (arange lo (hi + 2)) /\ (hi + 1 <= lo + qnat (length (arange lo (hi + 2)) - 1))%Q.
Proof.
  intros lo hi H. rewrite length_arange. pose proof (Qle_ceiling (hi + 2 - lo)) as C. set (k := Qceiling (hi + 2 - lo)) in *. clearbody k.
  assert (K : (2 <= k)%Z). { assert (inject_Z 2 <= inject_Z k)%Q by (change (inject_Z 2) with 2%Q; lra). rewrite <- Zle_Qle in H0. exact H0. }
  split; [lia|]. unfold qnat. replace (Z.of_nat (Z.to_nat k - 1)) with (k + -1)%Z by lia. rewrite inject_Z_plus. change (inject_Z (-1)) with (-1)%Q. lra.
Qed.

Lemma length_middles : forall l, length (middles l) = length l - 1.
Proof. induction l as [|a [|b r] IH]; auto. cbn [middles length] in *. rewrite IH. lia. Qed.
Lemma nth_middles : forall l i a b, nth_error l i = Some a -> nth_error l (S i) = Some b -> nth_error (middles l) i = Some ((b + a) / 2)%Q.
Proof.
  induction l as [|c [|d r] IH]; intros i a b A B.
  - destruct i; discriminate A.
  - destruct i; [discriminate B|]. destruct i; discriminate A.
  - destruct i as [|i]; [cbn in A, B; injection A as <-; injection B as <-; reflexivity|]. cbn [middles nth_error] in *. exact (IH i a b A B).
Qed.

Lemma length_divides : forall a b, length b = length a -> length (divides a b) = length a.
Proof. induction a as [|x a IH]; intros [|y b] L; cbn in *; try discriminate; auto. Qed.
Lemma nth_divides : forall a b i x y, nth_error a i = Some x -> nth_error b i = Some y -> nth_error (divides a b) i = Some (divide x y).
Proof. induction a as [|c a IH]; intros [|d b] [|i] x y X Y; cbn in *; try discriminate; [injection X as <-; injection Y as <-; reflexivity|exact (IH b i x y X Y)]. Qed.

Lemma qnat_zero : forall n, (qnat n == 0)%Q <-> n = 0.
Proof. intros n. unfold qnat. change 0%Q with (inject_Z 0). rewrite inject_Z_injective. lia. Qed.

(** Means of the bins. *)
Lemma mean_bin : forall bins x w i, increasing bins -> length w = length x -> S i < length bins ->
  exists ws, bin_values bins i (combine x w) ws /\ exists q, nth_error (divides (histogram bins (combine x w)) (hist_numba x bins)) i = Some q /\
    match q with None => ws = [] | Some m => mean_of ws m end.
Proof.
  intros bins x w i IN LW L. destruct (bins_values bins (combine x w) i IN L) as (ws & BV & N & p & P & EQ). exists ws. split; [exact BV|].
  destruct (count_bin bins x i IN L) as (p' & c & P' & N' & C). rewrite (nth_divides _ _ _ _ _ N N'). eexists. split; [reflexivity|].
  assert (PP : forall v, p v = p' v) by (intros v; apply eq_true_iff_eq; rewrite P, P'; reflexivity).
  assert (LEN : length (filter p' x) = length ws).
  { rewrite EQ, map_length. clear - PP LW. revert w LW. induction x as [|v x IH]; intros [|a w] L; cbn in L; try discriminate; auto. cbn [combine filter fst]. rewrite PP. destruct (p' v); cbn [length]; rewrite (IH w) by lia; reflexivity. }
  rewrite LEN in C. unfold divide. destruct (Qeq_bool c 0) eqn:Z.
  - apply Qeq_bool_iff in Z. rewrite C in Z. apply qnat_zero in Z. destruct ws; [reflexivity|discriminate Z].
  - assert (NZ : ~ (c == 0)%Q) by (intros X; apply Qeq_bool_iff in X; congruence). split; [intros ->; apply NZ; rewrite C; reflexivity|]. change (fold_right Qplus 0%Q ws) with (Qsum ws). rewrite <- C. field. exact NZ.
Qed.
