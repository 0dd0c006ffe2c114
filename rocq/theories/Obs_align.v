(** Proofs on align_on, the default bins of iter_on and merge_filters. *)
From Coq Require Import List Arith ZArith Bool QArith Qround Lia Lqa Permutation.
From Verif Require Import Base Qaux Spec Generic_model Generic_proofs Sort Obs_spec Obs_model Obs_proofs.
Import ListNotations.
Local Close Scope Q_scope.
Local Open Scope nat_scope.

(** ** Default bins *)
Lemma qmin_from_spec : forall l a, In (qmin_from a l) (a :: l) /\ forall v, In v (a :: l) -> (qmin_from a l <= v)%Q.
Proof.
  induction l as [|b l IH]; intros a; cbn [qmin_from].
  - split; [left; auto|]. intros v [<-|[]]. lra.
  - destruct (Qlt_bool b a) eqn:E.
    + apply Qlt_bool_iff in E. destruct (IH b) as [I1 I2]. split.
      * right. auto.
      * intros v [<-|H]; [|apply I2; auto]. specialize (I2 b (or_introl eq_refl)). lra.
    + apply Qlt_bool_false in E. destruct (IH a) as [I1 I2]. split.
      * destruct I1 as [<-|H]; [left; auto|right; right; auto].
      * intros v [<-|[<-|H]].
        -- apply I2. left; auto.
        -- specialize (I2 a (or_introl eq_refl)). lra.
        -- apply I2. right; auto.
Qed.
Lemma qmax_from_spec : forall l a, In (qmax_from a l) (a :: l) /\ forall v, In v (a :: l) -> (v <= qmax_from a l)%Q.
Proof.
  induction l as [|b l IH]; intros a; cbn [qmax_from].
  - split; [left; auto|]. intros v [<-|[]]. lra.
  - destruct (Qlt_bool a b) eqn:E.
    + apply Qlt_bool_iff in E. destruct (IH b) as [I1 I2]. split.
      * right. auto.
      * intros v [<-|H]; [|apply I2; auto]. specialize (I2 b (or_introl eq_refl)). lra.
    + apply Qlt_bool_false in E. destruct (IH a) as [I1 I2]. split.
      * destruct I1 as [<-|H]; [left; auto|right; right; auto].
      * intros v [<-|[<-|H]].
        -- apply I2. left; auto.
        -- specialize (I2 a (or_introl eq_refl)). lra.
        -- apply I2. right; auto.
Qed.

Lemma nth_qarange : forall lo hi k b, nth_error (qarange lo hi) k = Some b ->
  k < Z.to_nat (Qceiling (hi - lo)) /\ b = (lo + inject_Z (Z.of_nat k))%Q.
Proof.
  intros lo hi k b H. unfold qarange in H. rewrite nth_error_map, nth_error_seq in H.
  destruct (Nat.ltb_spec k (Z.to_nat (Qceiling (hi - lo)))); [|discriminate]. simpl in H. injection H as <-. auto.
Qed.

Lemma default_bins_spec : forall x, x <> [] -> exists bins, default_bins x = Some bins /\
  increasing bins /\ 2 <= length bins /\ (forall v, In v x -> inside bins v) /\
  (exists lo, In lo x /\ forall j b, nth_error bins j = Some b -> b = (lo + inject_Z (Z.of_nat j))%Q).
Proof.
  intros [|a r] NE; [congruence|]. clear NE. unfold default_bins.
  destruct (qmin_from_spec r a) as [MI ML]. destruct (qmax_from_spec r a) as [XI XL].
  set (lo := qmin_from a r) in *. set (hi := qmax_from a r) in *.
  exists (qarange lo (hi + 2)). split; [reflexivity|].
  assert (LH : (lo <= hi)%Q) by (apply ML; auto).
  pose proof (Qle_ceiling (hi + 2 - lo)) as C.
  set (n := Z.to_nat (Qceiling (hi + 2 - lo))).
  assert (CN : Qceiling (hi + 2 - lo) = Z.of_nat n).
  { unfold n. assert (inject_Z 1 < inject_Z (Qceiling (hi + 2 - lo)))%Q by (change (inject_Z 1) with 1%Q; lra).
    rewrite <- Zlt_Qlt in H. lia. }
  rewrite CN in C.
  assert (N2 : 2 <= n).
  { assert (inject_Z 1 < inject_Z (Z.of_nat n))%Q by (change (inject_Z 1) with 1%Q; lra). rewrite <- Zlt_Qlt in H. lia. }
  assert (LEN : length (qarange lo (hi + 2)) = n) by (unfold qarange; rewrite map_length, seq_length; auto).
  split.
  - intros i j p q L Hp Hq. apply nth_qarange in Hp as [_ ->]. apply nth_qarange in Hq as [_ ->].
    assert (inject_Z (Z.of_nat i) < inject_Z (Z.of_nat j))%Q by (rewrite <- Zlt_Qlt; lia). lra.
  - split; [lia|]. split.
    + intros v Hv. destruct (nth_error_lt_Some (qarange lo (hi + 2)) 0) as [b0 H0]; [lia|].
      destruct (nth_error_lt_Some (qarange lo (hi + 2)) (n - 1)) as [bl Hl]; [lia|].
      exists b0, bl. rewrite LEN. split; [auto|]. split; [auto|].
      apply nth_qarange in H0 as [_ ->]. apply nth_qarange in Hl as [_ ->].
      change (inject_Z (Z.of_nat 0)) with 0%Q.
      replace (Z.of_nat (n - 1)) with (Z.of_nat n + -1)%Z by lia. rewrite inject_Z_plus. change (inject_Z (-1)) with (-1)%Q.
      specialize (ML v Hv). specialize (XL v Hv). split; lra.
    + exists lo. split; [auto|]. intros j b H. apply nth_qarange in H as [_ ->]. auto.
Qed.

Theorem iter_on_default : forall argsort x, sorts argsort -> x <> [] ->
  exists gs, iter_on argsort false x None = (gs, true) /\
    NoDup (concat (map (fun g => fst (fst g)) (map view gs))) /\
    (forall k, In k (concat (map (fun g => fst (fst g)) (map view gs))) <-> k < length x) /\
    (forall rows lo hi, In (rows, lo, hi) (map view gs) ->
       rows <> [] /\ (hi == lo + 1)%Q /\ forall k, In k rows <-> exists v, nth_error x k = Some v /\ (lo <= v /\ v < lo + 1)%Q) /\
    increasing (map (fun g => snd (fst g)) (map view gs)) /\
    (qsorted x -> forall g, In g gs -> exists a b, fst (fst g) = Slice a b) /\
    (~ qsorted x -> forall g, In g gs -> exists l, fst (fst g) = Index l).
Proof.
  intros argsort x AS NE. destruct (default_bins_spec x NE) as (bins & E & I & L & IN & b0 & _ & STEP).
  assert (EQ : iter_on argsort false x None = iter_on argsort false x (Some bins)) by (unfold iter_on; rewrite E; reflexivity).
  rewrite EQ.
  assert (R : exists gs, iter_on argsort false x (Some bins) = (gs, true) /\ visits_bins bins x (map view gs) /\
    (qsorted x -> forall g, In g gs -> exists a b, fst (fst g) = Slice a b) /\
    (~ qsorted x -> forall g, In g gs -> exists l, fst (fst g) = Index l)).
  { destruct (any_decrease x) eqn:AD.
    - assert (NS : ~ qsorted x) by (rewrite <- any_decrease_false; congruence).
      destruct (nth_error_lt_Some bins 0) as [e0 H0]; [lia|]. destruct (nth_error_lt_Some bins (length bins - 1)) as [el Hl]; [lia|].
      destruct (iter_on_unsorted argsort x bins AS NS I L e0 el H0 Hl) as [R _].
      destruct R as (gs & R1 & R2 & R3).
      { destruct x as [|v x]; [congruence|]. exists v. split; [left; auto|].
        destruct (IN v (or_introl eq_refl)) as (c0 & cl & C0 & Cl & B). rewrite H0 in C0. rewrite Hl in Cl. injection C0 as <-. injection Cl as <-. lra. }
      exists gs. tauto.
    - apply any_decrease_false in AD. destruct (iter_on_sorted argsort false x bins NE AD I L IN) as (gs & R1 & R2 & R3).
      exists gs. tauto. }
  destruct R as (gs & R1 & (V1 & V2 & V3 & V4) & R3 & R4). exists gs. split; [exact R1|]. split; [exact V1|]. split.
  - intros k. rewrite V2. split.
    + intros (v & Hv & _). eapply nth_error_Some_lt; eauto.
    + intros Hk. destruct (nth_error_lt_Some x k Hk) as [v Hv]. exists v. split; [auto|]. apply IN. eapply nth_error_In; eauto.
  - split; [|split; [exact V4|split; [exact R3|exact R4]]].
    intros rows lo hi H. destruct (V3 rows lo hi H) as (N & (j & Hlo & Hhi) & K). split; [exact N|].
    assert (HE : (hi == lo + 1)%Q).
    { rewrite (STEP _ _ Hlo), (STEP _ _ Hhi), (Nat2Z.inj_succ j), <- Z.add_1_r, inject_Z_plus. change (inject_Z 1) with 1%Q. lra. }
    split; [exact HE|]. intros k. rewrite K. split; intros (v & Hv & B1 & B2); exists v; (split; [auto|]); split; lra.
Qed.

(** ** align_on *)
Definition low (g : group) : Q := snd (fst g).
Definition same_low (b : Q) (o : group) : bool := Qeq_bool (low o) b.
Definition pairs_of (all_ref : bool) (others : list group) (g : group) : list aligned :=
  let '(r, b0, b1) := g in
  match find (same_low b0) others with
  | Some o => [(r, fst (fst o), b0, b1)]
  | None => if all_ref && existsb (fun o => Qlt_bool b0 (low o)) others then [(r, Index [], b0, b1)] else []
  end.

Lemma increasing_head : forall g gs h, increasing (lows (g :: gs)) -> In h gs -> (low g < low h)%Q.
Proof.
  intros g gs h I H. apply In_nth_error in H as [k Hk]. apply (I 0 (S k)); [lia|reflexivity|].
  unfold lows. simpl. apply (map_nth_error _ k gs Hk).
Qed.
Lemma increasing_rest : forall g gs, increasing (lows (g :: gs)) -> increasing (lows gs).
Proof. intros g gs I. apply increasing_tail in I. exact I. Qed.

Lemma advance_spec : forall others b0 cur, increasing (lows (cur :: others)) ->
  (advance b0 cur others = None /\ forall o, In o (cur :: others) -> (low o < b0)%Q) \/
  (exists pre c' o', advance b0 cur others = Some (c', o') /\ cur :: others = pre ++ c' :: o' /\
     (forall o, In o pre -> (low o < b0)%Q) /\ (b0 <= low c')%Q).
Proof.
  induction others as [|o others IH]; intros b0 cur I; cbn [advance]; fold (low cur); destruct (Qlt_bool (low cur) b0) eqn:E.
  - left. split; [auto|]. apply Qlt_bool_iff in E. intros x [<-|[]]. auto.
  - right. apply Qlt_bool_false in E. exists [], cur, []. split; [auto|]. split; [auto|]. split; [intros x []|auto].
  - apply Qlt_bool_iff in E. destruct (IH b0 o (increasing_rest _ _ I)) as [[A B]|(pre & c' & o' & A & B & C & D)].
    + left. split; [exact A|]. intros x [<-|H]; auto.
    + right. exists (cur :: pre), c', o'. split; [exact A|]. split; [rewrite B; reflexivity|]. split; [|exact D].
      intros x [<-|H]; auto.
  - right. apply Qlt_bool_false in E. exists [], cur, (o :: others). split; [auto|]. split; [auto|]. split; [intros x []|auto].
Qed.

Lemma find_drop : forall pre rest b, (forall o, In o pre -> (low o < b)%Q) -> find (same_low b) (pre ++ rest) = find (same_low b) rest.
Proof.
  induction pre as [|p pre IH]; intros rest b H; simpl; auto.
  assert (low p < b)%Q by (apply H; left; auto).
  destruct (same_low b p) eqn:E; [unfold same_low in E; apply Qeq_bool_iff in E; lra|].
  apply IH. intros. apply H. right. auto.
Qed.
Lemma exists_drop : forall pre rest b, (forall o, In o pre -> (low o < b)%Q) ->
  existsb (fun o => Qlt_bool b (low o)) (pre ++ rest) = existsb (fun o => Qlt_bool b (low o)) rest.
Proof.
  induction pre as [|p pre IH]; intros rest b H; simpl; auto.
  assert (low p < b)%Q by (apply H; left; auto).
  destruct (Qlt_bool b (low p)) eqn:E; [apply Qlt_bool_iff in E; lra|].
  apply IH. intros. apply H. right. auto.
Qed.
Lemma pairs_drop : forall all_ref pre rest self b, (forall o, In o pre -> (low o < b)%Q) -> (forall g, In g self -> (b <= low g)%Q) ->
  flat_map (pairs_of all_ref (pre ++ rest)) self = flat_map (pairs_of all_ref rest) self.
Proof.
  intros all_ref pre rest. induction self as [|[[r b0] b1] self IH]; intros b H G; simpl; auto.
  assert (b <= b0)%Q by (apply (G (r, b0, b1)); left; auto).
  assert (X : forall o, In o pre -> (low o < b0)%Q) by (intros o Ho; specialize (H o Ho); lra).
  rewrite find_drop, exists_drop by auto. f_equal. apply (IH b); auto. intros. apply G. right. auto.
Qed.

Lemma find_above : forall others b, (forall o, In o others -> (b < low o)%Q) -> find (same_low b) others = None.
Proof.
  induction others as [|p pre IH]; intros b H; simpl; auto.
  assert (b < low p)%Q by (apply H; left; auto).
  destruct (same_low b p) eqn:E; [unfold same_low in E; apply Qeq_bool_iff in E; lra|].
  apply IH. intros. apply H. right. auto.
Qed.
Lemma find_below : forall others b, (forall o, In o others -> (low o < b)%Q) -> find (same_low b) others = None.
Proof.
  intros. rewrite <- (app_nil_r others). rewrite find_drop by auto. reflexivity.
Qed.

Lemma align_loop_spec : forall all_ref self ok cur others,
  increasing (lows self) -> increasing (lows (cur :: others)) ->
  (all_ref = true -> forall g, In g self -> exists l, fst (fst g) = Index l) ->
  exists ok', align_loop all_ref self ok cur others = (flat_map (pairs_of all_ref (cur :: others)) self, ok') /\ (ok = true -> ok' = true).
Proof.
  intros all_ref. induction self as [|[[r b0] b1] self IH]; intros ok cur others IS IO HR.
  - exists ok. simpl. auto.
  - assert (GS : forall g, In g self -> (b0 <= low g)%Q).
    { intros g H. pose proof (increasing_head (r, b0, b1) self g IS H) as X. unfold low in X at 1. simpl in X. lra. }
    assert (STEP : forall cur others, increasing (lows (cur :: others)) -> (b0 <= low cur)%Q ->
      exists ok', (if Qlt_bool b0 (snd (fst cur)) then
          if all_ref then
            match r with
            | Slice _ _ => ([], false)
            | Index _ =>
                let '(ys, ok) := align_loop all_ref self ok cur others in
                ((r, Index [], b0, b1) :: ys, ok)
            end
          else align_loop all_ref self ok cur others
        else
          let '(ys, ok) := align_loop all_ref self ok cur others in
          ((r, fst (fst cur), b0, b1) :: ys, ok)) = (flat_map (pairs_of all_ref (cur :: others)) ((r, b0, b1) :: self), ok') /\ (ok = true -> ok' = true)).
    { intros cur' others' IO' LC.
      destruct (IH ok cur' others' (increasing_rest _ _ IS) IO') as (ok' & E & OK).
      { intros A g Hg. apply HR; auto. right. auto. }
      rewrite E. fold (low cur'). cbn [flat_map pairs_of].
      destruct (Qlt_bool b0 (low cur')) eqn:LT.
      - apply Qlt_bool_iff in LT.
        assert (AB : forall o, In o (cur' :: others') -> (b0 < low o)%Q).
        { intros o [<-|Ho]; auto. pose proof (increasing_head _ _ o IO' Ho). lra. }
        rewrite (find_above _ _ AB). cbn [existsb]. rewrite (proj2 (Qlt_bool_iff b0 (low cur')) LT). cbn [orb]. rewrite andb_true_r.
        destruct all_ref.
        + destruct (HR eq_refl (r, b0, b1) (or_introl eq_refl)) as [l El]. simpl in El. subst r. exists ok'. auto.
        + exists ok'. auto.
      - apply Qlt_bool_false in LT. assert (EQ : same_low b0 cur' = true). { unfold same_low. apply Qeq_bool_iff. lra. }
        cbn [find]. rewrite EQ. exists ok'. auto. }
    cbn [align_loop]. fold (low cur).
    destruct (Qlt_bool (low cur) b0) eqn:LT.
    + destruct (advance_spec others b0 cur IO) as [[A B]|(pre & c' & o' & A & B & C & D)]; rewrite A.
      * exists true. split; [|auto]. f_equal. symmetry.
        assert (Z : forall self, (forall g, In g self -> (b0 <= low g)%Q) -> flat_map (pairs_of all_ref (cur :: others)) self = []).
        { clear -B. induction self as [|[[r c0] c1] self IH]; intros H; cbn [flat_map]; auto.
          rewrite IH by (intros; apply H; right; auto). rewrite app_nil_r. unfold pairs_of.
          assert (b0 <= c0)%Q by (apply (H (r, c0, c1)); left; auto).
          assert (X : forall o, In o (cur :: others) -> (low o < c0)%Q) by (intros o Ho; specialize (B o Ho); lra).
          rewrite (find_below _ _ X).
          rewrite <- (app_nil_r (cur :: others)), exists_drop by auto. simpl. rewrite andb_false_r. auto. }
        apply Z. intros g [<-|Hg]; [unfold low; simpl; lra|auto].
      * rewrite B.
        assert (PD : flat_map (pairs_of all_ref (pre ++ c' :: o')) ((r, b0, b1) :: self) = flat_map (pairs_of all_ref (c' :: o')) ((r, b0, b1) :: self)).
        { apply (pairs_drop all_ref pre (c' :: o') ((r, b0, b1) :: self) b0); [auto|].
          intros g [<-|Hg]; [unfold low; simpl; lra|auto]. }
        unfold group in *. rewrite PD.
        apply STEP; auto. clear -IO B. rewrite B in IO. clear B. induction pre as [|p pre IH]; [exact IO|].
        apply IH. apply increasing_rest in IO. exact IO.
    + apply Qlt_bool_false in LT. apply STEP; auto.
Qed.

Theorem align_on_spec : forall all_ref self ok other ok2, other <> [] ->
  increasing (lows self) -> increasing (lows other) ->
  (all_ref = true -> forall g, In g self -> exists l, fst (fst g) = Index l) -> ok = true ->
  align_on all_ref (self, ok) (other, ok2) = (flat_map (pairs_of all_ref other) self, true).
Proof.
  intros all_ref self ok [|cur others] ok2 NE IS IO HR OK; [congruence|]. unfold align_on. simpl fst.
  destruct (align_loop_spec all_ref self ok cur others IS IO HR) as (ok' & E & K). rewrite (K OK) in E. exact E.
Qed.

Lemma find_same : forall others b o, increasing (lows others) -> (find (same_low b) others = Some o <-> In o others /\ (low o == b)%Q).
Proof.
  intros others b o I. split.
  - intros H. apply find_some in H as [H E]. split; [auto|]. apply Qeq_bool_iff. exact E.
  - intros [H E]. induction others as [|p others IH]; [destruct H|]. cbn [find].
    destruct (same_low b p) eqn:S.
    + unfold same_low in S. apply Qeq_bool_iff in S. destruct H as [->|H]; auto.
      pose proof (increasing_head _ _ o I H). lra.
    + destruct H as [->|H].
      * unfold same_low in S. apply Qeq_bool_iff in E. congruence.
      * apply IH; auto. eapply increasing_rest; eauto.
Qed.
Lemma find_none_same : forall others b, find (same_low b) others = None <-> forall o, In o others -> ~ (low o == b)%Q.
Proof.
  intros others b. split.
  - intros H o Ho E. apply (find_none _ _ H) in Ho. unfold same_low in Ho. apply Qeq_bool_iff in E. congruence.
  - intros H. destruct (find (same_low b) others) as [o|] eqn:F; auto. apply find_some in F as [F E].
    apply Qeq_bool_iff in E. destruct (H o F E).
Qed.
