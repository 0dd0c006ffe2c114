From Coq Require Import List Arith ZArith QArith Qabs Qround Bool Lia Lqa Relations.
From Verif Require Import Base Qaux Spec Obs_model Corr_model Corr_proofs Grid_model Grid_path Pix_model Pix_proofs Poly_wind Eid_model Eid_spec Eid_proofs Eid_amp.
Import ListNotations.
Local Close Scope Q_scope.
Local Open Scope nat_scope.

Lemma manhattan_spec : forall p q, (manhattan p q =? 1) = true <-> adjacent p q.
Proof. intros [a b] [c d]. unfold manhattan, adjacent. cbn [fst snd]. rewrite Nat.eqb_eq. lia. Qed.
Lemma adjacent_sym : forall p q, adjacent p q -> adjacent q p.
Proof. intros p q. unfold adjacent. lia. Qed.
Lemma adjacent_irr : forall p, ~ adjacent p p.
Proof. intros p. unfold adjacent. lia. Qed.
Lemma conn_ext : forall (E E' : nat -> nat -> Prop), (forall i j, E i j <-> E' i j) -> forall i j, conn E i j <-> conn E' i j.
Proof. intros E E' H i j. split; intros C; induction C; try (apply rt_refl); try (eapply rt_trans; eassumption); apply rt_step; apply H; assumption. Qed.
Lemma labels_ext : forall (E E' : nat -> nat -> Prop) lab, (forall i j, E i j <-> E' i j) -> labels_ok E lab -> labels_ok E' lab.
Proof.
  intros E E' lab H (G1 & G2). split.
  - intros i. rewrite G1. split; intros (j & X); exists j; apply H; exact X.
  - intros i j. rewrite <- (conn_ext E E' H). apply G2.
Qed.
Lemma labels_lab : forall E lab lab', (forall i, lab i = lab' i) -> labels_ok E lab -> labels_ok E lab'.
Proof. intros E lab lab' H (G1 & G2). split; [intros i; rewrite <- H; apply G1|intros i j; rewrite <- !H; apply G2]. Qed.
Lemma nth_upd : forall (l : list nat) a v i, a < length l -> nth i (upd l a v) 0 = if i =? a then v else nth i l 0.
Proof.
  intros l a v i L. destruct (Nat.eqb_spec i a) as [->|D].
  - apply nth_error_nth. apply nth_error_upd_eq. exact L.
  - destruct (nth_error l i) as [x|] eqn:E.
    + rewrite (nth_error_nth _ _ _ E). apply nth_error_nth. rewrite nth_error_upd_neq by congruence. exact E.
    + apply nth_error_None in E. rewrite !nth_overflow; [reflexivity|exact E|rewrite length_upd; exact E].
Qed.
Section Groups.
Variable pts : list (nat * nat).
Notation n := (length pts).
Definition adjn (i j : nat) : Prop := exists p q, nth_error pts i = Some p /\ nth_error pts j = Some q /\ adjacent p q.
Lemma adjn_sym : forall i j, adjn i j -> adjn j i.
Proof. intros i j (p & q & A & B & C). exists q, p. split; [exact B|split; [exact A|apply adjacent_sym; exact C]]. Qed.
Definition seen (ps : list (nat * nat)) (i j : nat) : Prop := (In (i, j) ps \/ In (j, i) ps) /\ adjn i j.
Lemma group_step_spec : forall ps gr nb a b, a < b -> b < n -> length gr = n -> (forall i, nth i gr 0 < nb) -> 0 < nb -> labels_ok (seen ps) (fun i => nth i gr 0) ->
  exists gr' nb', group_step pts (Some (gr, nb)) (a, b) = Some (gr', nb') /\ length gr' = n /\ (forall i, nth i gr' 0 < nb') /\ 0 < nb' /\ labels_ok (seen (ps ++ [(a, b)])) (fun i => nth i gr' 0).
Proof.
  intros ps gr nb a b AB BN LG LT NB OK. unfold group_step. cbn [bind fst snd].
  destruct (nth_error_lt_Some pts a) as [p P]; [lia|]. destruct (nth_error_lt_Some pts b) as [q Q]; [lia|]. rewrite P, Q. cbn [bind].
  assert (SY : forall i j, seen ps i j -> seen ps j i) by (intros i j [X Y]; split; [tauto|apply adjn_sym; exact Y]).
  destruct (manhattan p q =? 1) eqn:M.
  - apply manhattan_spec in M.
    assert (EX : forall i j, (seen ps i j \/ (i = a /\ j = b) \/ (i = b /\ j = a)) <-> seen (ps ++ [(a, b)]) i j).
    { assert (AJ : adjn a b) by (exists p, q; split; [exact P|split; [exact Q|exact M]]). intros i j. unfold seen. rewrite !in_app_iff. cbn [In]. split.
      - intros [[X Y]|[[-> ->]|[-> ->]]]; [split; [tauto|exact Y]|split; [left; right; left; reflexivity|exact AJ]|split; [right; right; left; reflexivity|apply adjn_sym; exact AJ]].
      - intros [X Y]. destruct X as [[X|[X|[]]]|[X|[X|[]]]]; [left; split; [tauto|exact Y]|injection X as <- <-; tauto|left; split; [tauto|exact Y]|injection X as <- <-; tauto]. }
    destruct (nth_error_lt_Some gr a) as [la A]; [lia|]. destruct (nth_error_lt_Some gr b) as [lb B]; [lia|]. rewrite A, B. cbn [bind].
    assert (NA : nth a gr 0 = la) by (apply nth_error_nth; exact A). assert (NBB : nth b gr 0 = lb) by (apply nth_error_nth; exact B).
    pose proof (fun lab' H => labels_ext _ _ lab' EX (labels_step (seen ps) (fun i => nth i gr 0) lab' a b nb SY ltac:(lia) OK LT NB H)) as STEP. cbv beta in STEP. rewrite NA, NBB in STEP.
    destruct ((la =? 0) && (lb =? 0)) eqn:C1; [|destruct ((la =? 0) && negb (lb =? 0)) eqn:C2; [|destruct ((lb =? 0) && negb (la =? 0)) eqn:C3]].
    + unfold store. destruct (Nat.ltb_spec a (length gr)); [|lia]. cbn [bind]. rewrite length_upd. destruct (Nat.ltb_spec b (length gr)); [|lia]. cbn [bind].
      assert (F : forall i, nth i (upd (upd gr a nb) b nb) 0 = if (i =? a) || (i =? b) then nb else nth i gr 0) by (intros i; rewrite !nth_upd by (try rewrite length_upd; lia); destruct (i =? a), (i =? b); reflexivity).
      eexists. eexists. split; [reflexivity|]. split; [rewrite !length_upd; exact LG|]. split; [intros i; rewrite F; specialize (LT i); destruct ((i =? a) || (i =? b)); lia|]. split; [lia|]. apply STEP. exact F.
    + unfold store. destruct (Nat.ltb_spec a (length gr)); [|lia]. cbn [bind].
      assert (F : forall i, nth i (upd gr a lb) 0 = if i =? a then lb else nth i gr 0) by (intros i; apply nth_upd; lia).
      eexists. eexists. split; [reflexivity|]. split; [rewrite length_upd; exact LG|]. split; [intros i; rewrite F; pose proof (LT i); pose proof (LT b); destruct (i =? a); lia|]. split; [exact NB|]. apply STEP. exact F.
    + unfold store. destruct (Nat.ltb_spec b (length gr)); [|lia]. cbn [bind].
      assert (F : forall i, nth i (upd gr b la) 0 = if i =? b then la else nth i gr 0) by (intros i; apply nth_upd; lia).
      eexists. eexists. split; [reflexivity|]. split; [rewrite length_upd; exact LG|]. split; [intros i; rewrite F; pose proof (LT i); pose proof (LT a); destruct (i =? b); lia|]. split; [exact NB|]. apply STEP. exact F.
    + assert (NZ : la <> 0 /\ lb <> 0) by (destruct (Nat.eqb_spec la 0), (Nat.eqb_spec lb 0); cbn in *; try discriminate; split; assumption).
      assert (F : forall i, nth i (map (fun g => if g =? la then lb else g) gr) 0 = if nth i gr 0 =? la then lb else nth i gr 0).
      { intros i. set (h := fun g => if g =? la then lb else g). assert (H0 : h 0 = 0) by (unfold h; destruct (Nat.eqb_spec 0 la); [lia|reflexivity]). rewrite <- H0 at 1. rewrite map_nth. reflexivity. }
      eexists. eexists. split; [reflexivity|]. split; [rewrite map_length; exact LG|]. split; [intros i; rewrite F; pose proof (LT i); pose proof (LT b); destruct (nth i gr 0 =? la); lia|]. split; [exact NB|]. apply STEP. exact F.
  - eexists. eexists. split; [reflexivity|]. split; [exact LG|]. split; [exact LT|]. split; [exact NB|]. revert OK. apply labels_ext. intros i j. unfold seen. rewrite !in_app_iff. cbn [In]. split; [tauto|]. intros [X Y]. split; [|exact Y].
    assert (NJ : ~ adjn a b) by (intros (p' & q' & P' & Q' & AJ); rewrite P in P'; rewrite Q in Q'; apply Some_inj in P'; apply Some_inj in Q'; subst p' q'; apply manhattan_spec in AJ; congruence).
    destruct X as [[X|[X|[]]]|[X|[X|[]]]]; [left; exact X|injection X as <- <-; contradiction|right; exact X|injection X as <- <-; exfalso; apply NJ, adjn_sym; exact Y].
Qed.
Lemma groups_fold : forall qs ps gr nb, (forall a b, In (a, b) qs -> a < b /\ b < n) -> length gr = n -> (forall i, nth i gr 0 < nb) -> 0 < nb -> labels_ok (seen ps) (fun i => nth i gr 0) ->
  exists gr' nb', fold_left (group_step pts) qs (Some (gr, nb)) = Some (gr', nb') /\ length gr' = n /\ labels_ok (seen (ps ++ qs)) (fun i => nth i gr' 0).
Proof.
  intros qs. induction qs as [|[a b] qs IH]; intros ps gr nb H LG LT NB OK.
  - exists gr, nb. rewrite app_nil_r. split; [reflexivity|split; assumption].
  - destruct (H a b (or_introl eq_refl)) as [AB BN]. destruct (group_step_spec ps gr nb a b AB BN LG LT NB OK) as (gr1 & nb1 & E & L1 & T1 & B1 & O1). cbn [fold_left]. rewrite E. change ((a, b) :: qs) with ([(a, b)] ++ qs). rewrite app_assoc. apply (IH (ps ++ [(a, b)]) gr1 nb1); try assumption. intros a' b' I. apply H. right. exact I.
Qed.
Lemma groups_of_spec : exists gr, groups_of pts = Some gr /\ length gr = n /\ labels_ok adjn (fun i => nth i gr 0).
Proof.
  unfold groups_of. assert (PL : forall a b, In (a, b) (pairs_lt n) <-> a < b /\ b < n).
  { intros a b. unfold pairs_lt. rewrite in_flat_map. split; [intros (i & I & M); apply in_map_iff in M as (j & E & J); injection E as <- <-; apply in_seq in I, J; lia|]. intros [A B]. exists a. split; [apply in_seq; lia|]. apply in_map_iff. exists b. split; [reflexivity|apply in_seq; lia]. }
  destruct (groups_fold (pairs_lt n) [] (repeat 0 n) 1) as (gr & nb & E & L & OK).
  - intros a b I. apply PL. exact I.
  - apply repeat_length.
  - intros i. rewrite nth_repeat. lia.
  - lia.
  - assert (NS : forall i j, ~ seen [] i j) by (intros i j [[[]|[]] _]). split.
    + intros i. rewrite nth_repeat. split; [lia|]. intros (j & X). exfalso. exact (NS i j X).
    + intros i j. rewrite !nth_repeat. split; [|intros [->|[X _]]; [apply rt_refl|lia]]. intros C. left. apply clos_rt_rt1n in C. destruct C as [|y z X _]; [reflexivity|]. exfalso. exact (NS i y X).
  - rewrite E. cbn [bind fst]. exists gr. split; [reflexivity|]. split; [exact L|]. revert OK. apply labels_ext. intros i j. cbn [app]. unfold seen. rewrite !PL. split; [tauto|]. intros AJ. split; [|exact AJ]. destruct AJ as (p & q & P & Q & X). assert (i <> j) by (intros ->; rewrite P in Q; apply Some_inj in Q; subst q; exact (adjacent_irr p X)). apply nth_error_Some_lt in P, Q. lia.
Qed.
Hypothesis ND : NoDup pts.
Lemma connected_index : forall i j p q, nth_error pts i = Some p -> nth_error pts j = Some q -> connected pts p q <-> conn adjn i j.
Proof.
  intros i j p q P Q. split.
  - intros C. revert i P. apply clos_rt_rt1n in C. induction C as [x|x y z (I1 & I2 & A) _ IH]; intros i P.
    + assert (i = j) by (apply (NoDup_nth_error pts); [exact ND|apply nth_error_Some_lt in P; exact P|congruence]). subst. apply rt_refl.
    + apply In_nth_error in I2 as (k & K). eapply rt_trans; [apply rt_step; exists x, y; split; [exact P|split; [exact K|exact A]]|]. exact (IH Q k K).
  - intros C. revert p P. apply clos_rt_rt1n in C. induction C as [x|x y z (p' & q' & A1 & A2 & A3) _ IH]; intros p P.
    + rewrite P in Q. apply Some_inj in Q. subst. apply rt_refl.
    + rewrite P in A1. apply Some_inj in A1. subst p'. eapply rt_trans; [apply rt_step; split; [exact (nth_error_In _ _ P)|split; [exact (nth_error_In _ _ A2)|exact A3]]|]. exact (IH Q q' A2).
Qed.
Lemma In_labelled : forall (gr : list nat) (P : nat -> bool) c, length gr = n -> In c (map fst (filter (fun pg => P (snd pg)) (combine pts gr))) <-> exists i, nth_error pts i = Some c /\ P (nth i gr 0) = true.
Proof.
  intros gr P c L. rewrite in_map_iff. split.
  - intros ([c' g] & E & I). cbn [fst] in E. subst c'. apply filter_In in I as [I E]. cbn [snd] in E. apply In_nth_error in I as (i & I). exists i. assert (X : nth_error pts i = Some c /\ nth_error gr i = Some g).
    { clear - I. revert pts gr I. induction i; intros [|x l] [|y k] I; try discriminate I; cbn in I; [injection I as -> ->; split; reflexivity|apply IHi; exact I]. }
    destruct X as [X Y]. split; [exact X|]. rewrite (nth_error_nth _ _ _ Y). exact E.
  - intros (i & I & E). destruct (nth_error_lt_Some gr i) as [g H]; [apply nth_error_Some_lt in I; lia|]. rewrite (nth_error_nth _ _ _ H) in E. exists (c, g). split; [reflexivity|]. apply filter_In. split; [|exact E].
    apply (nth_error_In _ i). clear - I H. revert pts gr I H. induction i; intros [|x l] [|y k] I H; try discriminate I; try discriminate H; cbn in *; [congruence|apply IHi; assumption].
Qed.
Lemma NoDup_labelled : forall (gr : list nat) (P : nat -> bool), NoDup (map fst (filter (fun pg => P (snd pg)) (combine pts gr))).
Proof.
  clear - ND. intros gr P. revert gr. induction pts as [|x l IH]; intros gr; [constructor|]. destruct gr as [|g gr]; [constructor|]. apply NoDup_cons_iff in ND as [NI ND']. cbn [combine filter snd]. destruct (P g); [|apply IH; exact ND']. cbn [map fst]. constructor; [|apply IH; exact ND']. intros I. apply in_map_iff in I as ([x' g'] & E & I). cbn in E. subst x'. apply filter_In in I as [I _]. apply in_combine_l in I. contradiction.
Qed.
Lemma central_bary : forall gr g, central (map fst (filter (fun pg => snd pg =? g) (combine pts gr))) (barycentre pts gr g).
Proof.
  intros gr g. unfold barycentre, central. set (mine := map fst (filter (fun pg => snd pg =? g) (combine pts gr))). cbn [fst snd].
  assert (R : forall f : nat * nat -> nat, (Qabs (inject_Z (Z.of_nat (Z.to_nat (qround (mean_of f mine)))) - mean_of f mine) <= 1 # 2)%Q).
  { intros f. assert (P : (0 <= mean_of f mine)%Q). { unfold mean_of. destruct (Nat.eq_dec (length mine) 0) as [Z|Z]; [rewrite Z; unfold Qdiv; change (/ inject_Z (Z.of_nat 0))%Q with 0%Q; rewrite Qmult_0_r; lra|]. apply Qle_shift_div_l; [change 0%Q with (inject_Z 0); rewrite <- Zlt_Qlt; lia|]. rewrite Qmult_0_l. change 0%Q with (inject_Z 0). rewrite <- Zle_Qle. lia. }
    pose proof (qround_near (mean_of f mine)) as RN. assert (PZ : (0 <= qround (mean_of f mine))%Z). { pose proof (qround_mono 0 (mean_of f mine) P) as X. change (qround 0) with 0%Z in X. exact X. }
    rewrite Z2Nat.id by exact PZ. exact RN. }
  split; apply R.
Qed.
Theorem separate_spec : exists r, separate pts = Some r /\ merged pts r.
Proof.
  destruct groups_of_spec as (gr & E & L & (G1 & G2)). unfold separate. rewrite E. cbn [bind]. eexists. split; [reflexivity|].
  set (alone := map fst (filter (fun pg => snd pg =? 0) (combine pts gr))). set (labels := usort (filter (fun g => negb (g =? 0)) gr)).
  set (member := fun g => map fst (filter (fun pg => snd pg =? g) (combine pts gr))).
  assert (AL : forall c, In c alone <-> exists i, nth_error pts i = Some c /\ nth i gr 0 = 0) by (intros c; unfold alone; rewrite (In_labelled gr (fun g => g =? 0) c L); setoid_rewrite Nat.eqb_eq; reflexivity).
  assert (ME : forall g c, In c (member g) <-> exists i, nth_error pts i = Some c /\ nth i gr 0 = g) by (intros g c; unfold member; rewrite (In_labelled gr (fun g' => g' =? g) c L); setoid_rewrite Nat.eqb_eq; reflexivity).
  assert (LB : forall g, In g labels <-> g <> 0 /\ exists i, i < n /\ nth i gr 0 = g).
  { intros g. unfold labels. rewrite In_usort, filter_In, negb_true_iff, Nat.eqb_neq. split; [intros [I D]; split; [exact D|]; apply In_nth_error in I as (i & I); exists i; split; [apply nth_error_Some_lt in I; lia|exact (nth_error_nth _ _ _ I)]|]. intros (D & i & I & X). split; [|exact D]. rewrite <- X. apply nth_In. lia. }
  assert (UI : forall i j c, nth_error pts i = Some c -> nth_error pts j = Some c -> i = j) by (intros i j c I J; apply (NoDup_nth_error pts); [exact ND|apply nth_error_Some_lt in I; exact I|congruence]).
  exists alone, (map member labels), (map (barycentre pts gr) labels). split; [reflexivity|]. split; [|split; [|split; [|split]]].
  - clear. induction labels as [|g l IH]; [constructor|]. cbn [map]. constructor; [apply central_bary|exact IH].
  - assert (NDC : forall ls, NoDup ls -> NoDup (concat (map member ls))).
    { intros ls. induction ls as [|g ls IH]; intros N; [constructor|]. apply NoDup_cons_iff in N as [NI N]. cbn [map concat].
      assert (APP : forall u w : list (nat * nat), NoDup u -> NoDup w -> (forall z, In z u -> ~ In z w) -> NoDup (u ++ w)).
      { clear. induction u as [|y u IHu]; intros w U W D; [exact W|]. apply NoDup_cons_iff in U as [NY U]. cbn. constructor; [intros I; apply in_app_or in I as [I|I]; [contradiction|exact (D y (or_introl eq_refl) I)]|apply IHu; [exact U|exact W|intros z I; apply D; right; exact I]]. }
      apply APP; [apply (NoDup_labelled gr (fun g' => g' =? g))|apply IH; exact N|]. intros z Z1 Z2. apply in_concat in Z2 as (m & M1 & M2). apply in_map_iff in M1 as (g' & <- & M1). apply ME in Z1 as (i & I1 & I2). apply ME in M2 as (j & J1 & J2). assert (i = j) by (eapply UI; eassumption). subst j. congruence. }
    assert (APP : forall u w : list (nat * nat), NoDup u -> NoDup w -> (forall z, In z u -> ~ In z w) -> NoDup (u ++ w)).
    { clear. induction u as [|y u IHu]; intros w U W D; [exact W|]. apply NoDup_cons_iff in U as [NY U]. cbn. constructor; [intros I; apply in_app_or in I as [I|I]; [contradiction|exact (D y (or_introl eq_refl) I)]|apply IHu; [exact U|exact W|intros z I; apply D; right; exact I]]. }
    apply APP; [apply (NoDup_labelled gr (fun g' => g' =? 0))|apply NDC; apply incr_NoDup, incr_usort|]. intros z Z1 Z2. apply in_concat in Z2 as (m & M1 & M2). apply in_map_iff in M1 as (g' & <- & M1). apply LB in M1 as [D _]. apply AL in Z1 as (i & I1 & I2). apply ME in M2 as (j & J1 & J2). assert (i = j) by (eapply UI; eassumption). subst j. congruence.
  - intros c. rewrite in_app_iff, in_concat. split.
    + intros [I|(m & M1 & M2)]; [apply AL in I as (i & I & _); exact (nth_error_In _ _ I)|]. apply in_map_iff in M1 as (g & <- & _). apply ME in M2 as (i & I & _). exact (nth_error_In _ _ I).
    + intros I. apply In_nth_error in I as (i & I). destruct (Nat.eq_dec (nth i gr 0) 0) as [Z|Z]; [left; apply AL; exists i; split; assumption|]. right. exists (member (nth i gr 0)). split; [apply in_map, LB; split; [exact Z|exists i; split; [apply nth_error_Some_lt in I; exact I|reflexivity]]|]. apply ME. exists i. split; [exact I|reflexivity].
  - intros c I d J A. apply AL in I as (i & I & Z). apply In_nth_error in J as (j & J). assert (X : nth i gr 0 <> 0) by (apply G1; exists j, c, d; split; [exact I|split; [exact J|exact A]]). contradiction.
  - intros ps IP. apply in_map_iff in IP as (g & <- & IG). apply LB in IG as (D & i & I & X). split.
    + assert (EJ : exists j, adjn i j) by (apply G1; rewrite X; exact D). destruct EJ as (j & J).
      assert (XJ : nth j gr 0 = g). { assert (C : conn adjn i j) by (apply rt_step; exact J). apply G2 in C as [->|[_ C]]; [exact X|congruence]. }
      destruct J as (p & q & P & Q & A). assert (NE : p <> q) by (intros ->; exact (adjacent_irr q A)).
      assert (IP1 : In p (member g)) by (apply ME; exists i; split; assumption). assert (IQ1 : In q (member g)) by (apply ME; exists j; split; assumption).
      destruct (member g) as [|x [|y l]]; [destruct IP1|destruct IP1 as [IP1|[]], IQ1 as [IQ1|[]]; congruence|cbn; lia].
    + intros c d IC. apply ME in IC as (a & A1 & A2). split.
      * intros ID. apply ME in ID as (b & B1 & B2). apply (connected_index a b c d A1 B1). apply G2. right. rewrite A2, B2. split; [exact D|reflexivity].
      * intros C. assert (ID : In d pts). { apply clos_rt_rtn1 in C. destruct C as [|y z (_ & Y & _) _]; [exact (nth_error_In _ _ A1)|exact Y]. }
        apply In_nth_error in ID as (b & B1). apply (connected_index a b c d A1 B1) in C. apply G2 in C. apply ME. exists b. split; [exact B1|]. destruct C as [->|[_ C]]; congruence.
Qed.
End Groups.
Theorem detect_spec : forall nb_x nb_y grid mask inside s mle, rect nb_x nb_y grid -> rect nb_x nb_y mask -> rect nb_x nb_y inside -> 
  (forall c v, value_at grid c v -> (v * s <= inject_Z 20000000000)%Q) -> (forall c, value_at inside c true -> value_at mask c false) ->
  exists pts r, detect_local_minima grid mask inside mle s = Some r /\ NoDup pts /\ (forall c, In c pts <-> extremum nb_x nb_y grid mask inside s c) /\
    (length pts <= mle -> r = pts) /\ (mle < length pts -> merged pts r).
Proof.
  intros nb_x nb_y grid mask inside s mle RG RM RI BIG FREE. destruct (extrema_list nb_x nb_y grid mask inside s RG RM RI BIG FREE) as (pts & E & ND & SP).
  assert (FO : filter_opt (is_extremum grid mask inside s) (inner_cells (length grid) (width grid)) = Some pts).
  { destruct RG as [L R]. rewrite L. destruct grid as [|row g]; [cbn in L; subst nb_x; rewrite <- E; reflexivity|]. cbn [width]. rewrite (R row (or_introl eq_refl)). exact E. }
  unfold detect_local_minima. rewrite FO. cbn [bind]. destruct (separate_spec pts ND) as (r & SR & MR). destruct (Nat.ltb_spec mle (length pts)).
  - exists pts, r. split; [exact SR|]. split; [exact ND|]. split; [exact SP|]. split; [lia|]. intros _. exact MR.
  - exists pts, pts. split; [reflexivity|]. split; [exact ND|]. split; [exact SP|]. split; [reflexivity|lia].
Qed.
