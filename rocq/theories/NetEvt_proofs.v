(** Proofs on the events of a network. *)
From Coq Require Import List Arith ZArith Bool Lia Permutation.
From Verif Require Import Base Sort Generic_model Generic_proofs Spec Corr_model Corr_proofs Corr_more Solver_proofs TrackObs_more Obs_spec Obs_model NetGroup_model
  Net_model Net_spec Net_sort Net_links Net_reach NetSeg_model NetSeg_spec NetSeg_proofs NetSeg_dead NetEvt_model NetEvt_spec.
Import ListNotations.
Local Open Scope nat_scope.

(** ** Following links *)
Section Follow.
Context (next time : list Z) (dt : Z) (n : nat).
Hypothesis LN : length next = n.
Hypothesis LT : length time = n.
Hypothesis LK : forall z, In z next -> link_ok n z.
Hypothesis ACY : no_loop next.
Hypothesis POS : 0 < n.

Lemma py_link : forall {A} (l : list A) z, length l = n -> link_ok n z -> pyget l z = nth_error l (row_of n z) /\ row_of n z < n.
Proof.
  intros A l z L H. unfold row_of. destruct H as [->|H].
  - rewrite pyget_last by (destruct l; [simpl in L; lia|discriminate]). cbn [Z.ltb Z.compare]. rewrite L. split; [auto|lia].
  - destruct (Z.ltb_spec z 0); [lia|]. rewrite (pyget_nat l z (Z.to_nat z)) by lia. split; [auto|lia].
Qed.
Lemma py_mark : forall (m : list bool) z, length m = n -> link_ok n z -> pystore m z true = Some (upd m (row_of n z) true).
Proof.
  intros m z L H. unfold pystore, pyidx, row_of. rewrite L. destruct H as [->|H].
  - cbn [Z.leb Z.compare Z.ltb]. destruct (Z.leb_spec (- Z.of_nat n) (-1)); [|lia]. cbn [bind].
    replace (Z.to_nat (-1 + Z.of_nat n)) with (n - 1) by lia. unfold store. rewrite L. destruct (Nat.ltb_spec (n - 1) n); [auto|lia].
  - destruct (Z.leb_spec 0 z); [|lia]. destruct (Z.ltb_spec z (Z.of_nat n)); [|lia]. destruct (Z.ltb_spec z 0); [lia|]. cbn [bind]. unfold store. rewrite L.
    destruct (Nat.ltb_spec (Z.to_nat z) n); [auto|lia].
Qed.
Lemma mark_nth : forall (m : list bool) i k, i < length m -> (nth_error (upd m i true) k = Some true <-> k = i \/ nth_error m k = Some true).
Proof.
  intros m i k L. destruct (Nat.eq_dec k i) as [->|N].
  - rewrite nth_error_upd_eq by auto. tauto.
  - rewrite nth_error_upd_neq by auto. tauto.
Qed.

Definition hit (t0 z : Z) (k : nat) : Prop :=
  exists c t, z = Z.of_nat c /\ nth_error time c = Some t /\ (Z.abs (t - t0) < dt)%Z /\ met next time dt t0 c k.
Lemma follow_loop_spec : forall t0 fuel m z path, length m = n -> link_ok n z -> NoDup path -> (forall v, In v path -> v < n) ->
  (forall v c, In v path -> z = Z.of_nat c -> v <> c /\ reach (step next) v c) -> n <= length path + fuel ->
  exists m', follow_loop fuel m next time t0 dt z = Some m' /\ length m' = n /\ forall k, nth_error m' k = Some true <-> nth_error m k = Some true \/ hit t0 z k.
Proof.
  intros t0 fuel. induction fuel as [|fuel IH]; intros m z path LM OK ND PB PR F.
  - destruct (py_link time z LT OK) as [PT RB]. destruct (nth_error_lt_Some time (row_of n z)) as [t T]; [lia|].
    cbn [follow_loop]. rewrite PT, T. cbn [bind].
    destruct ((Z.abs (t - t0) <? dt)%Z && negb (z =? -1)%Z) eqn:C.
    + exfalso. apply andb_true_iff in C as [_ C2]. apply negb_true_iff, Z.eqb_neq in C2. destruct OK as [?|OK]; [contradiction|].
      assert (IN : forall c, z = Z.of_nat c -> ~ In c path). { intros c E H. destruct (PR c c H E). auto. }
      assert (X : length (Z.to_nat z :: path) <= length (seq 0 n)).
      { apply NoDup_incl_length.
        - constructor; [apply IN; lia|auto].
        - intros v [<-|H]; apply in_seq; [lia|]. apply PB in H. lia. }
      rewrite seq_length in X. simpl in X. lia.
    + exists m. split; [auto|]. split; [auto|]. intros k. split; [auto|]. intros [H|(c & t' & -> & T' & D & _)]; [auto|]. exfalso.
      unfold row_of in T. destruct (Z.ltb_spec (Z.of_nat c) 0); [lia|]. rewrite Nat2Z.id, T' in T. apply Some_inj in T. subst t'.
      apply andb_false_iff in C as [C|C]; [apply Z.ltb_ge in C; lia|]. apply negb_false_iff, Z.eqb_eq in C. lia.
  - destruct (py_link time z LT OK) as [PT RB]. destruct (nth_error_lt_Some time (row_of n z)) as [t T]; [lia|].
    cbn [follow_loop]. rewrite PT, T. cbn [bind].
    destruct ((Z.abs (t - t0) <? dt)%Z && negb (z =? -1)%Z) eqn:C.
    + apply andb_true_iff in C as [C1 C2]. apply negb_true_iff, Z.eqb_neq in C2. apply Z.ltb_lt in C1.
      rewrite py_mark by auto. cbn [bind]. destruct (py_link next z LN OK) as [PN _]. rewrite PN.
      destruct (nth_error_lt_Some next (row_of n z)) as [z' Z']; [lia|]. rewrite Z'. cbn [bind].
      destruct OK as [?|OK]; [contradiction|]. assert (RZ : row_of n z = Z.to_nat z) by (unfold row_of; destruct (Z.ltb_spec z 0); [lia|auto]).
      rewrite RZ in *. set (c := Z.to_nat z) in *. assert (EZ : z = Z.of_nat c) by (unfold c; lia).
      destruct (IH (upd m c true) z' (c :: path)) as (m' & E & L & N).
      * rewrite length_upd. auto.
      * apply LK. eapply nth_error_In; eauto.
      * constructor; auto. intros H. destruct (PR c c H EZ). auto.
      * intros v [<-|H]; auto.
      * intros v d IN ED. subst z'. assert (SD : step next c d) by exact Z'.
        assert (RV : reach (step next) v c). { destruct IN as [<-|H]; [constructor|]. apply (PR v c H EZ). }
        split.
        -- intros ->. apply (ACY c d SD). auto.
        -- clear -RV SD. induction RV; [econstructor; [eauto|constructor]|econstructor; eauto].
      * simpl. lia.
      * exists m'. split; [auto|]. split; [auto|]. intros k. rewrite N, mark_nth by lia. split.
        -- intros [[->|H]|(d & u & -> & U & D & M)]; [right|auto|right].
           ++ exists c, t. split; [auto|]. split; [auto|]. split; [auto|]. constructor.
           ++ exists c, t. split; [auto|]. split; [auto|]. split; [auto|]. econstructor; eauto.
        -- intros [H|(d & u & ED & U & D & M)]; [auto|]. rewrite EZ in ED. apply Nat2Z.inj in ED. subst d.
           destruct M as [i|i j k u' S U' D' M]; [auto|]. right. exists j, u'. unfold step in S. rewrite Z' in S. apply Some_inj in S. auto.
    + exists m. split; [auto|]. split; [auto|]. intros k. split; [auto|]. intros [H|(c & t' & -> & T' & D & _)]; [auto|]. exfalso.
      unfold row_of in T. destruct (Z.ltb_spec (Z.of_nat c) 0); [lia|]. rewrite Nat2Z.id, T' in T. apply Some_inj in T. subst t'.
      apply andb_false_iff in C as [C|C]; [apply Z.ltb_ge in C; lia|]. apply negb_false_iff, Z.eqb_eq in C. lia.
Qed.
Lemma follow_one_spec : forall m z, length m = n -> link_ok n z ->
  exists m', follow_one m next time dt z = Some m' /\ length m' = n /\ forall k, nth_error m' k = Some true <-> nth_error m k = Some true \/ close_to next time dt (row_of n z) k.
Proof.
  intros m z LM OK. unfold follow_one. destruct (py_link time z LT OK) as [PT RB]. rewrite PT.
  destruct (nth_error_lt_Some time (row_of n z)) as [t0 T]; [lia|]. rewrite T. cbn [bind]. rewrite py_mark by auto. cbn [bind].
  destruct (py_link next z LN OK) as [PN _]. rewrite PN. destruct (nth_error_lt_Some next (row_of n z)) as [z' Z']; [lia|]. rewrite Z'. cbn [bind].
  destruct (follow_loop_spec t0 (length m) (upd m (row_of n z) true) z' []) as (m' & E & L & N).
  - rewrite length_upd; auto.
  - apply LK. eapply nth_error_In; eauto.
  - constructor.
  - intros v [].
  - intros v c [].
  - simpl. lia.
  - exists m'. split; [auto|]. split; [auto|]. intros k. rewrite N, mark_nth by lia. split.
    + intros [[->|H]|(c & t & -> & T' & D & M)]; [right; exists t0; split; [auto|constructor]|auto|right]. exists t0. split; [auto|]. econstructor; eauto.
    + intros [H|(t & T' & M)]; [auto|]. rewrite T in T'. apply Some_inj in T'. subst t. destruct M as [i|i j k u S U D M]; [auto|].
      right. exists j, u. unfold step in S. rewrite Z' in S. apply Some_inj in S. auto.
Qed.
Theorem follow_spec : forall indexs m, length m = n -> (forall z, In z indexs -> link_ok n z) ->
  exists m', mask_follow_obs m next time indexs dt = Some m' /\ length m' = n /\
    forall k, nth_error m' k = Some true <-> nth_error m k = Some true \/ exists z, In z indexs /\ close_to next time dt (row_of n z) k.
Proof.
  induction indexs as [|z r IH]; intros m LM OK.
  - exists m. split; [reflexivity|]. split; [auto|]. intros k. split; [auto|]. intros [H|(z & [] & _)]; auto.
  - cbn [mask_follow_obs]. destruct (follow_one_spec m z LM) as (m1 & E1 & L1 & N1); [apply OK; left; auto|]. rewrite E1. cbn [bind].
    destruct (IH m1 L1) as (m' & E & L & N); [intros; apply OK; right; auto|]. exists m'. split; [auto|]. split; [auto|]. intros k. rewrite N, N1. split.
    + intros [[H|H]|(y & Y & H)]; [auto|right; exists z; simpl; auto|right; exists y; simpl; auto].
    + intros [H|(y & [<-|Y] & H)]; [auto|auto|right; eauto].
Qed.
End Follow.

(** ** Triplets of events *)
Definition triplet (argsort : list Z -> list nat) (src col other time : list Z) : option (list Z * list Z * list Z) :=
  let! idx := take col src in
  let m := map (fun z => negb (z =? -1)%Z) idx in
  let idx1 := select m idx in
  let! t := take time idx1 in
  let i := argsort t in
  let! a := gather idx1 i in
  let! c := gather (select m src) i in
  let! b := take other a in
  Some (a, b, c).

Lemma triplet_spec : forall argsort src col other time n, sorts argsort -> length col = n -> length other = n -> length time = n ->
  (forall z, In z src -> (0 <= z < Z.of_nat n)%Z) -> NoDup src -> (forall z, In z col -> link_ok n z) ->
  exists a b c, triplet argsort src col other time = Some (a, b, c) /\ length b = length a /\ length c = length a /\
    (forall p z, nth_error a p = Some z -> (0 <= z < Z.of_nat n)%Z) /\
    (forall s j, (In (Z.of_nat s) src /\ nth_error col s = Some (Z.of_nat j)) <-> exists p, nth_error c p = Some (Z.of_nat s) /\ nth_error a p = Some (Z.of_nat j)) /\
    (forall p q z, nth_error c p = Some z -> nth_error c q = Some z -> p = q) /\
    (forall p z, nth_error c p = Some z -> In z src) /\
    (forall p j, nth_error a p = Some (Z.of_nat j) -> nth_error b p = nth_error other j) /\
    (forall p q i j ti tj, p < q -> nth_error a p = Some (Z.of_nat i) -> nth_error a q = Some (Z.of_nat j) -> nth_error time i = Some ti -> nth_error time j = Some tj -> (ti <= tj)%Z).
Proof.
  intros argsort src col other time n SO LC LO LT SB ND LK. unfold triplet.
  destruct (take_all col src (fun z v => nth_error col (Z.to_nat z) = Some v)) as (idx & TI & LI & IN).
  { intros z H. apply SB in H. destruct (nth_error_lt_Some col (Z.to_nat z)) as [v V]; [lia|]. exists v. split; [|auto]. rewrite (pyget_nat col z (Z.to_nat z)) by lia. auto. }
  rewrite TI. cbn [bind]. set (m := map (fun z => negb (z =? -1)%Z) idx).
  assert (LM : length m = length idx) by (unfold m; apply map_length).
  assert (MN : forall w, nth_error m w = Some true <-> exists v, nth_error idx w = Some v /\ v <> (-1)%Z).
  { intros w. unfold m. rewrite nth_error_map. destruct (nth_error idx w) as [v|]; simpl.
    - split; [intros H; apply Some_inj in H; apply negb_true_iff, Z.eqb_neq in H; eauto|]. intros (u & U & N). apply Some_inj in U. subst u. f_equal. apply negb_true_iff, Z.eqb_neq. auto.
    - split; [discriminate|]. intros (u & U & _). discriminate. }
  assert (VAL : forall w v, nth_error idx w = Some v -> exists z, nth_error src w = Some z /\ nth_error col (Z.to_nat z) = Some v).
  { intros w v H. destruct (nth_error_lt_Some src w) as [z Z0]; [apply nth_error_Some_lt in H; lia|]. destruct (IN w z Z0) as (v' & V1 & V2). rewrite H in V1. apply Some_inj in V1. subst. eauto. }
  assert (WN : forall q w, nth_error (where_ m) q = Some w -> nth_error (select m idx) q = nth_error idx w /\ nth_error (select m src) q = nth_error src w).
  { intros q w H. split.
    - rewrite (nth_error_select m idx 0 q w LM H), Nat.sub_0_r. auto.
    - rewrite (nth_error_select m src 0 q w) by (auto; lia). rewrite Nat.sub_0_r. auto. }
  assert (WL : length (where_ m) = length (select m idx)). { rewrite (length_select m idx LM). unfold where_. clear. generalize 0. induction m as [|b m IH]; intros k; simpl; auto. destruct b; simpl; rewrite IH; auto. }
  assert (WL2 : length (select m src) = length (select m idx)). { rewrite !length_select by lia. auto. }
  assert (SEL : forall v, In v (select m idx) -> (0 <= v < Z.of_nat n)%Z).
  { intros v H. apply In_nth_error in H as [q Q]. destruct (nth_error_lt_Some (where_ m) q) as [w W]; [apply nth_error_Some_lt in Q; lia|].
    destruct (WN q w W) as [E _]. rewrite E in Q. assert (MW : nth_error m w = Some true) by (apply In_where; eapply nth_error_In; eauto).
    apply MN in MW as (u & U & N). rewrite Q in U. apply Some_inj in U. subst u. destruct (VAL w v Q) as (z & _ & C).
    destruct (LK v) as [?|?]; [eapply nth_error_In; eauto|contradiction|auto]. }
  destruct (take_all time (select m idx) (fun z v => nth_error time (Z.to_nat z) = Some v)) as (t & TT & LTT & TN).
  { intros z H. apply SEL in H. destruct (nth_error_lt_Some time (Z.to_nat z)) as [v V]; [lia|]. exists v. split; [|auto]. rewrite (pyget_nat time z (Z.to_nat z)) by lia. auto. }
  rewrite TT. cbn [bind]. destruct (SO t) as [P ORD]. rewrite LTT in P.
  assert (IB : forall i, In i (argsort t) -> i < length (select m idx)) by (intros i H; apply (Permutation_in _ P), in_seq in H; lia).
  destruct (gather_total (select m idx) (argsort t) IB) as [a GA]. rewrite GA. cbn [bind]. apply gather_Some in GA as [LA AN].
  destruct (gather_total (select m src) (argsort t)) as [c GC]; [rewrite WL2; auto|]. rewrite GC. cbn [bind]. apply gather_Some in GC as [LCC CN].
  assert (AB : forall p z, nth_error a p = Some z -> (0 <= z < Z.of_nat n)%Z).
  { intros p z H. destruct (nth_error_lt_Some (argsort t) p) as [q Q]; [apply nth_error_Some_lt in H; lia|]. destruct (AN p q Q) as (v & V1 & V2). rewrite H in V2. apply Some_inj in V2. subst v.
    apply SEL. eapply nth_error_In; eauto. }
  destruct (take_all other a (fun z v => nth_error other (Z.to_nat z) = Some v)) as (b & TB & LB & BN).
  { intros z H. apply In_nth_error in H as [p Hp]. apply AB in Hp. destruct (nth_error_lt_Some other (Z.to_nat z)) as [v V]; [lia|]. exists v. split; [|auto]. rewrite (pyget_nat other z (Z.to_nat z)) by lia. auto. }
  rewrite TB. cbn [bind]. exists a, b, c. split; [auto|]. split; [auto|]. split; [lia|]. split; [auto|].
  assert (POS : forall p z, nth_error c p = Some z -> exists q w, nth_error (argsort t) p = Some q /\ nth_error (where_ m) q = Some w /\ nth_error src w = Some z /\ nth_error a p = nth_error idx w).
  { intros p z H. destruct (nth_error_lt_Some (argsort t) p) as [q Q]; [apply nth_error_Some_lt in H; lia|].
    destruct (nth_error_lt_Some (where_ m) q) as [w W]; [rewrite WL; apply IB; eapply nth_error_In; eauto|]. destruct (WN q w W) as [E1 E2].
    destruct (CN p q Q) as (v & V1 & V2). rewrite H in V2. apply Some_inj in V2. subst v. destruct (AN p q Q) as (u & U1 & U2).
    exists q, w. split; [auto|]. split; [auto|]. split; congruence. }
  split; [|split; [|split; [|split]]].
  - intros s j. split.
    + intros [HS HC]. apply In_nth_error in HS as [w W]. destruct (IN w _ W) as (v & V1 & V2). rewrite Nat2Z.id, HC in V2. apply Some_inj in V2. subst v.
      assert (MW : nth_error m w = Some true) by (apply MN; exists (Z.of_nat j); split; [auto|lia]). apply In_where in MW. apply In_nth_error in MW as [q Q].
      assert (IQ : In q (argsort t)). { apply (Permutation_in _ (Permutation_sym P)), in_seq. apply nth_error_Some_lt in Q. lia. }
      apply In_nth_error in IQ as [p Hp]. destruct (WN q w Q) as [E1 E2]. exists p. destruct (CN p q Hp) as (u & U1 & U2). destruct (AN p q Hp) as (x & X1 & X2). split; congruence.
    + intros (p & HC & HA). destruct (POS p _ HC) as (q & w & Q & W & SW & AW). split; [eapply nth_error_In; eauto|].
      rewrite HA in AW. symmetry in AW. destruct (VAL w _ AW) as (z & Z1 & Z2). rewrite SW in Z1. apply Some_inj in Z1. subst z. rewrite Nat2Z.id in Z2. auto.
  - intros p p' z HC HC'. destruct (POS p z HC) as (q & w & Q & W & SW & _). destruct (POS p' z HC') as (q' & w' & Q' & W' & SW' & _).
    assert (w = w'). { apply (proj1 (NoDup_nth_error src) ND); [apply nth_error_Some_lt in SW; auto|congruence]. } subst w'.
    assert (NW : NoDup (where_ m)) by (apply incr_NoDup, incr_where).
    assert (q = q'). { apply (proj1 (NoDup_nth_error _) NW); [apply nth_error_Some_lt in W; auto|congruence]. } subst q'.
    assert (NA : NoDup (argsort t)) by (apply (Permutation_NoDup (Permutation_sym P)), seq_NoDup).
    apply (proj1 (NoDup_nth_error _) NA); [apply nth_error_Some_lt in Q; auto|congruence].
  - intros p z HC. destruct (POS p z HC) as (q & w & _ & _ & SW & _). eapply nth_error_In; eauto.
  - intros p j HA. destruct (BN p _ HA) as (v & V1 & V2). rewrite Nat2Z.id in V2. congruence.
  - intros p p' i j ti tj L HA HA' Ti Tj.
    destruct (nth_error_lt_Some (argsort t) p) as [q Q]; [apply nth_error_Some_lt in HA; lia|].
    destruct (nth_error_lt_Some (argsort t) p') as [q' Q']; [apply nth_error_Some_lt in HA'; lia|].
    destruct (AN p q Q) as (v & V1 & V2). rewrite HA in V2. apply Some_inj in V2. subst v.
    destruct (AN p' q' Q') as (v & V1' & V2). rewrite HA' in V2. apply Some_inj in V2. subst v.
    destruct (TN q _ V1) as (x & X1 & X2). destruct (TN q' _ V1') as (y & Y1 & Y2). rewrite Nat2Z.id in X2, Y2.
    rewrite Ti in X2. rewrite Tj in Y2. apply Some_inj in X2, Y2. subst x y. apply (ORD p p' q q' ti tj L Q Q' X1 Y1).
Qed.
