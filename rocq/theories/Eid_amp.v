From Coq Require Import List Arith ZArith QArith Qabs Qround Bool Lia Lqa Relations.
From Verif Require Import Base Qaux Spec Obs_model Corr_model Corr_proofs Grid_model Grid_path Pix_model Poly_wind Eid_model Eid_spec Eid_proofs.
Import ListNotations.
Local Close Scope Q_scope.
Local Open Scope nat_scope.

(** ** Extrema *)
Lemma lowest_spec : forall l m, lowest l = Some m -> In m l /\ forall x, In x l -> (m <= x)%Q.
Proof.
  intros [|v l] m H; [discriminate H|]. cbn [lowest] in H. apply Some_inj in H. subst m.
  assert (G : forall l v, (In (fold_left (fun m x => if Qlt_bool x m then x else m) l v) (v :: l)) /\ (fold_left (fun m x => if Qlt_bool x m then x else m) l v <= v)%Q /\ forall x, In x l -> (fold_left (fun m x => if Qlt_bool x m then x else m) l v <= x)%Q).
  { clear. induction l as [|y l IH]; intros v; [cbn; split; [left; reflexivity|split; [lra|intros x []]]|]. cbn [fold_left]. destruct (Qlt_bool y v) eqn:E.
    - apply Qlt_bool_iff in E. destruct (IH y) as (I1 & I2 & I3). split; [right; exact I1|]. split; [lra|]. intros x [<-|I]; [exact I2|exact (I3 x I)].
    - apply Qlt_bool_false in E. destruct (IH v) as (I1 & I2 & I3). split; [destruct I1 as [I1|I1]; [left; exact I1|right; right; exact I1]|]. split; [exact I2|]. intros x [<-|I]; [lra|exact (I3 x I)]. }
  destruct (G l v) as (G1 & G2 & G3). split; [exact G1|]. intros x [<-|I]; [exact G2|exact (G3 x I)].
Qed.
Lemma feet_spec : forall grid mask s ps vs, feet grid mask s ps = Some vs -> (forall v, In v vs -> exists p, In p ps /\ foot grid mask s (fst p) (snd p) = Some v) /\ (forall p, In p ps -> exists v, In v vs /\ foot grid mask s (fst p) (snd p) = Some v).
Proof.
  intros grid mask s ps. induction ps as [|p ps IH]; intros vs H; cbn [feet] in H.
  - apply Some_inj in H. subst. split; [intros v []|intros p []].
  - destruct (foot grid mask s (fst p) (snd p)) as [v|] eqn:E; [|discriminate H]. cbn [bind] in H. destruct (feet grid mask s ps) as [ws|]; [|discriminate H]. cbn [bind] in H. apply Some_inj in H. subst vs. destruct (IH ws eq_refl) as [I1 I2]. split.
    + intros w [<-|I]; [exists p; split; [left; reflexivity|exact E]|]. destruct (I1 w I) as (q & Q1 & Q2). exists q. split; [right; exact Q1|exact Q2].
    + intros q [<-|I]; [exists v; split; [left; reflexivity|exact E]|]. destruct (I2 q I) as (w & Q1 & Q2). exists w. split; [right; exact Q1|exact Q2].
Qed.
Lemma feet_total : forall grid mask s ps, (forall p, In p ps -> exists v, foot grid mask s (fst p) (snd p) = Some v) -> exists vs, feet grid mask s ps = Some vs.
Proof.
  intros grid mask s ps. induction ps as [|p ps IH]; intros H; [exists []; reflexivity|]. destruct (H p (or_introl eq_refl)) as [v E]. destruct IH as [vs F]; [intros q I; apply H; right; exact I|]. exists (v :: vs). cbn [feet]. rewrite E. cbn [bind]. rewrite F. reflexivity.
Qed.
Lemma around_In : forall i j p, 0 < i -> 0 < j -> In p (Eid_model.around i j) <-> near i (fst p) /\ near j (snd p).
Proof.
  intros i j [a b] I J. unfold Eid_model.around, near. cbn [fst snd In]. split.
  - intros H. repeat (destruct H as [H|H]; [injection H as <- <-; lia|]). destruct H.
  - intros [[A1 A2] [B1 B2]]. assert (AC : a = i - 1 \/ a = i \/ a = i + 1) by lia. assert (BC : b = j - 1 \/ b = j \/ b = j + 1) by lia. destruct AC as [->|[->| ->]], BC as [->|[->| ->]]; tauto.
Qed.
Section Window.
Variables (nb_x nb_y : nat) (grid : list (list Q)) (mask inside : list (list bool)) (s : Q).
Hypothesis RG : rect nb_x nb_y grid.
Hypothesis RM : rect nb_x nb_y mask.
Hypothesis RI : rect nb_x nb_y inside.
Hypothesis BIG : forall c v, value_at grid c v -> (v * s <= inject_Z 20000000000)%Q.
Hypothesis FREE : forall c, value_at inside c true -> value_at mask c false.
Lemma foot_total : forall a b, a < nb_x -> b < nb_y -> exists v, foot grid mask s a b = Some v.
Proof.
  intros a b A B. destruct (rect_value nb_x nb_y mask (a, b) RM A B) as (m & M). destruct (rect_value nb_x nb_y grid (a, b) RG A B) as (v & V). unfold foot. rewrite (proj2 (nth2_value mask a b m) M). cbn [bind]. destruct m; [eexists; reflexivity|]. rewrite (proj2 (nth2_value grid a b v) V). eexists. reflexivity.
Qed.
Lemma is_extremum_spec : forall i j, 0 < i -> S i < nb_x -> 0 < j -> S j < nb_y ->
  exists b, is_extremum grid mask inside s (i, j) = Some b /\ (b = true <-> extremum nb_x nb_y grid mask inside s (i, j)).
Proof.
  intros i j I1 I2 J1 J2. unfold is_extremum.
  destruct (feet_total grid mask s (Eid_model.around i j)) as [vs F]. { intros [a b] IP. apply around_In in IP as [[A1 A2] [B1 B2]]; [|lia|lia]. cbn [fst snd] in *. apply foot_total; lia. }
  rewrite F. cbn [bind]. destruct (feet_spec _ _ _ _ _ F) as [F1 F2].
  destruct vs as [|v0 vs]. { destruct (F2 (i, j)) as (v & [] & _). apply around_In; cbn [fst snd]; unfold near; lia. }
  destruct (lowest (v0 :: vs)) as [m|] eqn:EL; [|discriminate EL]. cbn [bind]. apply lowest_spec in EL as [M1 M2].
  destruct (rect_value nb_x nb_y grid (i, j) RG) as (v & V); [cbn [fst]; lia|cbn [snd]; lia|]. destruct (rect_value nb_x nb_y inside (i, j) RI) as (b & B); [cbn [fst]; lia|cbn [snd]; lia|].
  rewrite (proj2 (nth2_value grid i j v) V), (proj2 (nth2_value inside i j b) B). cbn [bind]. eexists. split; [reflexivity|].
  assert (CELL : forall a' b' x, near i a' -> near j b' -> foot grid mask s a' b' = Some x -> In x (v0 :: vs)).
  { intros a' b' x A' B' E. destruct (F2 (a', b')) as (y & Y1 & Y2); [apply around_In; [exact I1|exact J1|split; assumption]|]. cbn [fst snd] in Y2. rewrite E in Y2. apply Some_inj in Y2. subst y. exact Y1. }
  rewrite andb_true_iff. split.
  - intros [E ->]. apply Qeq_bool_iff in E. split; [exact I1|]. split; [exact I2|]. split; [exact J1|]. split; [exact J2|]. split; [exact B|]. exists v. split; [exact V|]. intros [a' b'] w A' B' MF W. cbn [fst snd] in A', B'. rewrite <- E. apply M2. apply (CELL a' b' _ A' B'). unfold foot. rewrite (proj2 (nth2_value mask a' b' false) MF). cbn [bind]. rewrite (proj2 (nth2_value grid a' b' w) W). reflexivity.
  - intros (_ & _ & _ & _ & IN & v' & V' & H). assert (v' = v) by (eapply value_fun; [exact V'|exact V]). subst v'. assert (b = true) by (eapply value_fun; [exact B|exact IN]). subst b. split; [|reflexivity]. apply Qeq_bool_iff.
    assert (LO : (m <= v * s)%Q). { apply M2. apply (CELL i j); [unfold near; lia|unfold near; lia|]. unfold foot. rewrite (proj2 (nth2_value mask i j false) (FREE _ IN)). cbn [bind]. rewrite (proj2 (nth2_value grid i j v) V). reflexivity. }
    destruct (F1 m M1) as ([a' b'] & P1 & P2). apply around_In in P1 as [A' B']; [|exact I1|exact J1]. cbn [fst snd] in *. unfold foot in P2. destruct (nth2 mask a' b') as [mk|] eqn:EM; [|discriminate P2]. cbn [bind] in P2. destruct mk.
    + apply Some_inj in P2. pose proof (BIG (i, j) v V). rewrite <- P2 in *. lra.
    + destruct (nth2 grid a' b') as [w|] eqn:EW; [|discriminate P2]. cbn [bind] in P2. apply Some_inj in P2. apply nth2_value in EM. apply nth2_value in EW. specialize (H (a', b') w A' B' EM EW). rewrite <- P2 in *. lra.
Qed.
Lemma filter_opt_spec : forall {A} (f : A -> option bool) (P : A -> Prop) l, (forall x, In x l -> exists b, f x = Some b /\ (b = true <-> P x)) -> NoDup l ->
  exists r, filter_opt f l = Some r /\ NoDup r /\ forall x, In x r <-> In x l /\ P x.
Proof.
  intros A f P l. induction l as [|x l IH]; intros H ND.
  - exists []. split; [reflexivity|]. split; [constructor|]. intros x. cbn. tauto.
  - apply NoDup_cons_iff in ND as [NI ND]. destruct (H x (or_introl eq_refl)) as (b & E & B). destruct IH as (r & R1 & R2 & R3); [intros y I; apply H; right; exact I|exact ND|]. cbn [filter_opt]. rewrite E. cbn [bind]. rewrite R1. cbn [bind]. exists (if b then x :: r else r). split; [reflexivity|]. destruct b.
    + split; [constructor; [rewrite R3; tauto|exact R2]|]. intros y. cbn [In]. rewrite R3. assert (PX : P x) by (apply B; reflexivity). split; [intros [<-|I]; [split; [left; reflexivity|exact PX]|tauto]|intros [[I|I] Y]; tauto].
    + split; [exact R2|]. intros y. cbn [In]. rewrite R3. split; [tauto|]. intros [[<-|I] Y]; [apply B in Y; discriminate Y|tauto].
Qed.
Lemma NoDup_prod : forall {A B} (l : list A) (k : list B), NoDup l -> NoDup k -> NoDup (list_prod l k).
Proof.
  intros A B l k ND NK. induction l as [|x l IH]; [constructor|]. apply NoDup_cons_iff in ND as [NI ND]. cbn [list_prod]. assert (APP : forall u w : list (A * B), NoDup u -> NoDup w -> (forall z, In z u -> ~ In z w) -> NoDup (u ++ w)).
  { clear. induction u as [|y u IHu]; intros w U W D; [exact W|]. apply NoDup_cons_iff in U as [NY U]. cbn. constructor; [intros I; apply in_app_or in I as [I|I]; [contradiction|exact (D y (or_introl eq_refl) I)]|apply IHu; [exact U|exact W|intros z I; apply D; right; exact I]]. }
  apply APP; [apply FinFun.Injective_map_NoDup; [intros a b E; injection E; auto|exact NK]|apply IH; exact ND|]. intros [a b] I1 I2. apply in_map_iff in I1 as (b' & E & _). injection E as <- <-. apply in_prod_iff in I2 as [I2 _]. contradiction.
Qed.
Lemma extrema_list : exists pts, filter_opt (is_extremum grid mask inside s) (inner_cells nb_x nb_y) = Some pts /\ NoDup pts /\ forall c, In c pts <-> extremum nb_x nb_y grid mask inside s c.
Proof.
  destruct (filter_opt_spec (is_extremum grid mask inside s) (extremum nb_x nb_y grid mask inside s) (inner_cells nb_x nb_y)) as (r & R1 & R2 & R3).
  - intros [i j] I. unfold inner_cells in I. apply in_prod_iff in I as [I J]. apply in_seq in I, J. apply is_extremum_spec; lia.
  - apply NoDup_prod; apply seq_NoDup.
  - exists r. split; [exact R1|]. split; [exact R2|]. intros [i j]. rewrite R3. split; [tauto|]. intros X. split; [|exact X]. destruct X as (A1 & A2 & A3 & A4 & _). cbn [fst snd] in *. unfold inner_cells. apply in_prod; apply in_seq; lia.
Qed.
End Window.

(** ** Groups of neighbours *)
Notation conn E := (clos_refl_trans nat E).
Lemma conn_add : forall (E : nat -> nat -> Prop) a b, (forall i j, E i j -> E j i) ->
  forall i j, conn (fun i j => E i j \/ (i = a /\ j = b) \/ (i = b /\ j = a)) i j <-> conn E i j \/ (conn E i a /\ conn E b j) \/ (conn E i b /\ conn E a j).
Proof.
  intros E a b SY i j. set (E' := fun i j => _). split.
  - intros H. apply clos_rt_rt1n in H. induction H as [|x y z H _ IH]; [left; apply rt_refl|]. destruct H as [H|[[-> ->]|[-> ->]]].
    + assert (XY : conn E x y) by (apply rt_step; exact H). destruct IH as [I|[[I1 I2]|[I1 I2]]]; [left|right; left; split; [|exact I2]|right; right; split; [|exact I2]]; eapply rt_trans; [exact XY|eassumption|exact XY|eassumption|exact XY|eassumption].
    + destruct IH as [I|[[I1 I2]|[I1 I2]]]; [right; left; split; [apply rt_refl|exact I]|right; left; split; [apply rt_refl|exact I2]|left; exact I2].
    + destruct IH as [I|[[I1 I2]|[I1 I2]]]; [right; right; split; [apply rt_refl|exact I]|left; exact I2|right; right; split; [apply rt_refl|exact I2]].
  - assert (M : forall x y, conn E x y -> conn E' x y). { intros x y H. induction H; [apply rt_step; left; exact H|apply rt_refl|eapply rt_trans; eassumption]. }
    intros [H|[[H1 H2]|[H1 H2]]]; [apply M; exact H| |].
    + eapply rt_trans; [apply M; exact H1|]. eapply rt_trans; [apply rt_step; right; left; split; reflexivity|apply M; exact H2].
    + eapply rt_trans; [apply M; exact H1|]. eapply rt_trans; [apply rt_step; right; right; split; reflexivity|apply M; exact H2].
Qed.
Definition labels_ok (E : nat -> nat -> Prop) (lab : nat -> nat) : Prop :=
  (forall i, lab i <> 0 <-> exists j, E i j) /\ forall i j, conn E i j <-> i = j \/ (lab i <> 0 /\ lab i = lab j).
Lemma labels_step : forall (E : nat -> nat -> Prop) lab lab' a b nb, (forall i j, E i j -> E j i) -> a <> b -> labels_ok E lab -> (forall i, lab i < nb) -> 0 < nb ->
  (forall i, lab' i = if (lab a =? 0) && (lab b =? 0) then (if (i =? a) || (i =? b) then nb else lab i)
    else if (lab a =? 0) && negb (lab b =? 0) then (if i =? a then lab b else lab i)
    else if (lab b =? 0) && negb (lab a =? 0) then (if i =? b then lab a else lab i)
    else if lab i =? lab a then lab b else lab i) ->
  labels_ok (fun i j => E i j \/ (i = a /\ j = b) \/ (i = b /\ j = a)) lab'.
Proof.
  intros E lab lab' a b nb SY AB (G1 & G2) LT NB H. split.
  - intros i. assert (X : (exists j, E i j \/ (i = a /\ j = b) \/ (i = b /\ j = a)) <-> (lab i <> 0 \/ i = a \/ i = b)).
    { rewrite G1. split; [intros (j & [Y|[[Y _]|[Y _]]]); [left; exists j; exact Y|tauto|tauto]|intros [(j & Y)|[->| ->]]; [exists j; left; exact Y|exists b; tauto|exists a; tauto]]. }
    rewrite X. clear X. rewrite H. pose proof (LT i). destruct (Nat.eqb_spec (lab a) 0), (Nat.eqb_spec (lab b) 0); cbn [andb negb]; destruct (Nat.eqb_spec i a), (Nat.eqb_spec i b); cbn [orb]; subst; try (destruct (Nat.eqb_spec (lab i) (lab a))); try (rewrite Nat.eqb_refl); try lia.
    all: destruct (Nat.eqb_spec (lab b) (lab a)); lia.
  - intros i j. rewrite (conn_add E a b SY). rewrite !G2, !H. assert (L1 : lab i <> nb) by (pose proof (LT i); lia). assert (L2 : lab j <> nb) by (pose proof (LT j); lia). assert (L0 : nb <> 0) by lia. clear G1 G2 LT NB SY H.
    destruct (Nat.eqb_spec (lab a) 0), (Nat.eqb_spec (lab b) 0); cbn [andb negb].
    + destruct (Nat.eqb_spec i a), (Nat.eqb_spec i b), (Nat.eqb_spec j a), (Nat.eqb_spec j b); cbn [orb]; subst; intuition congruence.
    + destruct (Nat.eqb_spec i a), (Nat.eqb_spec j a), (Nat.eq_dec i b), (Nat.eq_dec j b); subst; intuition congruence.
    + destruct (Nat.eqb_spec i b), (Nat.eqb_spec j b), (Nat.eq_dec i a), (Nat.eq_dec j a); subst; intuition congruence.
    + destruct (Nat.eqb_spec (lab i) (lab a)), (Nat.eqb_spec (lab j) (lab a)), (Nat.eq_dec (lab i) (lab b)), (Nat.eq_dec (lab j) (lab b)), (Nat.eq_dec (lab i) (lab j)); intuition congruence.
Qed.
