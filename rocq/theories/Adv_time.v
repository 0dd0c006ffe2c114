From Coq Require Import List Arith ZArith QArith Qround Qabs Bool Lia Lqa Sorted.
From Verif Require Import Base Qaux Split_model Grp_tracks Grp_more Adv_model Adv_spec.
Import ListNotations.
Local Close Scope Q_scope.
Local Open Scope nat_scope.

(** Two dates follow each other in a list. *)
Definition follow (l : list Q) (a b : Q) : Prop := exists l1 l2, l = l1 ++ a :: b :: l2.

Lemma last_default : forall (l : list Q) x a b, last (x :: l) a = last (x :: l) b.
Proof. induction l as [|y l IH]; intros; [reflexivity|]. cbn [last] in *. apply IH. Qed.
Section Dates.
Variables (backward : bool) (nb_step : nat) (time_step : Q).
Let d : Q := if backward then (-1)%Q else 1%Q.
Let t_step : Q := if backward then (- time_step)%Q else time_step.
Let D : Q := (inject_Z (Z.of_nat nb_step) * time_step)%Q.
Let late t t1 := if backward then Qle_bool t t1 else Qle_bool t1 t.
Lemma late_true : forall t t1, late t t1 = true -> (d * t1 <= d * t)%Q.
Proof. intros t t1. unfold late, d. destruct backward; intros H; apply Qle_bool_iff in H; lra. Qed.
Lemma late_false : forall t t1, late t t1 = false -> (d * t < d * t1)%Q.
Proof. intros t t1. unfold late, d. destruct backward; intros H; apply Qle_bool_false in H; lra. Qed.
Lemma step_D : forall t, (d * (t + inject_Z (Z.of_nat nb_step) * t_step) == d * t + D)%Q.
Proof. intros t. unfold d, t_step, D. destruct backward; lra. Qed.

(** Every window: dates which follow each other, time of the release. *)
Lemma windows_follow : forall n t0 t1 t rest ws, windows backward nb_step t_step n t0 t1 t rest = Some ws ->
  length ws = n /\ forall k w, nth_error ws k = Some w ->
   follow (t0 :: t1 :: rest) (w_t0 w) (w_t1 w)
   /\ (w_time w == t + inject_Z (Z.of_nat k * Z.of_nat nb_step) * t_step)%Q
   /\ w = window_at nb_step t_step (w_t0 w) (w_t1 w) (w_time w).
Proof.
  induction n as [|n IH]; intros t0 t1 t rest ws E; cbn [windows] in E.
  - apply Some_inj in E. subst. split; [reflexivity|]. intros [|k] w; discriminate.
  - assert (X : exists t0' t1' rest' ws', (exists l1, t0 :: t1 :: rest = l1 ++ t0' :: t1' :: rest') /\ windows backward nb_step t_step n t0' t1' (t + inject_Z (Z.of_nat nb_step) * t_step)%Q rest' = Some ws'
       /\ ws = window_at nb_step t_step t0' t1' t :: ws').
    { destruct (if backward then Qle_bool t t1 else Qle_bool t1 t).
      - destruct rest as [|t2 rest']; [discriminate|]. cbn [bind] in E. apply bind_Some in E. destruct E as (ws' & E & F). apply Some_inj in F. exists t1, t2, rest', ws'. split; [exists [t0]; reflexivity|auto].
      - cbn [bind] in E. apply bind_Some in E. destruct E as (ws' & E & F). apply Some_inj in F. exists t0, t1, rest, ws'. split; [exists []; reflexivity|auto]. }
    destruct X as (a & b & rest' & ws' & (l1 & L) & E' & ->). destruct (IH _ _ _ _ _ E') as [LEN H]. split; [cbn; congruence|].
    intros [|k] w N; cbn [nth_error] in N.
    + apply Some_inj in N. subst w. cbn [w_t0 w_t1 w_time window_at]. split; [exists l1, rest'; exact L|]. split; [|reflexivity].
      change (inject_Z (Z.of_nat 0 * Z.of_nat nb_step)) with 0%Q. lra.
    + destruct (H k w N) as (F & T & W). split; [|split; [|exact W]].
      * destruct F as (m1 & m2 & F). exists (l1 ++ m1), m2. rewrite L, F. apply app_assoc.
      * rewrite T, Nat2Z.inj_succ, Z.mul_succ_l, inject_Z_plus. ring.
Qed.

(** With intervals not shorter than a release, every release is between its dates. *)
Lemma windows_between : (0 <= D)%Q -> forall n t0 t1 t rest ws, dated d D (t0 :: t1 :: rest) -> (d * t0 <= d * t)%Q -> (d * t < d * t1 + D)%Q \/ (d * t <= d * t1)%Q ->
  windows backward nb_step t_step n t0 t1 t rest = Some ws ->
  forall w, In w ws -> (d * w_t0 w <= d * w_time w /\ d * w_time w < d * w_t1 w)%Q.
Proof.
  intros DP. induction n as [|n IH]; intros t0 t1 t rest ws S A B E w I; cbn [windows] in E; [apply Some_inj in E; subst; destruct I|].
  fold (late t t1) in E. destruct (late t t1) eqn:L.
  - destruct rest as [|t2 rest']; [discriminate|]. cbn [bind] in E. apply bind_Some in E. destruct E as (ws' & E & F). apply Some_inj in F. subst ws.
    apply late_true in L. destruct S as (_ & S). pose proof S as ((G0 & G) & _).
    destruct I as [<-|I]; [cbn [w_t0 w_t1 w_time window_at]; lra|]. refine (IH _ _ _ _ _ S _ _ E w I); rewrite step_D; lra.
  - cbn [bind] in E. apply bind_Some in E. destruct E as (ws' & E & F). apply Some_inj in F. subst ws. apply late_false in L.
    destruct I as [<-|I]; [cbn [w_t0 w_t1 w_time window_at]; lra|]. refine (IH _ _ _ _ _ S _ _ E w I); rewrite step_D; lra.
Qed.
(** With intervals made of whole releases, every release ends before its second date. *)
Lemma windows_whole : (0 < D)%Q -> forall n t0 t1 t rest ws, multiples d D (t0 :: t1 :: rest) -> (d * t0 <= d * t)%Q ->
  (exists m, (0 <= m)%Z /\ d * (t1 - t) == inject_Z m * D)%Q ->
  windows backward nb_step t_step n t0 t1 t rest = Some ws ->
  forall w, In w ws -> (d * w_t0 w <= d * w_time w /\ d * w_time w + D <= d * w_t1 w)%Q.
Proof.
  intros DP. induction n as [|n IH]; intros t0 t1 t rest ws S A (m & M0 & M) E w I; cbn [windows] in E; [apply Some_inj in E; subst; destruct I|].
  fold (late t t1) in E. destruct (late t t1) eqn:L.
  - destruct rest as [|t2 rest']; [discriminate|]. cbn [bind] in E. apply bind_Some in E. destruct E as (ws' & E & F). apply Some_inj in F. subst ws.
    apply late_true in L. assert (M1 : (0 <= inject_Z m)%Q) by (apply (inject_Z_le_iff 0); exact M0).
    assert (TT : (d * t == d * t1)%Q) by nra. destruct S as (_ & S). pose proof S as ((k & K0 & K) & _).
    assert (K1 : (1 <= inject_Z k)%Q) by (apply (inject_Z_le_iff 1); lia).
    destruct I as [<-|I]; [cbn [w_t0 w_t1 w_time window_at]; split; [lra|nra]|].
    refine (IH _ _ _ _ _ S _ _ E w I); [rewrite step_D; lra|].
    exists (k - 1)%Z. split; [lia|]. unfold Z.sub. rewrite inject_Z_plus, inject_Z_opp. change (inject_Z 1) with 1%Q.
    transitivity (d * t2 - d * (t + inject_Z (Z.of_nat nb_step) * t_step))%Q; [ring|]. rewrite step_D. lra.
  - cbn [bind] in E. apply bind_Some in E. destruct E as (ws' & E & F). apply Some_inj in F. subst ws. apply late_false in L.
    assert (M1 : (0 < m)%Z). { destruct (Z.eq_dec m 0) as [->|]; [|lia]. change (inject_Z 0) with 0%Q in M. exfalso. lra. }
    assert (M2 : (1 <= inject_Z m)%Q) by (apply (inject_Z_le_iff 1); lia).
    destruct I as [<-|I]; [cbn [w_t0 w_t1 w_time window_at]; split; [lra|nra]|].
    refine (IH _ _ _ _ _ S _ _ E w I); [rewrite step_D; lra|].
    exists (m - 1)%Z. split; [lia|]. unfold Z.sub. rewrite inject_Z_plus, inject_Z_opp. change (inject_Z 1) with 1%Q.
    transitivity (d * t1 - d * (t + inject_Z (Z.of_nat nb_step) * t_step))%Q; [ring|]. rewrite step_D. lra.
Qed.
(** The releases exist as long as there are dates. *)
Lemma windows_total : (0 <= D)%Q -> forall n t0 t1 t rest, dated d D (t0 :: t1 :: rest) -> (d * t0 <= d * t)%Q -> (d * t < d * t1 + D)%Q \/ (d * t <= d * t1)%Q ->
  (d * t + inject_Z (Z.of_nat n) * D < d * last (t1 :: rest) t1 + D)%Q ->
  exists ws, windows backward nb_step t_step n t0 t1 t rest = Some ws.
Proof.
  intros DP. induction n as [|n IH]; intros t0 t1 t rest S A B E; cbn [windows]; [eauto|].
  rewrite Nat2Z.inj_succ in E. unfold Z.succ in E. rewrite inject_Z_plus in E. change (inject_Z 1) with 1%Q in E.
  assert (N : (0 <= inject_Z (Z.of_nat n) * D)%Q) by (apply Qmult_le_0_compat; [apply (inject_Z_le_iff 0); lia|exact DP]).
  fold (late t t1). destruct (late t t1) eqn:L.
  - apply late_true in L. destruct rest as [|t2 rest']; [cbn in E; exfalso; lra|]. cbn [bind].
    destruct S as (_ & S). pose proof S as ((G0 & G) & _).
    destruct (IH t1 t2 (t + inject_Z (Z.of_nat nb_step) * t_step)%Q rest' S) as (ws & ->).
    + rewrite step_D. lra.
    + rewrite step_D. lra.
    + rewrite step_D. assert (X : last (t1 :: t2 :: rest') t1 = last (t2 :: rest') t2) by (cbn [last]; apply last_default).
      rewrite X in E. lra.
    + cbn [bind]. eauto.
  - apply late_false in L. cbn [bind]. destruct (IH t0 t1 (t + inject_Z (Z.of_nat nb_step) * t_step)%Q rest S) as (ws & ->).
    + rewrite step_D. lra.
    + rewrite step_D. lra.
    + rewrite step_D. lra.
    + cbn [bind]. eauto.
Qed.
End Dates.

(** ** Weights *)
Lemma weight_nth : forall nb_step t_step t0 t1 t k w, nth_error (w_weights (window_at nb_step t_step t0 t1 t)) k = Some w ->
  k < nb_step /\ w = (1 - (t + inject_Z (Z.of_nat k) * t_step - t0) / (t1 - t0))%Q.
Proof.
  intros nb_step t_step t0 t1 t k w E. cbn [w_weights window_at] in E.
  assert (K : k < nb_step) by (apply nth_error_Some_lt in E; rewrite map_length, seq_length in E; exact E).
  split; [exact K|]. rewrite nth_error_map, nth_error_seq in E. destruct (Nat.ltb_spec k nb_step); [|lia]. cbn [option_map] in E. apply Some_inj in E. rewrite Nat.add_0_l in E. congruence.
Qed.
Lemma weight_time : forall t0 t1 x, ~ (t0 == t1)%Q -> let w := (1 - (x - t0) / (t1 - t0))%Q in (w * t0 + (1 - w) * t1 == x)%Q.
Proof. intros t0 t1 x N. cbv zeta. field. lra. Qed.
Lemma weight_range : forall d t0 t1 x, (d == 1 \/ d == - (1))%Q -> (0 < d * (t1 - t0))%Q ->
  let w := (1 - (x - t0) / (t1 - t0))%Q in ((0 <= w /\ w <= 1) <-> (d * t0 <= d * x /\ d * x <= d * t1))%Q.
Proof.
  intros d t0 t1 x DD P. cbv zeta.
  assert (E : ((x - t0) / (t1 - t0) == (d * (x - t0)) / (d * (t1 - t0)))%Q).
  { field. destruct DD as [H|H]; rewrite H in *; split; lra. }
  rewrite E. set (a := (d * (x - t0))%Q). set (b := (d * (t1 - t0))%Q) in *. assert (AB : (a / b == a * / b)%Q) by reflexivity.
  assert (IB : (0 < / b)%Q) by (apply Qinv_lt_0_compat; exact P). assert (M : (a / b * b == a)%Q) by (field; lra).
  set (q := (a / b)%Q) in *. clearbody q. split.
  - intros [W0 W1]. assert (0 <= a)%Q by nra. assert (a <= b)%Q by nra. unfold a, b in *. split; lra.
  - intros [X0 X1]. assert (0 <= a)%Q by (unfold a; lra). assert (a <= b)%Q by (unfold a, b; lra). split; nra.
Qed.

(** ** Dates used *)
Lemma filter_sorted : forall {A} (R : A -> A -> Prop) g l, StronglySorted R l -> StronglySorted R (filter g l).
Proof.
  intros A R g l H. induction H as [|a l S IH F]; cbn [filter]; [constructor|]. destruct (g a); [|exact IH]. constructor; [exact IH|].
  apply Forall_forall. intros x I. apply filter_In in I. rewrite Forall_forall in F. apply F. apply I.
Qed.
Lemma sorted_app_r : forall {A} (R : A -> A -> Prop) l l', StronglySorted R (l ++ l') -> StronglySorted R l' /\ forall a b, In a l -> In b l' -> R a b.
Proof.
  intros A R l l'. induction l as [|x l IH]; intros H; cbn [app] in H; [split; [exact H|intros a b []]|]. inversion H as [|? ? S F]; subst. destruct (IH S) as [A1 A2].
  split; [exact A1|]. intros a b [->|I] J; [rewrite Forall_forall in F; apply F; apply in_or_app; right; exact J|apply A2; auto].
Qed.
Lemma sorted_rev : forall {A} (R : A -> A -> Prop) l, StronglySorted R l -> StronglySorted (fun a b => R b a) (rev l).
Proof.
  intros A R l H. induction H as [|a l S IH F]; cbn [rev]; [constructor|].
  assert (X : forall (m : list A) x, StronglySorted (fun a b => R b a) m -> (forall y, In y m -> R x y) -> StronglySorted (fun a b => R b a) (m ++ [x])).
  { clear. intros m x H. induction H as [|a m S IH F]; intros Y; cbn [app]; [repeat constructor|]. constructor; [apply IH; intros; apply Y; right; auto|].
    apply Forall_forall. intros z I. apply in_app_or in I. destruct I as [I|[<-|[]]]; [rewrite Forall_forall in F; apply F; exact I|apply Y; left; reflexivity]. }
  apply X; [exact IH|]. intros y I. rewrite Forall_forall in F. apply F. apply in_rev. exact I.
Qed.
(** The dates used, in the order of use. *)
Definition dates_of (backward : bool) (times : list Q) (t_init : Q) : list Q := if backward then previous_times times t_init else next_times times t_init.
Definition dir (backward : bool) : Q := if backward then (-1)%Q else 1%Q.
Lemma dates_sorted : forall backward times t_init, StronglySorted Qlt times -> StronglySorted (fun a b => dir backward * a < dir backward * b)%Q (dates_of backward times t_init).
Proof.
  intros backward times t_init S. unfold dates_of, previous_times, next_times, dir. destruct backward; apply filter_sorted.
  - apply sorted_rev in S. induction S as [|a l S IH F]; constructor; auto. eapply Forall_impl; [|exact F]. intros b H. cbv beta in *. lra.
  - induction S as [|a l S IH F]; constructor; auto. eapply Forall_impl; [|exact F]. intros b H. lra.
Qed.
Lemma dates_In : forall backward times t_init c, In c (dates_of backward times t_init) <-> In c times /\ (dir backward * t_init <= dir backward * c)%Q.
Proof.
  intros backward times t_init c. unfold dates_of, previous_times, next_times, dir. destruct backward; rewrite filter_In; [rewrite <- in_rev|]; (split; intros [A B]; (split; [exact A|])).
  - apply negb_true_iff, Qlt_bool_false in B. lra.
  - apply negb_true_iff, Qlt_bool_false. lra.
  - apply negb_true_iff, Qlt_bool_false in B. lra.
  - apply negb_true_iff, Qlt_bool_false. lra.
Qed.
Lemma scale_dated : forall d D l, StronglySorted (fun a b => d * a < d * b)%Q l ->
  (forall a b, In a l -> In b l -> d * a < d * b -> D <= d * (b - a) * 86400)%Q -> dated d D (map (fun t => t * 86400)%Q l).
Proof.
  intros d D l S. induction S as [|a l S IH F]; intros G; [exact I|]. destruct l as [|b l]; [exact I|]. cbn [map dated]. inversion F as [|? ? AB _]; subst. split.
  - specialize (G a b (or_introl eq_refl) (or_intror (or_introl eq_refl)) AB). split; lra.
  - apply IH. intros x y X Y. apply G; right; assumption.
Qed.
Lemma scale_multiples : forall d D l, StronglySorted (fun a b => d * a < d * b)%Q l ->
  (forall a b, In a l -> In b l -> d * a < d * b -> exists k, (0 < k)%Z /\ d * (b - a) * 86400 == inject_Z k * D)%Q -> multiples d D (map (fun t => t * 86400)%Q l).
Proof.
  intros d D l S. induction S as [|a l S IH F]; intros G; [exact I|]. destruct l as [|b l]; [exact I|]. cbn [map multiples]. inversion F as [|? ? AB _]; subst. split.
  - destruct (G a b (or_introl eq_refl) (or_intror (or_introl eq_refl)) AB) as (k & K & E). exists k. split; [exact K|]. rewrite <- E. ring.
  - apply IH. intros x y X Y. apply G; right; assumption.
Qed.
Lemma first_date : forall backward times t_init t0 rest, StronglySorted Qlt times -> (exists c, In c times /\ (c == t_init)%Q) ->
  dates_of backward times t_init = t0 :: rest -> (t0 == t_init)%Q.
Proof.
  intros backward times t_init t0 rest S (c & C & E) H. pose proof (dates_sorted backward times t_init S) as SD. rewrite H in SD. inversion SD as [|? ? _ F]; subst.
  assert (C' : In c (dates_of backward times t_init)) by (apply dates_In; split; [exact C|rewrite E; lra]).
  assert (T0 : In t0 (dates_of backward times t_init)) by (rewrite H; left; reflexivity). apply dates_In in T0. destruct T0 as [_ T0].
  rewrite H in C'. destruct C' as [->|C']; [exact E|]. rewrite Forall_forall in F. specialize (F c C'). unfold dir in *. destruct backward; rewrite E in F; lra.
Qed.
(** What [advect_windows] returns comes from [windows]. *)
Lemma advect_windows_inv : forall backward nb_step time_step times t_init n ws, advect_windows backward nb_step time_step times t_init n = Some ws ->
  exists t0 t1 rest, dates_of backward times t_init = t0 :: t1 :: rest /\
   windows backward nb_step (if backward then - time_step else time_step)%Q n (t0 * 86400)%Q (t1 * 86400)%Q (t_init * 86400)%Q (map (fun t => t * 86400)%Q rest) = Some ws.
Proof.
  intros backward nb_step time_step times t_init n ws E. unfold advect_windows in E. fold (dates_of backward times t_init) in E.
  destruct (dates_of backward times t_init) as [|t0 [|t1 rest]]; try discriminate. exists t0, t1, rest. auto.
Qed.
Lemma follow_scaled : forall l a b, follow (map (fun t => t * 86400)%Q l) a b -> exists x y, a = (x * 86400)%Q /\ b = (y * 86400)%Q /\ follow l x y.
Proof.
  intros l a b (l1 & l2 & E). revert l E. induction l1 as [|c l1 IH]; intros l E; cbn [app] in E.
  - destruct l as [|x [|y l]]; try discriminate. cbn [map] in E. injection E as <- <- _. exists x, y. split; [reflexivity|]. split; [reflexivity|]. exists [], l. reflexivity.
  - destruct l as [|x l]; [discriminate|]. cbn [map] in E. injection E as _ E. destruct (IH l E) as (u & v & A & B & (m1 & m2 & C)). exists u, v. split; [exact A|]. split; [exact B|]. exists (x :: m1), m2. rewrite C. reflexivity.
Qed.
Lemma follow_next : forall (R : Q -> Q -> Prop) l a b, (forall x, ~ R x x) -> (forall x y, R x y -> ~ R y x) -> StronglySorted R l -> follow l a b ->
  In a l /\ In b l /\ R a b /\ forall c, In c l -> ~ (R a c /\ R c b).
Proof.
  intros R l a b IR AS S (l1 & l2 & ->). destruct (sorted_app_r _ _ _ S) as [S1 X]. inversion S1 as [|? ? S2 F]; subst. inversion F as [|? ? AB F']; subst. inversion S2 as [|? ? _ F2]; subst.
  split; [apply in_or_app; right; left; reflexivity|]. split; [apply in_or_app; right; right; left; reflexivity|]. split; [exact AB|].
  intros c C [AC CB]. apply in_app_or in C. destruct C as [C|[<-|[<-|C]]].
  - apply (AS a c AC). apply X; [exact C|left; reflexivity].
  - exact (IR _ AC).
  - exact (IR _ CB).
  - rewrite Forall_forall in F2. apply (AS _ _ CB). apply F2. exact C.
Qed.
