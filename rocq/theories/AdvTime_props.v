(** Properties of time weights (C62), of interpolation on a grid (C20) and of
    filaments (C86). *)
From Coq Require Import List Arith ZArith QArith Qround Qabs Bool Lia Lqa Sorted.
From Verif Require Import Base Qaux Split_model Grid_model Grid_path Grp_tracks Grp_more Adv_model Adv_spec Adv_proofs Adv_more Adv_time Adv_interp Adv_fil.
Import ListNotations.
Local Close Scope Q_scope.
Local Open Scope nat_scope.

(** ** C62: time weights *)

(** Seconds of a step, signed. *)
Definition signed (backward : bool) (time_step : Q) : Q := if backward then (- time_step)%Q else time_step.
(** Every release: release [k] is [k * nb_step] steps after the start; its two dates
    are dates of the collection with none between them, not before the start; and
    the weight of each step, or of half a step or a step later, is the one for
    which the mean of both dates is the time reached. *)
Theorem C62_weights : forall backward nb_step time_step times t_init n ws, StronglySorted Qlt times ->
  advect_windows backward nb_step time_step times t_init n = Some ws ->
  length ws = n /\ forall k w, nth_error ws k = Some w ->
    (w_time w == t_init * 86400 + inject_Z (Z.of_nat k * Z.of_nat nb_step) * signed backward time_step)%Q
    /\ (exists a b, w_t0 w = a * 86400 /\ w_t1 w = b * 86400 /\ In a times /\ In b times /\ dir backward * t_init <= dir backward * a
         /\ dir backward * a < dir backward * b /\ forall c, In c times -> ~ (dir backward * a < dir backward * c /\ dir backward * c < dir backward * b))%Q
    /\ length (w_weights w) = nb_step
    /\ forall j x, nth_error (w_weights w) j = Some x ->
        (x * w_t0 w + (1 - x) * w_t1 w == w_time w + inject_Z (Z.of_nat j) * signed backward time_step)%Q
        /\ ((x - w_half w) * w_t0 w + (1 - (x - w_half w)) * w_t1 w == w_time w + (inject_Z (Z.of_nat j) + (1 # 2)) * signed backward time_step)%Q
        /\ ((x - w_half w - w_half w) * w_t0 w + (1 - (x - w_half w - w_half w)) * w_t1 w == w_time w + (inject_Z (Z.of_nat j) + 1) * signed backward time_step)%Q.
Proof.
  intros backward nb_step time_step times t_init n ws S E. destruct (advect_windows_inv _ _ _ _ _ _ _ E) as (t0 & t1 & rest & DT & W). fold (signed backward time_step) in W.
  destruct (windows_follow backward nb_step time_step n _ _ _ _ ws W) as [LEN H]. split; [exact LEN|]. intros k w N. destruct (H k w N) as (F & T & WA).
  split; [exact T|].
  assert (D0 : exists a b, w_t0 w = (a * 86400)%Q /\ w_t1 w = (b * 86400)%Q /\ follow (t0 :: t1 :: rest) a b).
  { apply (follow_scaled (t0 :: t1 :: rest)). exact F. }
  destruct D0 as (a & b & A & B & FO). rewrite <- DT in FO.
  destruct (follow_next (fun a b => dir backward * a < dir backward * b)%Q (dates_of backward times t_init) a b) as (IA & IB & AB & NB); [intros x; apply Qlt_irrefl|intros x y X Y; lra|apply dates_sorted; exact S|exact FO|].
  split.
  { exists a, b. apply dates_In in IA. destruct IA as [IA IA']. pose proof IB as IB0. apply dates_In in IB. destruct IB as [IB _].
    repeat (split; [assumption|]). intros c C [X Y]. apply (NB c); [apply dates_In; split; [exact C|lra]|auto]. }
  assert (NE : ~ (w_t0 w == w_t1 w)%Q). { rewrite A, B. unfold dir in AB. destruct backward; lra. }
  split; [rewrite WA; cbn [w_weights window_at]; rewrite map_length, seq_length; reflexivity|].
  intros j x X. rewrite WA in X. apply weight_nth in X. destruct X as [_ ->]. change (if backward then (- time_step)%Q else time_step) with (signed backward time_step).
  assert (HW : w_half w = (signed backward time_step / 2 / (w_t1 w - w_t0 w))%Q) by (rewrite WA at 1; reflexivity).
  set (st := signed backward time_step) in *. set (u := w_t0 w) in *. set (v := w_t1 w) in *. rewrite HW. assert (~ (v - u == 0)%Q) by lra.
  repeat split; field; assumption.
Qed.
Print Assumptions C62_weights.

(** Hypotheses of a regular use: increasing dates, the start is one of them. *)
Definition regular_start (times : list Q) (t_init : Q) : Prop := StronglySorted Qlt times /\ exists c, In c times /\ (c == t_init)%Q.
(** Length of a release. *)
Definition release (nb_step : nat) (time_step : Q) : Q := (inject_Z (Z.of_nat nb_step) * time_step)%Q.
(** With intervals between dates at least as long as a release, each release starts
    at or after its first date and before its second one. *)
Theorem C62_between : forall backward nb_step time_step times t_init n ws, regular_start times t_init -> (0 <= time_step)%Q ->
  (forall a b, In a times -> In b times -> (a < b)%Q -> (release nb_step time_step <= (b - a) * 86400)%Q) ->
  advect_windows backward nb_step time_step times t_init n = Some ws -> forall w, In w ws ->
  (dir backward * w_t0 w <= dir backward * w_time w /\ dir backward * w_time w < dir backward * w_t1 w)%Q.
Proof.
  intros backward nb_step time_step times t_init n ws [S ST] P G E w I. destruct (advect_windows_inv _ _ _ _ _ _ _ E) as (t0 & t1 & rest & DT & W).
  pose proof (first_date _ _ _ _ _ S ST DT) as T0. pose proof (dates_sorted backward times t_init S) as SD. rewrite DT in SD.
  refine (windows_between backward nb_step time_step _ n _ _ _ _ ws _ _ _ W w I).
  - apply Qmult_le_0_compat; [apply (inject_Z_le_iff 0); lia|exact P].
  - apply (scale_dated _ _ (t0 :: t1 :: rest)); [exact SD|]. rewrite <- DT. intros a b A B L. apply dates_In in A. apply dates_In in B. destruct A as [A _]. destruct B as [B _]. unfold dir in L. change (release nb_step time_step <= dir backward * (b - a) * 86400)%Q. unfold dir. destruct backward.
    + assert (X : (b < a)%Q) by lra. specialize (G b a B A X). lra.
    + assert (X : (a < b)%Q) by lra. specialize (G a b A B X). lra.
  - rewrite T0. apply Qle_refl.
  - right. inversion SD as [|? ? _ F]; subst. inversion F as [|? ? L _]; subst. unfold dir in L. destruct backward; lra.
Qed.
Print Assumptions C62_between.
(** If each interval is a whole number of releases, each release ends at or before
    its second date, and all the weights are between 0 and 1 (at the steps, half
    steps and whole steps), so both weights are non negative with sum one. *)
Theorem C62_range : forall backward nb_step time_step times t_init n ws, regular_start times t_init -> (0 < release nb_step time_step)%Q ->
  (forall a b, In a times -> In b times -> (a < b)%Q -> exists k, (0 < k)%Z /\ ((b - a) * 86400 == inject_Z k * release nb_step time_step)%Q) ->
  advect_windows backward nb_step time_step times t_init n = Some ws -> forall w, In w ws ->
  (dir backward * w_t0 w <= dir backward * w_time w /\ dir backward * w_time w + release nb_step time_step <= dir backward * w_t1 w)%Q
  /\ forall x, In x (w_weights w) -> (0 <= x /\ x <= 1 /\ 0 <= x - w_half w /\ x - w_half w <= 1 /\ 0 <= x - w_half w - w_half w /\ x - w_half w - w_half w <= 1)%Q.
Proof.
  intros backward nb_step time_step times t_init n ws [S ST] P G E w I. pose proof E as E0. destruct (advect_windows_inv _ _ _ _ _ _ _ E) as (t0 & t1 & rest & DT & W).
  pose proof (first_date _ _ _ _ _ S ST DT) as T0. pose proof (dates_sorted backward times t_init S) as SD. rewrite DT in SD.
  assert (G' : forall a b, In a (t0 :: t1 :: rest) -> In b (t0 :: t1 :: rest) -> (dir backward * a < dir backward * b)%Q -> exists k, (0 < k)%Z /\ (dir backward * (b - a) * 86400 == inject_Z k * release nb_step time_step)%Q).
  { rewrite <- DT. intros a b A B L. apply dates_In in A. apply dates_In in B. destruct A as [A _]. destruct B as [B _]. unfold dir in *. destruct backward.
    - assert (X : (b < a)%Q) by lra. destruct (G b a B A X) as (k & K & EK). exists k. split; [exact K|]. rewrite <- EK. ring.
    - assert (X : (a < b)%Q) by lra. destruct (G a b A B X) as (k & K & EK). exists k. split; [exact K|]. rewrite <- EK. ring. }
  assert (BT : (dir backward * w_t0 w <= dir backward * w_time w /\ dir backward * w_time w + release nb_step time_step <= dir backward * w_t1 w)%Q).
  { refine (windows_whole backward nb_step time_step P n _ _ _ _ ws _ _ _ W w I).
    - apply (scale_multiples _ _ (t0 :: t1 :: rest)); [exact SD|exact G'].
    - rewrite T0. apply Qle_refl.
    - destruct (G' t0 t1) as (k & K & EK); [left; reflexivity|right; left; reflexivity|inversion SD as [|? ? _ F]; subst; inversion F; subst; assumption|].
      exists k. split; [lia|]. change (release nb_step time_step) with (inject_Z (Z.of_nat nb_step) * time_step)%Q in EK. rewrite <- EK. rewrite <- T0. unfold dir. destruct backward; ring. }
  split; [exact BT|]. intros x X.
  destruct (windows_follow backward nb_step time_step n _ _ _ _ ws W) as [_ H]. apply In_nth_error in I. destruct I as (k & N). destruct (H k w N) as (_ & _ & WA).
  apply In_nth_error in X. destruct X as (j & X). rewrite WA in X. apply weight_nth in X. destruct X as [J ->].
  assert (HW : w_half w = (signed backward time_step / 2 / (w_t1 w - w_t0 w))%Q) by (rewrite WA at 1; reflexivity).
  assert (TS : (0 < time_step)%Q).
  { unfold release in P. assert (0 <= inject_Z (Z.of_nat nb_step))%Q by (apply (inject_Z_le_iff 0); lia). nra. }
  assert (JJ : (inject_Z (Z.of_nat j) + 1 <= inject_Z (Z.of_nat nb_step))%Q).
  { change 1%Q with (inject_Z 1). rewrite <- inject_Z_plus. apply inject_Z_le_iff. lia. }
  assert (J0 : (0 <= inject_Z (Z.of_nat j))%Q) by (apply (inject_Z_le_iff 0); lia).
  unfold release in BT. set (jj := inject_Z (Z.of_nat j)) in *. set (nb := inject_Z (Z.of_nat nb_step)) in *.
  assert (DS : forall y, (dir backward * (y * (if backward then - time_step else time_step)) == y * time_step)%Q) by (intros; unfold dir; destruct backward; ring).
  assert (PG : (0 < dir backward * (w_t1 w - w_t0 w))%Q) by (unfold release in P; fold nb in P; lra).
  assert (DD : (dir backward == 1 \/ dir backward == - (1))%Q) by (unfold dir; destruct backward; [right|left]; reflexivity).
  assert (NZ : ~ (w_t1 w - w_t0 w == 0)%Q) by (intros Z0; rewrite Z0 in PG; lra).
  assert (R : forall y, (0 <= y)%Q -> (y <= nb)%Q -> (0 <= 1 - (w_time w + y * (if backward then - time_step else time_step) - w_t0 w) / (w_t1 w - w_t0 w) /\ 1 - (w_time w + y * (if backward then - time_step else time_step) - w_t0 w) / (w_t1 w - w_t0 w) <= 1)%Q).
  { intros y Y0 Y1. apply (weight_range (dir backward)); auto. rewrite Qmult_plus_distr_r, DS. assert (0 <= y * time_step)%Q by nra. assert (y * time_step <= nb * time_step)%Q by nra. split; lra. }
  rewrite HW. set (u := w_t0 w) in *. set (v := w_t1 w) in *. set (st := if backward then (- time_step)%Q else time_step) in *.
  assert (E1 : (1 - (w_time w + jj * st - u) / (v - u) - signed backward time_step / 2 / (v - u) == 1 - (w_time w + (jj + (1 # 2)) * st - u) / (v - u))%Q) by (change (signed backward time_step) with st; field; exact NZ).
  assert (E2 : (1 - (w_time w + jj * st - u) / (v - u) - signed backward time_step / 2 / (v - u) - signed backward time_step / 2 / (v - u) == 1 - (w_time w + (jj + 1) * st - u) / (v - u))%Q) by (change (signed backward time_step) with st; field; exact NZ).
  pose proof (R jj J0 ltac:(lra)) as R0. pose proof (R (jj + (1 # 2))%Q ltac:(lra) ltac:(lra)) as R1. pose proof (R (jj + 1)%Q ltac:(lra) JJ) as R2.
  rewrite E2, E1. tauto.
Qed.
Print Assumptions C62_range.
(** The releases exist as long as the last start is before some date. *)
Theorem C62_total : forall backward nb_step time_step times t_init n c, regular_start times t_init -> (0 <= time_step)%Q ->
  (forall a b, In a times -> In b times -> (a < b)%Q -> (release nb_step time_step <= (b - a) * 86400)%Q) ->
  In c times -> (0 < dir backward * (c - t_init))%Q -> (inject_Z (Z.of_nat n) * release nb_step time_step < dir backward * (c - t_init) * 86400 + release nb_step time_step)%Q ->
  exists ws, advect_windows backward nb_step time_step times t_init n = Some ws.
Proof.
  intros backward nb_step time_step times t_init n c [S ST] P G C L1 L. unfold advect_windows. fold (dates_of backward times t_init).
  assert (CD : In c (dates_of backward times t_init)) by (apply dates_In; split; [exact C|lra]).
  destruct ST as (c0 & C0 & E0). assert (CD0 : In c0 (dates_of backward times t_init)) by (apply dates_In; split; [exact C0|rewrite E0; lra]).
  assert (NE : ~ (c0 == c)%Q) by (intros X; rewrite <- X, E0 in L1; lra).
  pose proof (dates_sorted backward times t_init S) as SD. pose proof (fun t0 rest => first_date backward times t_init t0 rest S (ex_intro _ c0 (conj C0 E0))) as FD.
  assert (IT : forall a, In a (dates_of backward times t_init) -> In a times) by (intros a A; apply dates_In in A; apply A).
  destruct (dates_of backward times t_init) as [|t0 [|t1 rest]]; [destruct CD|destruct CD as [<-|[]]; destruct CD0 as [<-|[]]; exfalso; apply NE; reflexivity|].
  specialize (FD t0 (t1 :: rest) eq_refl).
  assert (DA : dated (dir backward) (release nb_step time_step) (map (fun t => t * 86400)%Q (t0 :: t1 :: rest))).
  { apply scale_dated; [exact SD|]. intros a b A B LT. apply IT in A. apply IT in B. unfold dir in *. destruct backward.
    - assert (X : (b < a)%Q) by lra. specialize (G b a B A X). lra.
    - assert (X : (a < b)%Q) by lra. specialize (G a b A B X). lra. }
  refine (windows_total backward nb_step time_step _ n _ _ _ _ DA _ _ _).
  - apply Qmult_le_0_compat; [apply (inject_Z_le_iff 0); lia|exact P].
  - rewrite FD. apply Qle_refl.
  - right. inversion SD as [|? ? _ F]; subst. inversion F as [|? ? LT _]; subst. unfold dir in LT. destruct backward; lra.
  - assert (LA : (dir backward * c * 86400 <= dir backward * last ((t1 * 86400)%Q :: map (fun t => t * 86400)%Q rest) (t1 * 86400)%Q)%Q).
    { assert (CR : In c (t1 :: rest)).
      { destruct CD as [<-|CD]; [|exact CD]. rewrite FD in L1. lra. }
      inversion SD as [|? ? SR _]; subst. clear -CR SR. revert c t1 CR SR. induction rest as [|x rest IH]; intros c t1 CR SR.
      - destruct CR as [<-|[]]. cbn [last map]. lra.
      - inversion SR as [|? ? SR' F]; subst. cbn [map]. rewrite (last_default _ _ _ (x * 86400)%Q).
        change (last ((t1 * 86400)%Q :: (x * 86400)%Q :: map (fun t => t * 86400)%Q rest) (x * 86400)%Q) with (last ((x * 86400)%Q :: map (fun t => t * 86400)%Q rest) (x * 86400)%Q).
        destruct CR as [<-|CR]; [|apply IH; auto]. eapply Qle_trans; [|apply (IH x x (or_introl eq_refl) SR')]. inversion F; subst. lra. }
    change (inject_Z (Z.of_nat nb_step) * time_step)%Q with (release nb_step time_step).
    match goal with |- context [last ?l ?e] => change (last l e) with (last ((t1 * 86400)%Q :: map (fun t => t * 86400)%Q rest) (t1 * 86400)%Q) end.
    set (la := last _ _) in *. clearbody la. unfold dir in *. destruct backward; lra.
Qed.
Print Assumptions C62_total.
Definition ex_times : list Q := [10; 11; 12; 13]%Q.
Example C62_case : regular_start ex_times 11 /\ (0 < release 6 7200)%Q
  /\ (forall a b, In a ex_times -> In b ex_times -> (a < b)%Q -> exists k, (0 < k)%Z /\ ((b - a) * 86400 == inject_Z k * release 6 7200)%Q)
  /\ option_map (map (fun w => map Qred (w_weights w))) (advect_windows false 2 21600 ex_times 11 3) = Some [[1; 3 # 4]; [1 # 2; 1 # 4]; [1; 3 # 4]]%Q
  /\ option_map (map (fun w => (Qred (w_t0 w / 86400), Qred (w_t1 w / 86400)))) (advect_windows true 4 21600 ex_times 12 2) = Some [(12, 11); (11, 10)]%Q.
Proof.
  split; [split; [repeat constructor|exists 11%Q; split; [cbn; tauto|reflexivity]]|]. split; [reflexivity|].
  split; [|vm_compute; split; reflexivity].
  intros a b A B L. unfold ex_times in A, B. cbn [In] in A, B.
  assert (X : forall k, (0 < k)%Z -> ((b - a) * 86400 == inject_Z k * release 6 7200)%Q -> exists k, (0 < k)%Z /\ ((b - a) * 86400 == inject_Z k * release 6 7200)%Q) by eauto.
  destruct A as [<-|[<-|[<-|[<-|[]]]]]; destruct B as [<-|[<-|[<-|[<-|[]]]]]; try (exfalso; lra); first [apply (X 2%Z); [lia|reflexivity]|apply (X 4%Z); [lia|reflexivity]|apply (X 6%Z); [lia|reflexivity]].
Qed.
(** Otherwise weights leave [0, 1]: start between two dates, releases which do not
    divide the intervals, intervals shorter than a release (one shift at most). *)
Theorem C62_refuted :
  option_map (map (fun w => map Qred (w_weights w))) (advect_windows false 1 21600 [0; 1; 2]%Q (1 # 2) 1) = Some [[3 # 2]]%Q
  /\ option_map (map (fun w => map Qred (w_weights w))) (advect_windows false 2 36000 [0; 1; 2]%Q 0 2) = Some [[1; 7 # 12]; [1 # 6; - 1 # 4]]%Q
  /\ option_map (map (fun w => map Qred (w_weights w))) (advect_windows false 1 259200 [0; 1; 2; 3; 4; 5]%Q 0 3) = Some [[1]; [- 1]; [-3]]%Q.
Proof. vm_compute. repeat split; reflexivity. Qed.
Print Assumptions C62_refuted.

(** Interpolation in time of a collection of daily dates: for a non negative time
    the value is the mean of both dates around it, with non negative weights. *)
Theorem C62_interp : forall times value t r, (0 <= t)%Q -> interp_time times value t = Some r ->
  exists d w, (inject_Z d <= t)%Q /\ (t < inject_Z d + 1)%Q /\ (w == t - inject_Z d)%Q /\ (0 <= w /\ w < 1)%Q
  /\ (exists c, In c times /\ (c == inject_Z d)%Q) /\ (exists c, In c times /\ (c == inject_Z d + 1)%Q)
  /\ match value (inject_Z d), value (inject_Z d + 1)%Q with
     | Some v0, Some v1 => exists v, r = Some v /\ (v == v0 * (1 - w) + v1 * w)%Q
     | _, _ => r = None
     end.
Proof.
  intros times value t r P E. unfold interp_time in E. exists (trunc t). set (d := trunc t) in *.
  assert (F : d = Qfloor t) by (apply trunc_floor; exact P). destruct (Qfloor_bounds t) as [A B]. rewrite <- F in A, B.
  destruct (existsb (Qeq_bool (inject_Z d)) times) eqn:E0; [|discriminate]. destruct (existsb (Qeq_bool (inject_Z d + 1)) times) eqn:E1; [|discriminate]. cbn [negb orb] in E. apply Some_inj in E.
  exists ((t - inject_Z d) / (inject_Z d + 1 - inject_Z d))%Q.
  assert (W : ((t - inject_Z d) / (inject_Z d + 1 - inject_Z d) == t - inject_Z d)%Q) by (field; intros X; lra).
  repeat split; auto; try (rewrite W; lra).
  - apply existsb_exists in E0. destruct E0 as (c & C & X). exists c. split; [exact C|]. apply Qeq_bool_iff in X. symmetry. exact X.
  - apply existsb_exists in E1. destruct E1 as (c & C & X). exists c. split; [exact C|]. apply Qeq_bool_iff in X. symmetry. exact X.
  - subst r. destruct (value (inject_Z d)), (value (inject_Z d + 1)%Q); auto. eexists. split; [reflexivity|]. ring.
Qed.
Print Assumptions C62_interp.
Example C62_interp_case : option_map (option_map Qred) (interp_time [0; 1; 2]%Q (fun t => Some (t * t)%Q) (5 # 4)) = Some (Some (7 # 4)%Q).
Proof. vm_compute. reflexivity. Qed.
(** Before time 0 the dates are not the ones around: values are extrapolated. *)
Theorem C62_interp_refuted : option_map (option_map Qred) (interp_time [-1; 0; 1]%Q (fun t => Some (t * t)%Q) (- 1 # 2)) = Some (Some (- 1 # 2)%Q).
Proof. vm_compute. reflexivity. Qed.
Print Assumptions C62_interp_refuted.

(** ** C20: interpolation on a grid *)

(** Each value is a function of its point: the corners kept from the point before
    change nothing.  Points of one cell far out of the grid are excluded. *)
Theorem C20_alone : forall x_g y_g f z m ps, frame_of x_g y_g = Some f -> matrix z (f_nx f) (f_ny f) -> matrix m (f_nx f) (f_ny f) ->
  (forall p, In p ps -> ~ (cell_x f p = -100000000 /\ cell_y f p = -10000000)%Z) ->
  interp2d_bilinear x_g y_g z m ps = Some (map (value_at f z m) ps).
Proof. exact interp2d_bilinear_spec. Qed.
Print Assumptions C20_alone.
(** Values stay between the values of the grid. *)
Theorem C20_between : forall f z m p v lo hi, matrix z (f_nx f) (f_ny f) -> (0 < f_nx f)%Z -> all_between lo hi z ->
  value_at f z m p = Some v -> (lo <= v /\ v <= hi)%Q.
Proof. exact value_between. Qed.
Print Assumptions C20_between.
(** A field a + b x + c y + d x y is reproduced exactly (so values at nodes are
    those of the nodes). *)
Theorem C20_exact : forall f z m p v A B C D, ~ (f_xs f == 0)%Q -> ~ (f_ys f == 0)%Q ->
  (forall i j, (0 <= i < f_nx f)%Z -> (0 <= j < f_ny f)%Z ->
    let x := (f_x0 f + inject_Z i * f_xs f)%Q in let y := (f_y0 f + inject_Z j * f_ys f)%Q in (node 0%Q z i j == A + B * x + C * y + D * x * y)%Q) ->
  (0 <= cell_x f p)%Z -> (cell_x f p + 1 < f_nx f)%Z -> value_at f z m p = Some v ->
  (v == A + B * fst p + C * snd p + D * fst p * snd p)%Q.
Proof. exact value_exact. Qed.
Print Assumptions C20_exact.
(** On a circular grid, turns of longitude change nothing. *)
Theorem C20_turn : forall f z m p q k, ~ (f_xs f == 0)%Q -> (0 < f_nx f)%Z -> f_circ f = true \/ k = 0%Z -> apart (inject_Z (k * f_nx f) * f_xs f) p q ->
  match value_at f z m p, value_at f z m q with Some v, Some w => (v == w)%Q | None, None => True | _, _ => False end.
Proof. exact value_turn. Qed.
Print Assumptions C20_turn.
(** Nothing is given (nan) exactly when the cell is not in the grid or has a masked
    corner. *)
Theorem C20_missing : forall f z m p, value_at f z m p = None <->
  (f_circ f = false /\ (cell_x f p < 0 \/ f_nx f <= cell_x f p + 1)%Z) \/ (cell_y f p < 0 \/ f_ny f <= cell_y f p + 1)%Z
  \/ (let j := row f (cell_y f p) in let j' := row f (cell_y f p + 1) in let i := col f (cell_x f p) in let i' := col f (cell_x f p + 1) in
      node true m i j = true \/ node true m i j' = true \/ node true m i' j = true \/ node true m i' j' = true).
Proof.
  intros f z m p. unfold value_at. cbv zeta. set (i := cell_x f p). set (j := cell_y f p).
  assert (X : negb (f_circ f) && ((i <? 0) || (f_nx f <=? i + 1))%Z = true <-> f_circ f = false /\ (i < 0 \/ f_nx f <= i + 1)%Z).
  { rewrite andb_true_iff, negb_true_iff, orb_true_iff, Z.ltb_lt, Z.leb_le. tauto. }
  assert (Y : ((j <? 0) || (f_ny f <=? j + 1))%Z = true <-> (j < 0 \/ f_ny f <= j + 1)%Z) by (rewrite orb_true_iff, Z.ltb_lt, Z.leb_le; tauto).
  destruct (negb (f_circ f) && _) eqn:E1; [split; auto; intros _; left; apply X; reflexivity|].
  destruct ((j <? 0) || (f_ny f <=? j + 1))%Z eqn:E2; [split; auto; intros _; right; left; apply Y; reflexivity|].
  unfold four. destruct (node true m (col f i) (row f j)), (node true m (col f i) (row f (j + 1))), (node true m (col f (i + 1)) (row f j)), (node true m (col f (i + 1)) (row f (j + 1))); cbn [orb]; split; intros H; try discriminate H; try reflexivity; try tauto.
  exfalso. destruct H as [H|[H|H]]; [apply X in H; discriminate H|apply Y in H; discriminate H|]. destruct H as [H|[H|[H|H]]]; discriminate H.
Qed.
Print Assumptions C20_missing.
(** A grid for the cases: circular, value x + 2 y except column 3. *)
Definition in_f : frame := {| f_x0 := 0; f_y0 := 0; f_xs := 120; f_ys := 1; f_nx := 3; f_ny := 3; f_circ := true |}.
Definition in_z : list (list Q) := [[0; 2; 4]; [120; 122; 124]; [240; 242; 244]]%Q.
Definition in_m : list (list bool) := [[false; false; false]; [false; false; false]; [false; false; true]].
Example C20_case : frame_of [0; 120; 240]%Q [0; 1; 2]%Q = Some in_f /\ matrix in_z 3 3 /\ matrix in_m 3 3
  /\ (forall i j, (0 <= i < 3)%Z -> (0 <= j < 3)%Z -> (node 0%Q in_z i j == 0 + 1 * (0 + inject_Z i * 120) + 2 * (0 + inject_Z j * 1) + 0 * (0 + inject_Z i * 120) * (0 + inject_Z j * 1))%Q)
  /\ option_map (map (option_map Qred)) (interp2d_bilinear [0; 120; 240]%Q [0; 1; 2]%Q in_z in_m [(60, 1 # 2); (180, 1 # 4); (300, 1 # 4); (-60, 1 # 4); (180, 3 # 2); (60, -1); (60, 2)]%Q)
    = Some [Some 61; Some (361 # 2); Some (241 # 2); Some (241 # 2); None; None; None]%Q.
Proof.
  split; [vm_compute; reflexivity|]. split; [split; [reflexivity|repeat constructor]|]. split; [split; [reflexivity|repeat constructor]|].
  split; [|vm_compute; reflexivity]. intros i j I J. assert (i = 0 \/ i = 1 \/ i = 2)%Z as [->|[->| ->]] by lia; assert (j = 0 \/ j = 1 \/ j = 2)%Z as [->|[->| ->]] by lia; reflexivity.
Qed.
(** The other interpolation takes the nearest node: each value is the one of a node
    at most half a step away on each axis (after turns on a circular grid), and is
    missing exactly when this node is not in the grid; masks are not used. *)
Theorem C20_nearest : forall x_g y_g f z ps, frame_of x_g y_g = Some f -> matrix z (f_nx f) (f_ny f) -> (0 < f_xs f)%Q -> (0 < f_ys f)%Q ->
  exists r, interp2d_nearest x_g y_g z ps = Some r /\ length r = length ps /\
   forall k p v, nth_error ps k = Some p -> nth_error r k = Some v -> exists i j,
     (Qabs (f_x0 f + inject_Z i * f_xs f - fst p) <= f_xs f / 2)%Q /\ (Qabs (f_y0 f + inject_Z j * f_ys f - snd p) <= f_ys f / 2)%Q
     /\ v = if ((0 <=? col f i) && (col f i <? f_nx f) && (0 <=? j) && (j <? f_ny f))%Z then Some (node 0%Q z (col f i) j) else None.
Proof.
  intros x_g y_g f z ps E M XS YS. destruct (frame_sizes _ _ _ E) as (A & _ & B & _). unfold interp2d_nearest. rewrite E. cbn [bind].
  eexists. split; [apply map_opt_total; intros p _; apply nearest_at_spec; [exact M|lia]|]. split; [apply map_length|].
  intros k p v K R. rewrite nth_error_map, K in R. cbn [option_map] in R. apply Some_inj in R.
  exists (qround ((fst p - f_x0 f) / f_xs f)), (qround ((snd p - f_y0 f) / f_ys f)). split; [|split; [|symmetry; exact R]].
  - pose proof (qround_near ((fst p - f_x0 f) / f_xs f)) as H. apply Qabs_Qle_condition in H. apply Qabs_Qle_condition.
    assert (X : ((fst p - f_x0 f) / f_xs f * f_xs f == fst p - f_x0 f)%Q) by (field; lra). set (q := ((fst p - f_x0 f) / f_xs f)%Q) in *. set (n := inject_Z (qround q)) in *. clearbody q n.
    assert (HF : (f_xs f / 2 == (1 # 2) * f_xs f)%Q) by field. rewrite HF. split; nra.
  - pose proof (qround_near ((snd p - f_y0 f) / f_ys f)) as H. apply Qabs_Qle_condition in H. apply Qabs_Qle_condition.
    assert (X : ((snd p - f_y0 f) / f_ys f * f_ys f == snd p - f_y0 f)%Q) by (field; lra). set (q := ((snd p - f_y0 f) / f_ys f)%Q) in *. set (n := inject_Z (qround q)) in *. clearbody q n.
    assert (HF : (f_ys f / 2 == (1 # 2) * f_ys f)%Q) by field. rewrite HF. split; nra.
Qed.
Print Assumptions C20_nearest.
Example C20_nearest_case : option_map (map (option_map Qred)) (interp2d_nearest [0; 120; 240]%Q [0; 1; 2]%Q in_z [(70, 3 # 4); (350, 0); (0, 3)]%Q) = Some [Some 122; Some 0; None]%Q.
Proof. vm_compute. reflexivity. Qed.

(** ** C86: filaments *)

(** After the releases [history] (positions of all the particles after each one,
    [start] before), slot [s] of the filament of particle [i] holds its position [s]
    releases ago, nothing if there were fewer, and the last slot, which separates
    two filaments, is always empty. *)
Theorem C86_slots : forall {A} size history (start : list (option A)) i s, 1 <= size -> Forall (fun h => length h = length start) history -> i < length start -> s < size ->
  length (filament size start history) = length start * S size
  /\ nth_error (filament size start history) (i * S size + s)
     = (if s <=? length history then let! h := nth_error (start :: history) (length history - s) in nth_error h i else Some None)
  /\ nth_error (filament size start history) (i * S size + size) = Some None.
Proof. intros A size history start i s L. apply filament_slot. exact L. Qed.
Print Assumptions C86_slots.
Example C86_case : filament 3 [Some 10; Some 20] [[Some 11; Some 21]; [Some 12; None]; [Some 13; None]]
  = [Some 13; Some 12; Some 11; None; None; None; Some 21; None].
Proof. reflexivity. Qed.
(** A filament of no point keeps the last position in its separating slot: the
    filaments are not separated. *)
Theorem C86_zero_refuted : filament 0 [Some 10; Some 20] [[Some 11; Some 21]] = [Some 11; Some 21].
Proof. reflexivity. Qed.
Print Assumptions C86_zero_refuted.
