(** Properties of the coherence of segments. *)
From Coq Require Import List Arith ZArith QArith Qabs Bool Lia Lqa.
From Verif Require Import Base Qaux Corr_model Generic_model Split_model Obs_model Obs_align Grp_model Grp_spec Grp_targets Grp_tracks Match_props Coh_model.
Import ListNotations.
Local Close Scope Q_scope.
Local Open Scope nat_scope.

(** ** C115: coherence of all the dates *)

(** The rows of a date, in order. *)
Definition dated (ds : list Z) (d : Z) (rows : list nat) : Prop := incr rows /\ forall q, In q rows <-> nth_error ds q = Some d.
(** Pairs of fields used from date [d], one by day, [sg] being the direction. *)
Definition fields_used {D} (data : Z -> D) (sg d : Z) (n : nat) : list (D * D * Z * Z) :=
  map (fun k => (data (d + sg * Z.of_nat k)%Z, data (d + sg * (Z.of_nat k + 1))%Z, 0%Z, sg)) (seq 0 n).
(** What row [p] of date [d] receives: the two best targets among the rows dated
    [d + sg * n], for the particles of the rows dated [d] moved by the fields of
    the days between. *)
Definition coherent {D P} (ds : list Z) (data : Z -> D) (seeds : list nat -> list P) (origin : list nat -> list nat)
    (moved : list (D * D * Z * Z) -> list P -> list P) (holder : list nat -> list P -> list (option nat)) (sg d : Z) (n p : nat) (best : best2) : Prop :=
  exists rows rows_end k b, dated ds d rows /\ dated ds (d + sg * Z.of_nat n)%Z rows_end /\ nth_error rows k = Some p /\
    best = renamed rows_end b /\
    let ends := holder rows_end (moved (fields_used data sg d n) (seeds rows)) in
    two_best whole (reached (origin rows) ends (length rows_end) k) (percent (origin rows) ends k) b.

Section Proofs.
Context {D P : Type}.
Variables (load : Z -> option D) (data : Z -> D).

Fixpoint days (sg t : Z) (m : nat) : list (Z * D) := match m with O => [] | S m' => (t, data t) :: days sg (t + sg)%Z m' end.
Fixpoint pairs (sg t : Z) (m : nat) : list (D * D * Z * Z) := match m with O => [] | S m' => (data t, data (t + sg)%Z, 0%Z, sg) :: pairs sg (t + sg)%Z m' end.
Lemma pairs_used : forall sg m t, pairs sg t m = fields_used data sg t m.
Proof.
  intros sg m t. unfold fields_used. assert (G : forall m t k0, pairs sg (t + sg * Z.of_nat k0)%Z m = map (fun k => (data (t + sg * Z.of_nat k)%Z, data (t + sg * (Z.of_nat k + 1))%Z, 0%Z, sg)) (seq k0 m)).
  { induction m0 as [|m0 IH]; intros t0 k0; [reflexivity|]. cbn [pairs seq map]. f_equal.
    - replace (t0 + sg * (Z.of_nat k0 + 1))%Z with (t0 + sg * Z.of_nat k0 + sg)%Z by lia. reflexivity.
    - rewrite <- IH. f_equal. lia. }
  rewrite <- G. f_equal. lia.
Qed.
Lemma days_snoc : forall sg m t, days sg t m ++ [((t + sg * Z.of_nat m)%Z, data (t + sg * Z.of_nat m)%Z)] = days sg t (S m).
Proof.
  induction m as [|m IH]; intros t.
  - cbn [days app]. replace (t + sg * Z.of_nat 0)%Z with t by lia. reflexivity.
  - cbn [days app]. f_equal. specialize (IH (t + sg)%Z). cbn [days] in IH. rewrite <- IH. replace (t + sg + sg * Z.of_nat m)%Z with (t + sg * Z.of_nat (S m))%Z by lia. reflexivity.
Qed.
Lemma days_rev : forall m t, rev (days 1 t m) = days (-1) (t + Z.of_nat m - 1)%Z m.
Proof.
  induction m as [|m IH]; intros t; [reflexivity|]. rewrite <- (days_snoc 1 m t), rev_app_distr. cbn [rev app]. rewrite IH. cbn [days]. f_equal; [|f_equal; lia].
  replace (t + Z.of_nat (S m) - 1)%Z with (t + 1 * Z.of_nat m)%Z by lia. reflexivity.
Qed.
Lemma days_fst : forall sg m t x, In x (days sg t m) -> exists k, k < m /\ x = ((t + sg * Z.of_nat k)%Z, data (t + sg * Z.of_nat k)%Z).
Proof.
  induction m as [|m IH]; intros t x I; [destruct I|]. destruct I as [<-|I].
  - exists 0. split; [lia|]. replace (t + sg * Z.of_nat 0)%Z with t by lia. reflexivity.
  - destruct (IH _ _ I) as (k & L & ->). exists (S k). split; [lia|]. replace (t + sg + sg * Z.of_nat k)%Z with (t + sg * Z.of_nat (S k))%Z by lia. reflexivity.
Qed.
Lemma filter_all : forall {A} (f : A -> bool) l, (forall x, In x l -> f x = true) -> filter f l = l.
Proof. induction l as [|a l IH]; intros H; [reflexivity|]. cbn [filter]. rewrite (H a (or_introl eq_refl)). f_equal. apply IH. intros x I. apply H. right. auto. Qed.

Definition sgn (backward : bool) : Z := if backward then (-1)%Z else 1%Z.
Lemma pairs_late : forall backward m a t, day_pairs backward m a (t, data t) t (days (sgn backward) (t + sgn backward)%Z m) = Some (pairs (sgn backward) t m).
Proof.
  intros bk. induction m as [|m IH]; intros a t; [reflexivity|]. cbn [day_pairs days pairs].
  assert (L : (if bk then t <=? fst (t, data t) else fst (t, data t) <=? t)%Z = true) by (destruct bk; apply Z.leb_le; cbn; lia).
  rewrite L. cbn [bind fst snd]. specialize (IH (t, data t) (t + sgn bk)%Z). replace (if bk then t - 1 else t + 1)%Z with (t + sgn bk)%Z by (unfold sgn; destruct bk; lia).
  rewrite IH. cbn [bind]. f_equal. f_equal. f_equal; [|lia]. f_equal. lia.
Qed.
Lemma pairs_first : forall backward m t, day_pairs backward (S m) (t, data t) ((t + sgn backward)%Z, data (t + sgn backward)%Z) t (days (sgn backward) (t + sgn backward + sgn backward)%Z m) = Some (pairs (sgn backward) t (S m)).
Proof.
  intros bk m t. cbn [day_pairs pairs fst snd].
  assert (L : (if bk then t <=? t + sgn bk else t + sgn bk <=? t)%Z = false) by (unfold sgn; destruct bk; apply Z.leb_gt; lia).
  rewrite L. cbn [bind fst snd]. replace (if bk then t - 1 else t + 1)%Z with (t + sgn bk)%Z by (unfold sgn; destruct bk; lia).
  rewrite pairs_late. cbn [bind]. f_equal. f_equal. f_equal; [|lia]. f_equal. lia.
Qed.
(** The collection used at date [t]: all the days of the advection. *)
Definition held (backward : bool) (t : Z) (n : nat) : list (Z * D) := days 1 (if backward then t - Z.of_nat n else t)%Z (S n).
Lemma held_dates : forall backward t n, dates_from backward (held backward t n) t = days (sgn backward) t (S n).
Proof.
  intros bk t n. unfold dates_from, held, sgn. destruct bk.
  - rewrite days_rev. replace (t - Z.of_nat n + Z.of_nat (S n) - 1)%Z with t by lia. apply filter_all. intros x I. destruct (days_fst _ _ _ _ I) as (k & _ & ->). apply Z.leb_le. cbn [fst]. lia.
  - apply filter_all. intros x I. destruct (days_fst _ _ _ _ I) as (k & _ & ->). apply Z.leb_le. cbn [fst]. lia.
Qed.
Variables (create : list nat -> option (list P * list nat)) (drift : list (D * D * Z * Z) -> list P -> option (list P)) (locate : list nat -> list P -> option (list (option nat))).
Variables (seeds : list nat -> list P) (origin : list nat -> list nat) (moved : list (D * D * Z * Z) -> list P -> list P) (holder : list nat -> list P -> list (option nat)).
Hypothesis CR : forall rows, create rows = Some (seeds rows, origin rows).
Hypothesis CL : forall rows, length (origin rows) = length (seeds rows).
Hypothesis CO : forall rows s, In s (origin rows) -> s < length rows.
Hypothesis DR : forall l xs, drift l xs = Some (moved l xs).
Hypothesis DL : forall l xs, length (moved l xs) = length xs.
Hypothesis LO : forall rows xs, locate rows xs = Some (holder rows xs).
Hypothesis LL : forall rows xs, length (holder rows xs) = length xs.
Hypothesis LB : forall rows xs e, In (Some e) (holder rows xs) -> e < length rows.

Lemma advect_held : forall (backward : bool) t m xs, let n := S m in
  advect drift (held backward t n) t (if backward then - Z.of_nat n else Z.of_nat n)%Z xs = Some ((t + sgn backward * Z.of_nat n)%Z, moved (fields_used data (sgn backward) t n) xs).
Proof.
  intros bk t m xs n. unfold advect.
  assert (B : ((if bk then - Z.of_nat n else Z.of_nat n) <? 0)%Z = bk) by (unfold n; destruct bk; [apply Z.ltb_lt|apply Z.ltb_ge]; lia).
  assert (Z0 : ((if bk then - Z.of_nat n else Z.of_nat n) =? 0)%Z = false) by (unfold n; destruct bk; apply Z.eqb_neq; lia).
  rewrite B, Z0, held_dates. replace (Z.abs_nat (if bk then - Z.of_nat n else Z.of_nat n)) with n by (destruct bk; lia).
  unfold n at 1. cbn [days]. unfold n at 1. rewrite pairs_first. cbn [bind]. rewrite DR. cbn [bind]. rewrite pairs_used. f_equal. f_equal. unfold sgn. destruct bk; lia.
Qed.

Lemma rows_dated : forall ds d, dated ds d (rows_at (map inject_Z ds) d).
Proof.
  intros ds d. unfold rows_at. split; [apply incr_where|]. intros q. rewrite In_where, !nth_error_map. destruct (nth_error ds q) as [z|]; cbn [option_map]; [|split; discriminate].
  split; intros H.
  - apply Some_inj in H. apply Qeq_bool_iff in H. f_equal. unfold Qeq in H. cbn in H. lia.
  - apply Some_inj in H. subst z. f_equal. apply Qeq_bool_iff. reflexivity.
Qed.

Lemma candidate_spec : forall ds (backward : bool) t m all, length all = length ds ->
  (forall p, nth_error ds p = Some t -> nth_error all p = Some no_target) ->
  exists all', particle_candidate create drift locate (held backward t (S m)) (map inject_Z ds) t (if backward then - Z.of_nat (S m) else Z.of_nat (S m))%Z all = Some all' /\
    length all' = length all /\
    (forall p, nth_error ds p = Some t -> exists b, nth_error all' p = Some b /\ coherent ds data seeds origin moved holder (sgn backward) t (S m) p b) /\
    (forall p, nth_error ds p <> Some t -> nth_error all' p = nth_error all p).
Proof.
  intros ds bk t m all L N. unfold particle_candidate. rewrite CR. cbn [bind]. rewrite (advect_held bk t m). cbn [bind]. rewrite LO. cbn [bind].
  destruct (rows_dated ds t) as [I0 R0]. set (rows := rows_at (map inject_Z ds) t) in *.
  set (te := (t + sgn bk * Z.of_nat (S m))%Z). destruct (rows_dated ds te) as [I1 R1]. set (rows_end := rows_at (map inject_Z ds) te) in *.
  set (ends := holder rows_end _). destruct (get_matrix_spec (origin rows) ends rows rows_end all) as (all' & E & LA & IN & OUT).
  { unfold ends. rewrite LL, DL, CL. reflexivity. } { apply incr_NoDup. auto. } { apply CO. } { unfold ends. intros e I. eapply LB; eauto. } { intros s I. apply N. apply R0. auto. }
  exists all'. split; [exact E|]. split; [exact LA|]. split.
  - intros p PD. apply R0 in PD. apply In_nth_error in PD as (k & K). destruct (IN k p K) as (b & B1 & B2). exists (renamed rows_end b). split; [exact B1|].
    exists rows, rows_end, k, b. split; [split; auto|]. split; [split; auto|]. split; [auto|]. split; [reflexivity|]. exact B2.
  - intros p PD. apply OUT. intros I. apply PD. apply R0. auto.
Qed.

Lemma zrange_cons : forall a b, (a < b)%Z -> zrange a b = a :: zrange (a + 1)%Z b.
Proof.
  intros a b L. unfold zrange. replace (Z.to_nat (b - a)) with (S (Z.to_nat (b - (a + 1)))) by lia. cbn [seq map]. f_equal; [lia|]. rewrite <- seq_shift, map_map. apply map_ext. intros k. lia.
Qed.
Lemma zrange_nil : forall a b, (b <= a)%Z -> zrange a b = [].
Proof. intros a b L. unfold zrange. replace (Z.to_nat (b - a)) with 0 by lia. reflexivity. Qed.

Lemma shift_held : forall (backward : bool) t n, load (if backward then t + 1 else t + 1 + Z.of_nat n)%Z = Some (data (if backward then t + 1 else t + 1 + Z.of_nat n)%Z) ->
  shift_file load (held backward t n) (if backward then t + 1 else t + 1 + Z.of_nat n)%Z = Some (held backward (t + 1) n).
Proof.
  intros bk t n E. unfold shift_file. rewrite E. cbn [bind]. f_equal. unfold held. cbn [days tl]. destruct bk.
  - pose proof (days_snoc 1 n (t - Z.of_nat n + 1)%Z) as H. replace (t - Z.of_nat n + 1 + 1 * Z.of_nat n)%Z with (t + 1)%Z in H by lia. rewrite H. cbn [days]. replace (t + 1 - Z.of_nat n)%Z with (t - Z.of_nat n + 1)%Z by lia. reflexivity.
  - pose proof (days_snoc 1 n (t + 1)%Z) as H. replace (t + 1 + 1 * Z.of_nat n)%Z with (t + 1 + Z.of_nat n)%Z in H by lia. rewrite H. reflexivity.
Qed.

Lemma loop_spec : forall ds (backward : bool) m rs re, (re - rs - 1 <> 0)%Z -> forall j a (first : bool) c all, j = Z.to_nat (re - a) -> length all = length ds ->
  (forall t, (a <= t < re)%Z -> load (if backward then t else t + Z.of_nat (S m))%Z = Some (data (if backward then t else t + Z.of_nat (S m))%Z)) ->
  c = held backward (if first then a else a - 1)%Z (S m) ->
  (forall p d, nth_error ds p = Some d -> (a <= d < re)%Z -> nth_error all p = Some no_target) ->
  exists all', coherence_loop load create drift locate backward (map inject_Z ds) (Z.of_nat (S m)) rs re (zrange a re) first c all = Some all' /\ length all' = length all /\
    (forall p d, nth_error ds p = Some d -> (a <= d < re)%Z -> exists b, nth_error all' p = Some b /\ coherent ds data seeds origin moved holder (sgn backward) d (S m) p b) /\
    (forall p d, nth_error ds p = Some d -> ~ (a <= d < re)%Z -> nth_error all' p = nth_error all p).
Proof.
  intros ds bk m rs re NZ. induction j as [|j IH]; intros a first c all J L LD C N.
  - rewrite zrange_nil by lia. exists all. split; [reflexivity|]. split; [reflexivity|]. split; [intros p d _ B; lia|auto].
  - rewrite zrange_cons by lia. cbn [coherence_loop].
    assert (C' : (if first then Some c else shift_file load c (if bk then a else a + Z.of_nat (S m))%Z) = Some (held bk a (S m))).
    { destruct first; [rewrite C; reflexivity|]. rewrite C. pose proof (shift_held bk (a - 1) (S m)) as H. replace (a - 1 + 1)%Z with a in H by lia. apply H. apply LD. lia. }
    rewrite C'. cbn [bind]. destruct (candidate_spec ds bk a m all L) as (all1 & E1 & L1 & I1 & O1). { intros p PD. apply (N p a PD). lia. }
    rewrite E1. cbn [bind]. destruct (Z.eqb_spec (re - rs - 1) 0) as [|_]; [contradiction|].
    destruct (IH (a + 1)%Z false (held bk a (S m)) all1) as (all' & E & L' & I' & O'); [lia|lia|intros t T; apply LD; lia|f_equal; lia| |].
    { intros p d PD B. rewrite O1; [apply (N p d PD); lia|]. rewrite PD. intros X. apply Some_inj in X. lia. }
    exists all'. split; [exact E|]. split; [lia|]. split.
    + intros p d PD B. destruct (Z.eq_dec d a) as [->|ND].
      * destruct (I1 p PD) as (b & B1 & B2). exists b. split; [|exact B2]. rewrite (O' p a PD) by lia. exact B1.
      * apply I'; [exact PD|lia].
    + intros p d PD B. rewrite (O' p d PD) by lia. apply O1. rewrite PD. intros X. apply Some_inj in X. lia.
Qed.

Lemma extremes : forall ds lo hi, In lo ds -> (forall d, In d ds -> (lo <= d)%Z) -> In hi ds -> (forall d, In d ds -> (d <= hi)%Z) ->
  exists v r, map inject_Z ds = v :: r /\ trunc (qmin_from v r) = lo /\ trunc (qmax_from v r) = hi.
Proof.
  intros ds lo hi I1 M1 I2 M2. destruct ds as [|d0 ds]; [destruct I1|]. exists (inject_Z d0), (map inject_Z ds). split; [reflexivity|].
  destruct (qmin_from_spec (map inject_Z ds) (inject_Z d0)) as [A B]. destruct (qmax_from_spec (map inject_Z ds) (inject_Z d0)) as [A' B'].
  change (inject_Z d0 :: map inject_Z ds) with (map inject_Z (d0 :: ds)) in A, B, A', B'. apply in_map_iff in A as (x & E & I). apply in_map_iff in A' as (y & E' & I'). rewrite <- E in B |- *. rewrite <- E' in B' |- *.
  rewrite !trunc_inject. specialize (B (inject_Z lo) (in_map _ _ _ I1)). specialize (B' (inject_Z hi) (in_map _ _ _ I2)). apply (proj1 (inject_Z_le_iff _ _)) in B. apply (proj1 (inject_Z_le_iff _ _)) in B'.
  specialize (M1 x I). specialize (M2 y I'). split; lia.
Qed.
Lemma from_list_days : forall a m, (forall t, (a <= t < a + Z.of_nat m)%Z -> load t = Some (data t)) -> from_list load (zrange a (a + Z.of_nat m)) = Some (days 1 a m).
Proof.
  intros a m. revert a. unfold from_list. induction m as [|m IH]; intros a H.
  - rewrite zrange_nil by lia. reflexivity.
  - rewrite zrange_cons by lia. cbn [map sequence]. rewrite (H a) by lia. cbn [bind].
    specialize (IH (a + 1)%Z). replace (a + 1 + Z.of_nat m)%Z with (a + Z.of_nat (S m))%Z in IH by lia. rewrite IH by (intros t T; apply H; lia). reflexivity.
Qed.

Lemma coherence_spec : forall ds backward n lo hi, In lo ds -> (forall d, In d ds -> (lo <= d)%Z) -> In hi ds -> (forall d, In d ds -> (d <= hi)%Z) ->
  0 < n -> (hi - lo <> Z.of_nat n)%Z -> (forall t, (lo <= t <= hi)%Z -> load t = Some (data t)) ->
  exists all, segment_coherence load create drift locate backward (map inject_Z ds) (Z.of_nat n) = Some all /\ length all = length ds /\
    forall p d, nth_error ds p = Some d ->
      let used := (lo <= d <= hi /\ lo <= d + sgn backward * Z.of_nat n <= hi)%Z in
      (used -> exists b, nth_error all p = Some b /\ coherent ds data seeds origin moved holder (sgn backward) d n p b) /\
      (~ used -> nth_error all p = Some no_target).
Proof.
  intros ds bk n lo hi I1 M1 I2 M2 N0 NE LD. destruct n as [|m]; [lia|]. pose proof (M1 _ I2) as LH. destruct (extremes ds lo hi I1 M1 I2 M2) as (v & r & E & T1 & T2).
  unfold segment_coherence. rewrite E. cbv iota zeta beta. rewrite T1, T2, <- E.
  set (k := Z.to_nat (Z.min (lo + Z.of_nat (S m) + 1) (hi + 1) - lo)). replace (Z.min (lo + Z.of_nat (S m) + 1) (hi + 1)) with (lo + Z.of_nat k)%Z by (unfold k; lia).
  rewrite from_list_days by (intros t T; apply LD; unfold k in T; lia). cbn [bind].
  set (rs := (if bk then lo + Z.of_nat (S m) else lo)%Z). set (re := (if bk then hi + 1 else hi - Z.of_nat (S m) + 1)%Z).
  assert (TRIVIAL : forall p d, nth_error ds p = Some d -> nth_error (repeat no_target (length (map inject_Z ds))) p = Some no_target).
  { intros p d PD. rewrite map_length, nth_error_repeat_lt. apply nth_error_Some_lt in PD. destruct (Nat.ltb_spec p (length ds)); [reflexivity|lia]. }
  destruct (Z.lt_ge_cases rs re) as [NONE|SOME].
  - destruct (loop_spec ds bk m rs re ltac:(unfold rs, re; destruct bk; lia) (Z.to_nat (re - rs)) rs true (days 1 lo k) (repeat no_target (length (map inject_Z ds)))) as (all & R & L & IN & OUT).
    + reflexivity.
    + rewrite repeat_length, map_length. reflexivity.
    + intros t T. apply LD. unfold rs, re in T. destruct bk; lia.
    + unfold held. f_equal; unfold rs, re, k in *; destruct bk; lia.
    + intros p d PD _. eapply TRIVIAL; eauto.
    + exists all. split; [exact R|]. split; [rewrite L, repeat_length, map_length; reflexivity|]. intros p d PD. split.
      * intros U. apply (IN p d PD). unfold rs, re, sgn in *. destruct bk; lia.
      * intros U. rewrite (OUT p d PD); [eapply TRIVIAL; eauto|]. unfold rs, re, sgn in *. pose proof (M1 d (nth_error_In _ _ PD)). pose proof (M2 d (nth_error_In _ _ PD)). destruct bk; lia.
  - rewrite zrange_nil by exact SOME. cbn [coherence_loop]. eexists. split; [reflexivity|]. split; [rewrite repeat_length, map_length; reflexivity|]. intros p d PD. split.
    + intros U. exfalso. unfold rs, re, sgn in *. destruct bk; lia.
    + intros _. eapply TRIVIAL; eauto.
Qed.
End Proofs.

(** The particles are created, moved and located without error: [seeds] and
    [origin] of some rows, [moved] by fields, [holder] among some rows. *)
Theorem C115_coherence : forall {D P} load (data : Z -> D) create drift locate (seeds : list nat -> list P) origin moved holder,
  (forall rows, create rows = Some (seeds rows, origin rows)) -> (forall rows, length (origin rows) = length (seeds rows)) -> (forall rows s, In s (origin rows) -> s < length rows) ->
  (forall l xs, drift l xs = Some (moved l xs)) -> (forall l xs, length (moved l xs) = length xs) ->
  (forall rows xs, locate rows xs = Some (holder rows xs)) -> (forall rows xs, length (holder rows xs) = length xs) -> (forall rows xs e, In (Some e) (holder rows xs) -> e < length rows) ->
  forall ds (backward : bool) n lo hi, In lo ds -> (forall d, In d ds -> (lo <= d)%Z) -> In hi ds -> (forall d, In d ds -> (d <= hi)%Z) ->
  0 < n -> (hi - lo <> Z.of_nat n)%Z -> (forall t, (lo <= t <= hi)%Z -> load t = Some (data t)) ->
  exists all, segment_coherence load create drift locate backward (map inject_Z ds) (Z.of_nat n) = Some all /\ length all = length ds /\
    forall p d, nth_error ds p = Some d ->
      let sg := if backward then (-1)%Z else 1%Z in
      let used := (lo <= d + sg * Z.of_nat n <= hi)%Z in
      (used -> exists b, nth_error all p = Some b /\ coherent ds data seeds origin moved holder sg d n p b) /\
      (~ used -> nth_error all p = Some no_target).
Proof.
  intros D P load data create drift locate seeds origin moved holder H1 H2 H3 H4 H5 H6 H7 H8 ds bk n lo hi I1 M1 I2 M2 N0 NE LD.
  destruct (coherence_spec load data create drift locate seeds origin moved holder H1 H2 H3 H4 H5 H6 H7 H8 ds bk n lo hi I1 M1 I2 M2 N0 NE LD) as (all & E & L & A).
  exists all. split; [exact E|]. split; [exact L|]. intros p d PD. destruct (A p d PD) as [U V]. pose proof (M1 d (nth_error_In _ _ PD)). pose proof (M2 d (nth_error_In _ _ PD)). split.
  - intros W. apply U. split; [lia|exact W].
  - intros W. apply V. intros [_ X]. contradiction.
Qed.
Print Assumptions C115_coherence.
(** Five observations from date 10 to date 12; one particle by eddy, which stays
    in the eddies of the same rank; the speed of a date is the date. *)
Definition ex_ds : list Z := [10; 11; 10; 12; 11]%Z.
Definition ex_create (rows : list nat) : option (list nat * list nat) := Some (seq 0 (length rows), seq 0 (length rows)).
Definition ex_locate (rows xs : list nat) : option (list (option nat)) := Some (map (fun x => if x <? length rows then Some x else None) xs).
Example C115_example :
  let run := fun bk => segment_coherence (fun t => if (t <=? 12)%Z then Some t else None) ex_create (fun l xs => Some xs) ex_locate bk (map inject_Z ex_ds) 1 in
  run false = Some [Best2 (Some 1) 100%Q None 0%Q; Best2 (Some 3) 100%Q None 0%Q; Best2 (Some 4) 100%Q None 0%Q; no_target; no_target] /\
  run true = Some [no_target; Best2 (Some 0) 100%Q None 0%Q; no_target; Best2 (Some 1) 100%Q None 0%Q; Best2 (Some 2) 100%Q None 0%Q] /\
  (forall rows xs e, In (Some e) (map (fun x => if x <? length rows then Some x else None) xs) -> e < @length nat rows) /\
  fields_used (fun t => t) (-1) 12 2 = [(12, 11, 0, -1); (11, 10, 0, -1)]%Z.
Proof.
  split; [vm_compute; reflexivity|]. split; [vm_compute; reflexivity|]. split; [|reflexivity].
  intros rows xs e I. apply in_map_iff in I as (x & E & _). destruct (Nat.ltb_spec x (length rows)); [injection E as <-; auto|discriminate].
Qed.
(** With exactly one date to treat, an error is raised after the treatment,
    whatever the data: the message divides by the number of dates minus one. *)
Theorem C115_one_date_refuted : forall {D P} load create drift locate (ds : list Z) (backward : bool) n lo hi,
  In lo ds -> (forall d, In d ds -> (lo <= d)%Z) -> In hi ds -> (forall d, In d ds -> (d <= hi)%Z) -> (hi - lo = n)%Z ->
  @segment_coherence D P load create drift locate backward (map inject_Z ds) n = None.
Proof.
  intros D P load create drift locate ds bk n lo hi I1 M1 I2 M2 E. destruct (extremes ds lo hi I1 M1 I2 M2) as (v & r & M & T1 & T2). unfold segment_coherence. rewrite M. cbv iota zeta beta. rewrite T1, T2.
  destruct (from_list _ _) as [c|]; [|reflexivity]. cbn [bind]. rewrite zrange_cons by (destruct bk; lia). cbn [coherence_loop bind].
  destruct (particle_candidate _ _ _ _ _ _ _ _) as [a|]; [|reflexivity]. cbn [bind]. destruct (Z.eqb_spec ((if bk then hi + 1 else hi - n + 1) - (if bk then lo + n else lo) - 1) 0) as [|N]; [reflexivity|destruct bk; lia].
Qed.
Print Assumptions C115_one_date_refuted.
(** A null duration raises an error as soon as there is an observation. *)
Theorem C115_null_refuted : forall {D P} load create drift locate (ds : list Z) (backward : bool) lo hi,
  In lo ds -> (forall d, In d ds -> (lo <= d)%Z) -> In hi ds -> (forall d, In d ds -> (d <= hi)%Z) ->
  @segment_coherence D P load create drift locate backward (map inject_Z ds) 0 = None.
Proof.
  intros D P load create drift locate ds bk lo hi I1 M1 I2 M2. pose proof (M1 _ I2) as LH. destruct (extremes ds lo hi I1 M1 I2 M2) as (v & r & M & T1 & T2). unfold segment_coherence. rewrite M. cbv iota zeta beta. rewrite T1, T2.
  destruct (from_list _ _) as [c|]; [|reflexivity]. cbn [bind]. rewrite zrange_cons by (destruct bk; lia). cbn [coherence_loop bind].
  unfold particle_candidate at 1. destruct (create _) as [[xs o]|]; [|reflexivity]. cbn [bind]. unfold advect at 1. replace ((if bk then - 0 else 0) =? 0)%Z with true by (destruct bk; reflexivity). reflexivity.
Qed.
Print Assumptions C115_null_refuted.

(** ** C116: statistics around an event *)
Section PSpec.
Variables (follow : list Z) (t : list Q) (segment : list nat) (ind : list (Z * Z)) (pct : list (Q * Q)).
(** Row [r] is in the segment of row [i], less than [window] days from it. *)
Definition near (window : Z) (i r : nat) : Prop :=
  exists ti tr s, nth_error t i = Some ti /\ nth_error t r = Some tr /\ (Qabs (ti - tr) < inject_Z window)%Q /\ nth_error segment i = Some s /\ nth_error segment r = Some s.
(** [rows]: row [i], the row it is followed by and so on while they are near. *)
Definition followed (window : Z) (i : nat) (rows : list nat) : Prop :=
  nth_error rows 0 = Some i /\
  (forall k a b, nth_error rows k = Some a -> nth_error rows (S k) = Some b -> nth_error follow a = Some (Z.of_nat b)) /\
  (forall r, In r rows -> near window i r) /\
  (forall r b, nth_error rows (length rows - 1) = Some r -> nth_error follow r = Some (Z.of_nat b) -> ~ near window i b).
(** Percentages of row [r] which go in segment [target]: first target then second
    target. *)
Definition goes (target : nat) (g : Z) (p : Q) : list Q :=
  if (0 <=? g)%Z then match nth_error segment (Z.to_nat g) with Some s => if s =? target then [p] else [] | None => [] end else [].
Definition into (target r : nat) : list Q :=
  match nth_error ind r, nth_error pct r with Some (g0, g1), Some (p0, p1) => goes target g0 p0 ++ goes target g1 p1 | _, _ => [] end.
(** A row index, or -1. *)
Definition row_or_none (g : Z) : Prop := (g = -1 \/ 0 <= g < Z.of_nat (length t))%Z.
Definition sound : Prop := length follow = length t /\ length segment = length t /\ length ind = length t /\ length pct = length t /\
  (forall g, In g follow -> row_or_none g) /\ (forall g, In g ind -> row_or_none (fst g) /\ row_or_none (snd g)).
(** Dates of followed rows only increase ([forward]) or only decrease, by at
    least [step]. *)
Definition moves (forward : bool) (step : Q) : Prop := forall a b ta tb, nth_error follow a = Some (Z.of_nat b) -> nth_error t a = Some ta -> nth_error t b = Some tb ->
  if forward then (ta + step <= tb)%Q else (tb + step <= ta)%Q.
End PSpec.

Section PProofs.
Variables (follow : list Z) (t : list Q) (segment : list nat) (ind : list (Z * Z)) (pct : list (Q * Q)).
Hypothesis SND : sound follow t segment ind pct.

Lemma pyget_nat : forall {A} (l : list A) k, k < length l -> pyget l (Z.of_nat k) = nth_error l k.
Proof.
  intros A l k L. unfold pyget, pyidx. destruct (Z.leb_spec 0 (Z.of_nat k)); [|lia]. destruct (Z.ltb_spec (Z.of_nat k) (Z.of_nat (length l))); [|lia]. cbn [bind]. rewrite Nat2Z.id. reflexivity.
Qed.
Lemma pyget_last : forall {A} (l : list A), 0 < length l -> exists x, pyget l (-1) = Some x.
Proof.
  intros A l L. unfold pyget, pyidx. cbn [Z.leb]. destruct (Z.leb_spec 0 (-1)); [lia|]. destruct (Z.leb_spec (- Z.of_nat (length l)) (-1)); [|lia]. cbn [bind]. apply nth_error_lt_Some. lia.
Qed.
Lemma add_target_spec : forall window target g p acc, row_or_none t g ->
  add_target segment window target g p acc =
    if (Z.of_nat (length (acc ++ goes segment target g p)) <=? window)%Z || (length (goes segment target g p) =? 0) then Some (acc ++ goes segment target g p) else None.
Proof.
  intros w tg g p acc R. destruct SND as (_ & LS & _). unfold add_target, goes. destruct R as [->|[R1 R2]].
  - cbn. rewrite app_nil_r, orb_true_r. reflexivity.
  - destruct (Z.eqb_spec g (-1)); [lia|]. destruct (Z.leb_spec 0 g); [|lia]. rewrite <- (Z2Nat.id g) at 1 by lia. rewrite pyget_nat by lia.
    destruct (nth_error_lt_Some segment (Z.to_nat g)) as (s & E); [lia|]. rewrite E. cbn [bind]. destruct (Nat.eqb_spec s tg).
    + rewrite app_length. cbn [length Nat.eqb]. rewrite orb_false_r. destruct (Z.ltb_spec (Z.of_nat (length acc)) w); destruct (Z.leb_spec (Z.of_nat (length acc + 1)) w); try lia; reflexivity.
    + rewrite app_nil_r. cbn. rewrite orb_true_r. reflexivity.
Qed.
(** Result of the loop: an error when the buffer is too small. *)
Definition fit (window : Z) (l : list Q) : option (list Q) := if (Z.of_nat (length l) <=? window)%Z then Some l else None.
Lemma fit_big : forall w a b, (w < Z.of_nat (length a))%Z -> fit w (a ++ b) = None.
Proof. intros w a b L. unfold fit. rewrite app_length. destruct (Z.leb_spec (Z.of_nat (length a + length b)) w); [lia|reflexivity]. Qed.
Lemma targets_spec : forall window target r g0 g1 p0 p1 acc, (Z.of_nat (length acc) <= window)%Z -> nth_error ind r = Some (g0, g1) -> nth_error pct r = Some (p0, p1) ->
  bind (add_target segment window target g0 p0 acc) (fun a => add_target segment window target g1 p1 a) = fit window (acc ++ into segment ind pct target r).
Proof.
  intros w tg r g0 g1 p0 p1 acc L I P. unfold into. rewrite I, P. destruct SND as (_ & _ & _ & _ & _ & W). destruct (W _ (nth_error_In _ _ I)) as [R0 R1]. cbn [fst snd] in R0, R1.
  rewrite (add_target_spec w tg g0 p0 acc R0). set (x := goes segment tg g0 p0). set (y := goes segment tg g1 p1). rewrite app_assoc.
  assert (X : ((Z.of_nat (length (acc ++ x)) <=? w)%Z || (length x =? 0)) = (Z.of_nat (length (acc ++ x)) <=? w)%Z).
  { destruct (Nat.eqb_spec (length x) 0) as [E|]; [|apply orb_false_r]. rewrite orb_true_r. symmetry. apply Z.leb_le. rewrite app_length. lia. }
  rewrite X. destruct (Z.leb_spec (Z.of_nat (length (acc ++ x))) w) as [LE|GT].
  - cbn [bind]. rewrite (add_target_spec w tg g1 p1 (acc ++ x) R1). fold y.
    assert (Y : ((Z.of_nat (length ((acc ++ x) ++ y)) <=? w)%Z || (length y =? 0)) = (Z.of_nat (length ((acc ++ x) ++ y)) <=? w)%Z).
    { destruct (Nat.eqb_spec (length y) 0) as [E|]; [|apply orb_false_r]. rewrite orb_true_r. symmetry. apply Z.leb_le. rewrite app_length. lia. }
    rewrite Y. reflexivity.
  - cbn [bind]. symmetry. apply fit_big. exact GT.
Qed.

Variables (i : nat) (window : Z) (ti : Q) (own target : nat).
Hypothesis TI : nth_error t i = Some ti.
Hypothesis OWN : nth_error segment i = Some own.

(** Rows from [r] on, [r] being a row or -1. *)
Definition tail_rows (r : Z) (rows : list nat) : Prop :=
  match rows with
  | [] => r = (-1)%Z \/ exists b, r = Z.of_nat b /\ ~ near t segment window i b
  | a :: _ => r = Z.of_nat a
  end /\
  (forall k a b, nth_error rows k = Some a -> nth_error rows (S k) = Some b -> nth_error follow a = Some (Z.of_nat b)) /\
  (forall a, In a rows -> near t segment window i a) /\
  (rows <> [] -> forall a b, nth_error rows (length rows - 1) = Some a -> nth_error follow a = Some (Z.of_nat b) -> ~ near t segment window i b).

Lemma loop_rows : forall sg, (forall a b ta tb, nth_error follow a = Some (Z.of_nat b) -> nth_error t a = Some ta -> nth_error t b = Some tb -> (sg * ta < sg * tb)%Q) ->
  forall fuel r acc vis, length vis + fuel = S (length t) -> NoDup vis -> (forall v, In v vis -> v < length t) ->
  (forall v b tv tb, In v vis -> r = Z.of_nat b -> nth_error t v = Some tv -> nth_error t b = Some tb -> (sg * tv < sg * tb)%Q) ->
  row_or_none t r -> (Z.of_nat (length acc) <= window)%Z ->
  exists rows, tail_rows r rows /\ follow_loop follow t segment ind pct fuel window ti own target r acc = fit window (acc ++ concat (map (into segment ind pct target) rows)).
Proof.
  intros sg SG. destruct SND as (LF & LS & LI & LP & WF & WI). assert (NE : 0 < length t) by (apply nth_error_Some_lt in TI; lia).
  induction fuel as [|fuel IH]; intros r acc vis V ND VB ORD R LA.
  - exfalso. assert (L : length vis <= length (seq 0 (length t))). { apply NoDup_incl_length; [exact ND|]. intros v Iv. apply in_seq. specialize (VB v Iv). lia. } rewrite seq_length in L. lia.
  - cbn [follow_loop]. destruct R as [->|[R1 R2]].
    + destruct (pyget_last t NE) as (x & ->). destruct (pyget_last segment ltac:(lia)) as (y & ->). cbn [bind]. replace (negb (-1 =? -1)%Z) with false by reflexivity. rewrite andb_false_r. cbn [andb].
      exists []. split; [|cbn [map concat]; rewrite app_nil_r; unfold fit; destruct (Z.leb_spec (Z.of_nat (length acc)) window); [reflexivity|lia]].
      split; [left; reflexivity|]. split; [intros k a b K; destruct k; discriminate K|]. split; [intros a []|]. intros X. contradiction.
    + set (rn := Z.to_nat r) in *. assert (RN : r = Z.of_nat rn) by (unfold rn; lia). assert (RL : rn < length t) by lia.
      rewrite RN, (pyget_nat t), (pyget_nat segment), (pyget_nat ind), (pyget_nat pct), (pyget_nat follow) by lia.
      destruct (nth_error_lt_Some t rn) as (tr & TR); [lia|]. destruct (nth_error_lt_Some segment rn) as (sr & SR); [lia|]. rewrite TR, SR. cbn [bind].
      destruct (Z.eqb_spec (Z.of_nat rn) (-1)); [lia|]. cbn [negb]. rewrite andb_true_r.
      assert (NEAR : (Qlt_bool (Qabs (ti - tr)) (inject_Z window) && (own =? sr)) = true <-> near t segment window i rn).
      { rewrite andb_true_iff, Qlt_bool_iff, Nat.eqb_eq. split.
        - intros [A <-]. exists ti, tr, own. repeat (split; [assumption|]). assumption.
        - intros (a & b & s & A & B & C & E & F). rewrite TI in A. apply Some_inj in A. subst a. rewrite TR in B. apply Some_inj in B. subst b. rewrite OWN in E. rewrite SR in F. split; [exact C|congruence]. }
      destruct (Qlt_bool (Qabs (ti - tr)) (inject_Z window) && (own =? sr)) eqn:CO.
      * destruct (nth_error_lt_Some ind rn) as ([g0 g1] & GI); [lia|]. destruct (nth_error_lt_Some pct rn) as ([p0 p1] & GP); [lia|]. rewrite GI, GP. cbn [bind fst snd].
        pose proof (targets_spec window target rn g0 g1 p0 p1 acc LA GI GP) as TS.
        destruct (nth_error_lt_Some follow rn) as (r' & F); [lia|]. rewrite F. cbn [bind].
        assert (RR : row_or_none t r') by (apply WF; eapply nth_error_In; eauto).
        assert (LOOP : bind (add_target segment window target g0 p0 acc) (fun a => bind (add_target segment window target g1 p1 a) (fun a2 => follow_loop follow t segment ind pct fuel window ti own target r' a2))
                      = bind (fit window (acc ++ into segment ind pct target rn)) (fun a2 => follow_loop follow t segment ind pct fuel window ti own target r' a2)).
        { rewrite <- TS. destruct (add_target segment window target g0 p0 acc); reflexivity. }
        rewrite LOOP.
        assert (NB : forall v tv, In v vis -> nth_error t v = Some tv -> (sg * tv < sg * tr)%Q) by (intros v tv Iv Tv; apply (ORD v rn tv tr); auto).
        destruct (IH r' (if (Z.of_nat (length (acc ++ into segment ind pct target rn)) <=? window)%Z then acc ++ into segment ind pct target rn else acc) (rn :: vis)) as (rows & TA & EQ).
        { cbn [length]. lia. }
        { constructor; [|exact ND]. intros Iv. specialize (NB rn tr Iv TR). lra. }
        { intros v [<-|Iv]; [exact RL|apply VB; exact Iv]. }
        { intros v b tv tb [<-|Iv] RB Tv Tb; rewrite RB in F.
          - apply (SG rn b tv tb F Tv Tb).
          - pose proof (SG rn b tr tb F TR Tb). pose proof (NB v tv Iv Tv). lra. }
        { exact RR. }
        { destruct (Z.leb_spec (Z.of_nat (length (acc ++ into segment ind pct target rn))) window); lia. }
        exists (rn :: rows). split.
        -- destruct TA as (T1 & T2 & T3 & T4). split; [reflexivity|]. split.
           ++ intros k a b K1 K2. destruct k as [|k]; [|apply (T2 k a b); assumption]. cbn in K1. apply Some_inj in K1. subst a. destruct rows as [|c rows]; [discriminate K2|]. cbn in K2. apply Some_inj in K2. subst c. rewrite F, T1. reflexivity.
           ++ split; [intros a [<-|Ia]; [apply NEAR; reflexivity|apply T3; exact Ia]|]. intros _ a b K1 K2. destruct rows as [|c rows].
              ** cbn in K1. apply Some_inj in K1. subst a. rewrite F in K2. apply Some_inj in K2. destruct T1 as [->|(b' & E & N)]; [lia|]. replace b with b' by lia. exact N.
              ** apply (T4 ltac:(discriminate) a b); [|exact K2]. cbn [length] in K1 |- *. replace (S (S (length rows)) - 1) with (S (length rows)) in K1 by lia. replace (S (length rows) - 1) with (length rows) by lia. exact K1.
        -- cbn [map concat]. rewrite app_assoc. unfold fit at 1. destruct (Z.leb_spec (Z.of_nat (length (acc ++ into segment ind pct target rn))) window) as [LE|GT].
           ++ cbn [bind]. exact EQ.
           ++ cbn [bind]. symmetry. apply fit_big. exact GT.
      * exists []. split.
        -- split; [right; exists rn; split; [reflexivity|]; intros N; apply NEAR in N; discriminate N|]. split; [intros k a b K; destruct k; discriminate K|]. split; [intros a []|]. intros X. contradiction.
        -- cbn [map concat]. rewrite app_nil_r. unfold fit. destruct (Z.leb_spec (Z.of_nat (length acc)) window); [reflexivity|lia].
Qed.
End PProofs.

Lemma following_spec : forall follow t segment ind pct forward step, sound follow t segment ind pct -> (0 < step)%Q -> moves follow t forward step ->
  forall i i_target window nb_min target, (0 < window)%Z -> i < length t -> nth_error segment i_target = Some target ->
  exists rows, followed follow t segment window i rows /\
    let l := concat (map (into segment ind pct target) rows) in
    percents_on_following follow t segment ind pct (Z.of_nat i) (Z.of_nat i_target) window nb_min =
      if (Z.of_nat (length l) <=? window)%Z then Some (if length l <? nb_min then None else Some l) else None.
Proof.
  intros follow t segment ind pct forward step SND ST MV i it window nb target W IL TG. pose proof SND as (LF & LS & LI & LP & WF & WI).
  destruct (nth_error_lt_Some t i IL) as (ti & TI). destruct (nth_error_lt_Some segment i) as (own & OWN); [lia|].
  unfold percents_on_following. rewrite (pyget_nat t), (pyget_nat segment), (pyget_nat segment) by (try lia; apply nth_error_Some_lt in TG; lia). rewrite TI, OWN, TG. cbn [bind].
  destruct (Z.ltb_spec window 0); [lia|].
  destruct (loop_rows follow t segment ind pct SND i window ti own target TI OWN (if forward then 1 else -1)%Q) with (fuel := S (length t)) (r := Z.of_nat i) (acc := @nil Q) (vis := @nil nat) as (rows & TA & EQ).
  - intros a b ta tb F A B. specialize (MV a b ta tb F A B). destruct forward; lra.
  - reflexivity.
  - constructor.
  - intros v [].
  - intros v b tv tb [].
  - right. lia.
  - cbn. lia.
  - exists rows. rewrite EQ. cbn [app]. unfold fit. split.
    + destruct TA as (T1 & T2 & T3 & T4).
      assert (NR : rows <> []).
      { intros ->. destruct T1 as [E|(b & E & N)]; [lia|]. apply N. replace b with i by lia. exists ti, ti, own. split; [exact TI|]. split; [exact TI|]. split; [|split; exact OWN].
        rewrite Qabs_pos by lra. assert (inject_Z 0 < inject_Z window)%Q by (apply inject_Z_lt_iff; lia). change (inject_Z 0) with 0%Q in *. lra. }
      split; [|split; [exact T2|split; [exact T3|exact (T4 NR)]]]. destruct rows as [|a rows]; [contradiction|]. cbn. f_equal. lia.
    + cbv zeta. destruct (Z.leb_spec (Z.of_nat (length (concat (map (into segment ind pct target) rows)))) window); reflexivity.
Qed.
(** The percentages are those, in order, of the rows which follow in the same
    segment within the window and whose particles end in the segment of the
    target; writing more percentages than days in the window is an error (a write
    out of the buffer). *)
Theorem C116_following : forall follow t segment ind pct forward step, sound follow t segment ind pct -> (0 < step)%Q -> moves follow t forward step ->
  forall i i_target window nb_min target, (0 < window)%Z -> i < length t -> nth_error segment i_target = Some target ->
  exists rows, followed follow t segment window i rows /\
    let l := concat (map (into segment ind pct target) rows) in
    percents_on_following follow t segment ind pct (Z.of_nat i) (Z.of_nat i_target) window nb_min =
      if (Z.of_nat (length l) <=? window)%Z then Some (if length l <? nb_min then None else Some l) else None.
Proof. exact following_spec. Qed.
Print Assumptions C116_following.

Lemma followed_dates : forall follow t segment window i rows, followed follow t segment window i rows -> forall forward, moves follow t forward 1 ->
  forall k r ti tr, nth_error rows k = Some r -> nth_error t i = Some ti -> nth_error t r = Some tr -> if forward then (ti + inject_Z (Z.of_nat k) <= tr)%Q else (tr + inject_Z (Z.of_nat k) <= ti)%Q.
Proof.
  intros follow t segment window i rows (F0 & FL & FN & _) forward MV. induction k as [|k IH]; intros r ti tr K TI TR.
  - rewrite F0 in K. apply Some_inj in K. subst r. rewrite TI in TR. apply Some_inj in TR. subst tr. change (inject_Z (Z.of_nat 0)) with 0%Q. destruct forward; lra.
  - assert (KL : S k < length rows) by (eapply nth_error_Some_lt; eauto). destruct (nth_error_lt_Some rows k) as (a & A); [lia|]. destruct (FN a (nth_error_In _ _ A)) as (x & ta & s & _ & TA & _).
    specialize (IH a ti ta A TI TA). specialize (MV a r ta tr (FL k a r A K) TA TR). replace (Z.of_nat (S k)) with (Z.of_nat k + 1)%Z by lia. rewrite inject_Z_plus. change (inject_Z 1) with 1%Q. destruct forward; lra.
Qed.
(** With one observation by day at most and at most one target of each
    observation in the target segment, the buffer is always large enough. *)
Theorem C116_fits : forall follow t segment ind pct forward, sound follow t segment ind pct -> moves follow t forward 1 ->
  forall i i_target window nb_min target, (0 < window)%Z -> i < length t -> nth_error segment i_target = Some target ->
  (forall r, length (into segment ind pct target r) <= 1) ->
  exists rows, followed follow t segment window i rows /\
    let l := concat (map (into segment ind pct target) rows) in
    percents_on_following follow t segment ind pct (Z.of_nat i) (Z.of_nat i_target) window nb_min = Some (if length l <? nb_min then None else Some l).
Proof.
  intros follow t segment ind pct forward SND MV i it window nb target W IL TG ONE.
  destruct (following_spec follow t segment ind pct forward 1 SND ltac:(lra) MV i it window nb target W IL TG) as (rows & F & E). exists rows. split; [exact F|]. cbv zeta in E |- *. rewrite E.
  assert (L : length (concat (map (into segment ind pct target) rows)) <= length rows).
  { clear -ONE. induction rows as [|a rows IH]; [cbn; lia|]. cbn [map concat length]. rewrite app_length. specialize (ONE a). lia. }
  assert (LR : (Z.of_nat (length rows) <= window)%Z).
  { pose proof F as (F0 & FL & FN & _). assert (0 < length rows) by (eapply nth_error_Some_lt; eauto). destruct (nth_error_lt_Some rows (length rows - 1)) as (r & R); [lia|].
    destruct (FN r (nth_error_In _ _ R)) as (ti & tr & s & TI & TR & AB & _). pose proof (followed_dates _ _ _ _ _ _ F forward MV _ r ti tr R TI TR) as D. apply Qabs_Qlt_condition in AB as [A1 A2].
    assert (LT : (inject_Z (Z.of_nat (length rows - 1)) < inject_Z window)%Q) by (destruct forward; lra). apply (proj1 (inject_Z_lt_iff _ _)) in LT. lia. }
  destruct (Z.leb_spec (Z.of_nat (length (concat (map (into segment ind pct target) rows)))) window); [reflexivity|lia].
Qed.
Print Assumptions C116_fits.

(** Segment 1 (rows 0 to 2) merges in segment 2 (rows 3 and 4); rows 5 and 6 are
    the segments 2 and 3 of another network. *)
Definition ex_follow : list Z := [1; 2; -1; 4; -1; -1; -1]%Z.
Definition ex_t : list Q := [10; 11; 12; 13; 14; 13; 13]%Q.
Definition ex_segment : list nat := [1; 1; 1; 2; 2; 2; 3].
Definition ex_network : list nat := [1; 1; 1; 1; 1; 7; 7].
Definition ex_ind : list (Z * Z) := [(3, -1); (-1, -1); (6, 3); (4, -1); (-1, -1); (-1, -1); (-1, -1)]%Z.
Definition ex_pct : list (Q * Q) := [(80, 0); (0, 0); (60, 30); (90, 0); (0, 0); (0, 0); (0, 0)]%Q.
Lemma ex_sound : sound ex_follow ex_t ex_segment ex_ind ex_pct.
Proof.
  split; [reflexivity|]. split; [reflexivity|]. split; [reflexivity|]. split; [reflexivity|]. split.
  - intros g I. unfold row_or_none. cbn [length ex_t]. repeat (destruct I as [<-|I]; [lia|]). destruct I.
  - intros g I. unfold row_or_none. cbn [length ex_t]. repeat (destruct I as [<-|I]; [cbn [fst snd]; lia|]). destruct I.
Qed.
Lemma ex_moves : moves ex_follow ex_t true 1.
Proof.
  intros a b ta tb F A B. destruct a as [|[|[|[|[|[|[|a]]]]]]]; cbn in F; try discriminate F; try (destruct a; discriminate F); apply Some_inj in F.
  - assert (b = 1) by lia. subst b. cbn in A, B. apply Some_inj in A. apply Some_inj in B. subst. lra.
  - assert (b = 2) by lia. subst b. cbn in A, B. apply Some_inj in A. apply Some_inj in B. subst. lra.
  - lia.
  - assert (b = 4) by lia. subst b. cbn in A, B. apply Some_inj in A. apply Some_inj in B. subst. lra.
  - lia.
  - lia.
  - lia.
Qed.
Example C116_example : sound ex_follow ex_t ex_segment ex_ind ex_pct /\ moves ex_follow ex_t true 1 /\
  (forall r, length (into ex_segment ex_ind ex_pct 2 r) <= 1) /\
  percents_on_following ex_follow ex_t ex_segment ex_ind ex_pct 0 3 10 1 = Some (Some [80; 30]%Q) /\
  percents_on_following ex_follow ex_t ex_segment ex_ind ex_pct 0 3 2 1 = Some (Some [80]%Q) /\
  percents_on_following ex_follow ex_t ex_segment ex_ind ex_pct 0 3 10 3 = Some None /\
  percents_around_event ex_follow ex_t ex_segment ex_ind ex_pct [(3, 2, 0)%Z] 10 false 1 = Some [(Some [30]%Q, Some [80; 30]%Q)].
Proof.
  split; [apply ex_sound|]. split; [apply ex_moves|]. split; [|repeat split; vm_compute; reflexivity].
  intros r. destruct r as [|[|[|[|[|[|[|r]]]]]]]; try (vm_compute; lia). unfold into. replace (nth_error ex_ind (S (S (S (S (S (S (S r)))))))) with (@None (Z * Z)) by (destruct r; reflexivity). cbn. lia.
Qed.
(** Segments are compared without their network: when the particles of a row end
    in segment 2 of its network and in segment 2 of another one both are counted,
    and with a window of one day the buffer is overrun. *)
Definition ex_ind2 : list (Z * Z) := [(3, 5); (-1, -1); (-1, -1); (-1, -1); (-1, -1); (-1, -1); (-1, -1)]%Z.
Definition ex_pct2 : list (Q * Q) := [(60, 30); (0, 0); (0, 0); (0, 0); (0, 0); (0, 0); (0, 0)]%Q.
Theorem C116_networks_refuted : sound ex_follow ex_t ex_segment ex_ind2 ex_pct2 /\ nth_error ex_network 3 = Some 1 /\ nth_error ex_network 5 = Some 7 /\
  percents_on_following ex_follow ex_t ex_segment ex_ind2 ex_pct2 0 3 5 1 = Some (Some [60; 30]%Q) /\
  percents_on_following ex_follow ex_t ex_segment ex_ind2 ex_pct2 0 3 1 1 = None.
Proof.
  split; [|repeat split; vm_compute; reflexivity]. split; [reflexivity|]. split; [reflexivity|]. split; [reflexivity|]. split; [reflexivity|]. split; [apply (proj1 (proj2 (proj2 (proj2 (proj2 ex_sound)))))|].
  intros g I. unfold row_or_none. cbn [length ex_t]. repeat (destruct I as [<-|I]; [cbn [fst snd]; lia|]). destruct I.
Qed.
Print Assumptions C116_networks_refuted.
(** Each event gives the statistics from its two origins towards the target, or
    from the target towards its two origins when the parent is followed. *)
Theorem C116_events : forall follow t segment ind pct events window follow_parent nb_min r,
  percents_around_event follow t segment ind pct events window follow_parent nb_min = Some r ->
  length r = length events /\
  forall j i i1 i2, nth_error events j = Some (i, i1, i2) -> exists a b, nth_error r j = Some (a, b) /\
    let stat := fun from to => percents_on_following follow t segment ind pct from to window nb_min in
    if follow_parent : bool then stat i i1 = Some a /\ stat i i2 = Some b else stat i1 i = Some a /\ stat i2 i = Some b.
Proof.
  intros follow t segment ind pct events window fp nb. unfold percents_around_event. induction events as [|[[i i1] i2] events IH]; intros r E.
  - apply Some_inj in E. subst r. split; [reflexivity|]. intros j i i1 i2 J. destruct j; discriminate J.
  - cbn [map sequence] in E. apply bind_Some in E as ([a b] & A & E). apply bind_Some in E as (r' & R & E). apply Some_inj in E. subst r. destruct (IH r' R) as [L N]. split; [cbn; lia|].
    intros j x x1 x2 J. destruct j as [|j]; [|apply (N j _ _ _ J)]. cbn in J. apply Some_inj in J. injection J as -> -> ->. exists a, b. split; [reflexivity|]. apply bind_Some in A as (a' & A1 & A). apply bind_Some in A as (b' & A2 & A). apply Some_inj in A. injection A as -> ->. destruct fp; split; assumption.
Qed.
Print Assumptions C116_events.
