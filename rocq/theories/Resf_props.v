(** * C148: resume from the file *)
From Coq Require Import List Arith Bool ZArith QArith Qabs Qround Lia Lqa.
From Verif Require Import Base Qaux Corr_model Corr_props File_model File_props Resf_model.
Import ListNotations.
Local Close Scope Q_scope.
Local Open Scope nat_scope.

(** ** Runs which differ by the eddies waited for *)
Definition orel {A B} (R : A -> B -> Prop) (x : option A) (y : option B) : Prop :=
  match x, y with Some a, Some b => R a b | None, None => True | _, _ => False end.
Lemma orel_bind : forall {A B C D} (R : A -> B -> Prop) (S : C -> D -> Prop) x y f g, orel R x y -> (forall a b, R a b -> orel S (f a) (g b)) -> orel S (bind x f) (bind y g).
Proof. intros A B C D R S [a|] [b|] f g H K; cbn in *; try contradiction; auto. Qed.
Lemma orel_eq : forall {A} (x : option A), orel eq x x.
Proof. intros A [a|]; cbn; auto. Qed.
Lemma f2_length : forall {A B} (R : A -> B -> Prop) l m, Forall2 R l m -> length l = length m.
Proof. induction 1; cbn; congruence. Qed.
Lemma f2_map_eq : forall {A B C} (R : A -> B -> Prop) (f : A -> C) (g : B -> C) l m, Forall2 R l m -> (forall a b, R a b -> f a = g b) -> map f l = map g m.
Proof. intros A B C R f g l m H K. induction H; cbn; [reflexivity|]. f_equal; auto. Qed.
Lemma f2_refl : forall {A} (R : A -> A -> Prop) l, (forall a, R a a) -> Forall2 R l l.
Proof. induction l; constructor; auto. Qed.
Lemma f2_nth : forall {A B} (R : A -> B -> Prop) l m i, Forall2 R l m -> orel R (nth_error l i) (nth_error m i).
Proof. intros A B R l m i H. revert i. induction H; intros [|i]; cbn; auto. Qed.
Lemma f2_gather : forall {A B} (R : A -> B -> Prop) l m ix, Forall2 R l m -> orel (Forall2 R) (gather l ix) (gather m ix).
Proof.
  intros A B R l m ix H. induction ix as [|i ix IH]; [constructor|]. cbn [gather]. eapply orel_bind; [apply f2_nth; exact H|]. intros a b AB. eapply orel_bind; [exact IH|]. intros x y XY. cbn. constructor; auto.
Qed.
Lemma f2_app : forall {A B} (R : A -> B -> Prop) a b c d, Forall2 R a b -> Forall2 R c d -> Forall2 R (a ++ c) (b ++ d).
Proof. intros A B R a b c d H K. induction H; cbn; [exact K|constructor; auto]. Qed.
Lemma f2_map : forall {A B C D} (R : A -> B -> Prop) (S : C -> D -> Prop) f g l m, Forall2 R l m -> (forall a b, R a b -> S (f a) (g b)) -> Forall2 S (map f l) (map g m).
Proof. intros A B C D R S f g l m H K. induction H; cbn; constructor; auto. Qed.

Section Sim.
  Context {Obs V : Type} (as_obs : V -> Obs) (extrapolate : Obs -> Obs -> V) (prolong : V -> V) (associate : list Obs -> list Obs -> option (list (nat * nat * Q))) (nbv : nat).
  Context (RO : Obs -> Obs -> Prop) (RV : V -> V -> Prop).
  Context (R1 : forall o, RO o o) (R2 : forall v w, RV v w -> RO (as_obs v) (as_obs w) /\ RV (prolong v) (prolong w)) (R3 : forall a a' b b', RO a a' -> RO b b' -> RV (extrapolate a b) (extrapolate a' b'))
    (R4 : forall l l' d, Forall2 RO l l' -> associate l d = associate l' d).
  Definition rvobs (v w : @vobs V) : Prop := RV (v_data v) (v_data w) /\ v_track v = v_track w /\ v_size v = v_size w.
  Record srel (a b : @state Obs V) : Prop := mksrel {
    e_links : s_links a = s_links b; e_id : s_id a = s_id b; e_flg : s_flg a = s_flg b;
    e_p2 : orel (Forall2 RO) (s_prev2 a) (s_prev2 b); e_p : orel (Forall2 RO) (s_prev a) (s_prev b); e_c : orel (Forall2 RO) (s_cur a) (s_cur b);
    e_v : orel (Forall2 rvobs) (s_virt a) (s_virt b); e_pv : orel (Forall2 rvobs) (s_pvirt a) (s_pvirt b) }.
  Lemma cells_same : forall va vb nb ins ids, orel (Forall2 rvobs) va vb -> virtual_cells nbv va nb ins ids = virtual_cells nbv vb nb ins ids.
  Proof.
    intros va vb nb ins ids H. revert ids. induction ins as [|i ins IH]; intros [|id ids]; try reflexivity. cbn [virtual_cells]. rewrite IH. f_equal.
    unfold virtual_cell. destruct (virtual nbv && (nb <=? i)); [|reflexivity]. destruct va as [va|], vb as [vb|]; cbn in H; try contradiction; [|reflexivity]. cbn [bind].
    pose proof (f2_nth _ va vb (i - nb) H) as N. destruct (nth_error va _) as [x|], (nth_error vb _) as [y|]; cbn in N; try contradiction; [|reflexivity]. destruct N as (_ & N1 & N2). cbn [bind]. rewrite N1, N2. reflexivity.
  Qed.
  Lemma store_same : forall a b nb links, srel a b -> store_correspondance nbv a nb links = store_correspondance nbv b nb links.
  Proof.
    intros a b nb links H. unfold store_correspondance. destruct H as [E1 E2 E3 E4 E5 E6 E7 E8]. rewrite E1, E2. destruct (s_prev2 a), (s_prev2 b); cbn in E4; try contradiction; [|reflexivity].
    destruct (s_prev a) as [p|], (s_prev b) as [q|]; cbn in E5; try contradiction; [|reflexivity]. cbn [bind]. rewrite (f2_length _ _ _ E5). destruct (hd_error (s_links b)); [|reflexivity]. cbn [bind].
    destruct (stores _ _ _); [|reflexivity]. cbn [bind]. destruct (gather _ _); [|reflexivity]. cbn [bind]. rewrite (cells_same _ _ _ _ _ E7). reflexivity.
  Qed.
  Lemma filter_rel : forall l m, Forall2 rvobs l m -> Forall2 rvobs (filter (fun v => (v_size v <? Z.of_nat nbv)%Z) l) (filter (fun v => (v_size v <? Z.of_nat nbv)%Z) m).
  Proof. intros l m H. induction H as [|v w l m (A & B & C) H IH]; cbn [filter]; [constructor|]. rewrite C. destruct (_ <? _)%Z; [constructor; [split; auto|exact IH]|exact IH]. Qed.
  Lemma recense_rel : forall a b, srel a b -> orel srel (recense extrapolate prolong nbv a) (recense extrapolate prolong nbv b).
  Proof.
    intros a b H. pose proof H as [E1 E2 E3 E4 E5 E6 E7 E8]. unfold recense. rewrite <- E1. destruct (s_links a) as [|last [|before rest]] eqn:L; [exact I|exact I|].
    destruct (negb (virtual nbv)); [exact H|]. eapply (orel_bind (Forall2 rvobs)).
    { destruct (s_virt a) as [va|], (s_virt b) as [vb|]; cbn in E7; try contradiction; [|constructor]. rewrite <- (f2_map_eq rvobs v_track v_track va vb E7) by (intros v w (_ & X & _); exact X).
      destruct (index _ _) as [ix|]; [|exact I]. cbn [bind]. eapply orel_bind; [apply f2_gather; exact E7|]. intros x y XY. cbn. apply filter_rel. exact XY. }
    intros ta tb T. destruct (index (map c_id before) _) as [ix|]; [|exact I]. cbn [bind]. destruct (gather before ix) as [rows|]; [|exact I]. cbn [bind].
    eapply (orel_bind (Forall2 RO)); [exact E4|]. intros p2 q2 P2. eapply (orel_bind (Forall2 RO)); [exact E5|]. intros p q P. eapply orel_bind; [apply f2_gather; exact P2|]. intros oa oa' A. eapply orel_bind; [apply f2_gather; exact P|]. intros ob ob' B.
    cbn. constructor; cbn; auto. apply f2_app.
    - generalize (setdiff1d (map c_id before) (map c_id last)) as dead. intros dead. clear - A B R3. revert ob ob' dead B. induction A as [|x x' la la' X A IH]; intros ob ob' dead B; [constructor|]. destruct B as [|y y' lb lb' Y B]; [constructor|]. destruct dead as [|t dead]; [constructor|]. cbn [map3]. constructor; [split; cbn; auto|apply IH; exact B].
    - eapply f2_map; [exact T|]. intros v w (X & Y & Z0). split; cbn; [apply R2; exact X|]. rewrite Y, Z0. auto.
  Qed.
  Lemma step_rel : forall a b d, srel a b -> orel srel (step as_obs extrapolate prolong associate nbv a d) (step as_obs extrapolate prolong associate nbv b d).
  Proof.
    intros a b d H. pose proof H as [E1 E2 E3 E4 E5 E6 E7 E8]. unfold step, swap. cbn [s_prev s_flg s_virt s_links s_id s_prev2 s_cur s_pvirt].
    eapply (orel_bind (Forall2 RO)); [exact E6|]. intros ra rb RR. eapply (orel_bind (Forall2 RO)).
    { rewrite E3. destruct (s_flg b); [|exact RR]. eapply (orel_bind (Forall2 rvobs)); [exact E7|]. intros va vb VV. cbn. apply f2_app; [exact RR|]. eapply f2_map; [exact VV|]. intros v w (X & _). apply R2. exact X. }
    intros pa pb P. rewrite (R4 pa pb d P). destruct (associate pb d) as [links|]; [|exact I]. cbn [bind].
    rewrite (f2_length _ _ _ RR). set (sa := mkstate (s_links a) _ _ _ _ _ _ _). set (sb := mkstate (s_links b) _ _ _ _ _ _ _).
    assert (S1 : srel sa sb) by (constructor; cbn; auto; apply f2_refl; exact R1).
    rewrite (store_same sa sb (length rb) links S1). destruct (store_correspondance nbv sb (length rb) links) as [[[cs cur] first]|]; [|exact I]. cbn [bind].
    assert (S2 : srel (mkstate (cs :: s_links a) cur (s_prev a) (Some pa) (Some d) (s_virt a) (s_pvirt a) (s_flg a)) (mkstate (cs :: s_links b) cur (s_prev b) (Some pb) (Some d) (s_virt b) (s_pvirt b) (s_flg b))).
    { constructor; cbn; auto; [congruence|apply f2_refl; exact R1]. }
    destruct first; [exact S2|]. eapply orel_bind; [apply recense_rel; exact S2|]. intros x y [F1 F2 F3 F4 F5 F6 F7 F8]. cbn. constructor; cbn; auto. rewrite F3. reflexivity.
  Qed.
  Lemma steps_rel : forall ds a b, srel a b -> orel srel (steps as_obs extrapolate prolong associate nbv a ds) (steps as_obs extrapolate prolong associate nbv b ds).
  Proof. induction ds as [|d ds IH]; intros a b H; [exact H|]. cbn [steps]. eapply orel_bind; [apply step_rel; exact H|]. intros x y XY. apply IH. exact XY. Qed.
  Lemma read_rows_rel : forall (rho : V -> option V) l m, (forall v w, In v l -> rho (v_data v) = Some w -> RV (v_data v) w) -> read_rows rho l = Some m -> Forall2 rvobs l m.
  Proof.
    intros rho. induction l as [|v l IH]; intros m H E; cbn [read_rows] in E; [injection E as <-; constructor|]. destruct (rho (v_data v)) as [w|] eqn:W; [|discriminate]. cbn [bind] in E. destruct (read_rows rho l) as [r|] eqn:RR; [|discriminate]. cbn [bind] in E. injection E as <-.
    constructor; [split; cbn; auto; apply H; [left; reflexivity|exact W]|]. apply IH; [|reflexivity]. intros; apply H; [right|]; assumption.
  Qed.
End Sim.

(** The eddies waited for which the file of a run holds. *)
Definition waited {V} (f : @saved V) (v : V) : Prop :=
  exists l x, (f_virt f = Some l \/ f_pvirt f = Some l) /\ In x l /\ v_data x = v.

(** The links of the resumed run are those of the run without stop as soon as the
    association does not see the difference between an eddy waited for and what is
    read of it, nor that of the eddies which come from them. *)
Theorem C148_same_links : forall {Obs V} as_obs extrapolate prolong associate nbv (RO : Obs -> Obs -> Prop) (RV : V -> V -> Prop) rho ds1 ds2 st f f',
  (forall o, RO o o) -> (forall v w, RV v w -> RO (as_obs v) (as_obs w) /\ RV (prolong v) (prolong w)) ->
  (forall a a' b b', RO a a' -> RO b b' -> RV (extrapolate a b) (extrapolate a' b')) ->
  (forall l l' d, Forall2 RO l l' -> associate l d = associate l' d) ->
  track as_obs extrapolate prolong associate nbv ds1 = Some st -> 1 <= length (s_links st) -> (0 < nbv -> 3 <= length (s_links st)) -> (forall s, In s (s_links st) -> s <> []) ->
  save st = Some f -> read_back rho f = Some f' -> (forall v w, waited f v -> rho v = Some w -> RV v w) ->
  option_map (fun s => (s_links s, s_id s)) (resume as_obs extrapolate prolong associate nbv f' (ds1 ++ ds2)) =
  option_map (fun s => (s_links s, s_id s)) (track as_obs extrapolate prolong associate nbv (ds1 ++ ds2)).
Proof.
  intros Obs V as_obs extrapolate prolong associate nbv RO RV rho ds1 ds2 st f f' R1 R2 R3 R4 T L1 L3 NE S RB W.
  destruct (C09_resume_equals_full_run as_obs extrapolate prolong associate nbv ds1 ds2 st T L1 L3 NE) as (g & G1 & G2). rewrite S in G1. injection G1 as <-.
  assert (X : orel (srel RO RV) (resume as_obs extrapolate prolong associate nbv f (ds1 ++ ds2)) (resume as_obs extrapolate prolong associate nbv f' (ds1 ++ ds2))).
  { unfold read_back in RB. assert (ROWS : forall l m, f_virt f = Some l \/ f_pvirt f = Some l -> read_rows rho l = Some m -> Forall2 (rvobs RV) l m).
    { intros l m D E. eapply read_rows_rel; [|exact E]. intros v w I0 E'. apply W; [|exact E']. exists l, v. auto. }
    destruct (match f_virt f with Some l => _ | None => _ end) as [vv|] eqn:EV; [|discriminate]. cbn [bind] in RB. destruct (match f_pvirt f with Some l => _ | None => _ end) as [pp|] eqn:EP; [|discriminate]. cbn [bind] in RB. injection RB as <-.
    assert (OV : orel (Forall2 (rvobs RV)) (f_virt f) vv). { destruct (f_virt f) as [l|]; [|injection EV as <-; exact I]. destruct (read_rows rho l) eqn:E; [|discriminate]. injection EV as <-. cbn. apply ROWS; auto. }
    assert (OP : orel (Forall2 (rvobs RV)) (f_pvirt f) pp). { destruct (f_pvirt f) as [l|]; [|injection EP as <-; exact I]. destruct (read_rows rho l) eqn:E; [|discriminate]. injection EP as <-. cbn. apply ROWS; auto. }
    unfold resume. cbn [f_links f_id f_virt f_pvirt]. destruct (_ || _); [exact I|]. destruct (nth_error (ds1 ++ ds2) _) as [cur0|]; [|exact I]. cbn [bind]. destruct (nth_error (ds1 ++ ds2) _) as [d|]; [|exact I]. cbn [bind].
    destruct (virtual nbv).
    - eapply orel_bind; [exact OV|]. intros va vb VV. eapply orel_bind; [exact OP|]. intros pa pb PP. apply steps_rel; auto. unfold swap. constructor; cbn; auto; [|apply f2_refl; exact R1]. apply f2_app; [apply f2_refl; exact R1|]. eapply f2_map; [exact PP|]. intros v w (X & _). apply R2. exact X.
    - apply steps_rel; auto. unfold swap. constructor; cbn; auto; apply f2_refl; exact R1. }
  assert (Y : option_map (fun s => (s_links s, s_id s)) (resume as_obs extrapolate prolong associate nbv f (ds1 ++ ds2)) = option_map (fun s => (s_links s, s_id s)) (track as_obs extrapolate prolong associate nbv (ds1 ++ ds2))).
  { destruct (resume _ _ _ _ _ f _) as [s1|], (track _ _ _ _ _ (ds1 ++ ds2)) as [s2|]; cbn in *; try discriminate; [|reflexivity]. injection G2 as -> -> _ _ _ _ _. reflexivity. }
  rewrite <- Y. destruct (resume _ _ _ _ _ f _) as [s1|], (resume _ _ _ _ _ f' _) as [s2|]; cbn in X |- *; try contradiction; [|reflexivity]. destruct X as [-> -> _ _ _ _ _ _]. reflexivity.
Qed.
Print Assumptions C148_same_links.

(** Above all when each eddy waited for is read as it was. *)
Theorem C148_exact : forall {Obs V} as_obs extrapolate prolong associate nbv (rho : V -> option V) (ds1 ds2 : list (list Obs)) st f,
  track as_obs extrapolate prolong associate nbv ds1 = Some st -> 1 <= length (s_links st) -> (0 < nbv -> 3 <= length (s_links st)) -> (forall s, In s (s_links st) -> s <> []) ->
  save st = Some f -> (forall v, waited f v -> rho v = Some v) ->
  exists f', read_back rho f = Some f' /\
  option_map (fun s => (s_links s, s_id s)) (resume as_obs extrapolate prolong associate nbv f' (ds1 ++ ds2)) =
  option_map (fun s => (s_links s, s_id s)) (track as_obs extrapolate prolong associate nbv (ds1 ++ ds2)).
Proof.
  intros Obs V as_obs extrapolate prolong associate nbv rho ds1 ds2 st f T L1 L3 NE S W.
  assert (RR : forall l, f_virt f = Some l \/ f_pvirt f = Some l -> read_rows rho l = Some l).
  { intros l D. assert (K : forall x, In x l -> rho (v_data x) = Some (v_data x)) by (intros x I0; apply W; exists l, x; auto). clear - K. induction l as [|[v t z] l IH]; [reflexivity|]. cbn [read_rows v_data v_track v_size]. pose proof (K _ (or_introl eq_refl)) as K0; cbn [v_data] in K0; rewrite K0; clear K0. cbn [bind]. rewrite IH by (intros; apply K; right; assumption). reflexivity. }
  assert (RB : read_back rho f = Some f). { unfold read_back. destruct f as [fl fi fv fp]. cbn [f_virt f_pvirt f_links f_id] in *. destruct fv as [fv|]; [rewrite (RR fv) by auto|]; (destruct fp as [fp|]; [rewrite (RR fp) by auto|]); reflexivity. }
  exists f. split; [exact RB|]. eapply (C148_same_links as_obs extrapolate prolong associate nbv eq eq rho); eauto.
  - intros v w ->. auto.
  - intros a a' b b' -> ->. reflexivity.
  - intros l l' d F. f_equal. clear - F. induction F; congruence.
  - intros v w I0 E. rewrite (W v I0) in E. congruence.
Qed.
Print Assumptions C148_exact.

(** ** What is read of an eddy waited for *)
(** Amplitude and radius which come from files of identifications are read as they
    were, others at most half a step away; the move is the same; the position is that
    in single precision, so is the next one up to the same difference. *)
Theorem C148_row : forall r32 v,
  (forall ka kr, (0 <= ka <= 65535)%Z -> (0 <= kr <= 65535)%Z -> amplitude v = read_value Netcdf false 1 p_amplitude ka -> radius_s v = read_value Netcdf false 1 p_radius kr ->
     stored r32 v = Some (mkwrow (r32 (lon v)) (r32 (lat v)) (dlon v) (dlat v) (amplitude v) (radius_s v))) /\
  ((0 <= amplitude v <= 65535 # 10000)%Q -> (0 <= radius_s v <= 3276750)%Q ->
     exists w, stored r32 v = Some w /\ lon w = r32 (lon v) /\ lat w = r32 (lat v) /\ dlon w = dlon v /\ dlat w = dlat v /\
       (Qabs (amplitude w - amplitude v) <= 1 # 20000)%Q /\ (Qabs (radius_s w - radius_s v) <= 25)%Q /\
       ((lon w + dlon w) - (lon v + dlon v) == r32 (lon v) - lon v)%Q /\ ((lat w + dlat w) - (lat v + dlat v) == r32 (lat v) - lat v)%Q).
Proof.
  intros r32 v. split.
  - intros ka kr KA KR A B. unfold stored, packed. rewrite A, B. rewrite (C112_again Netcdf Netcdf p_amplitude (1#10000)%Q ka) by (try reflexivity; exact KA). cbn [bind]. rewrite (C112_again Netcdf Netcdf p_radius 50%Q kr) by (try reflexivity; exact KR). reflexivity.
  - intros A B. unfold stored, packed. destruct (C112_nearest Netcdf Netcdf p_amplitude (1#10000)%Q (amplitude v)) as (ka & K1 & _ & K2); [reflexivity|reflexivity|unfold in_reach, stands_for, off; cbn [offset low high p_amplitude]; change (inject_Z 0) with 0%Q; change (inject_Z 65535) with 65535%Q; lra|]. rewrite K1. cbn [bind].
    destruct (C112_nearest Netcdf Netcdf p_radius 50%Q (radius_s v)) as (kr & K3 & _ & K4); [reflexivity|reflexivity|unfold in_reach, stands_for, off; cbn [offset low high p_radius]; change (inject_Z 0) with 0%Q; change (inject_Z 65535) with 65535%Q; lra|]. rewrite K3. cbn [bind]. eexists. split; [reflexivity|]. cbn [lon lat dlon dlat amplitude radius_s]. repeat split; try (eapply Qle_trans; [eassumption|]; unfold Qle; cbn; lia); ring.
Qed.
Print Assumptions C148_row.

(** ** The positions are enough for another outcome *)
(** Along a line: the eddy at 15 + 2^-20, then 16.25, is lost; what comes next is at
    the limit of the search from the position read, and beyond from the position. *)
Definition near2 (a b : Q) : option Q :=
  let d := (if Qle_bool a b then b - a else a - b)%Q in if Qle_bool d 2 then Some d else None.
Definition line_as (v : Q * Q) : Q := fst v.
Definition line_ex (a b : Q) : Q * Q := (b + (b - a), b - a)%Q.
Definition line_pr (v : Q * Q) : Q * Q := (fst v + snd v, snd v)%Q.
Definition line_rho (v : Q * Q) : option (Q * Q) := Some (single (fst v), snd v).
Definition first_dates : list (list Q) := [[100]; [100; 15 + (1 # 1048576)]; [100; 65 # 4]; [100]]%Q.
Definition next_dates : list (list Q) := [[100; 39 # 2]; [100; 20]]%Q.
Theorem C148_resume_refuted :
  (forall q, In q (concat (first_dates ++ next_dates)) -> single q == q)%Q /\
  exists st f f' s1 s2, track line_as line_ex line_pr (solver_associate near2) 2 first_dates = Some st /\ 3 <= length (s_links st) /\ (forall s, In s (s_links st) -> s <> []) /\
    save st = Some f /\ read_back line_rho f = Some f' /\
    track line_as line_ex line_pr (solver_associate near2) 2 (first_dates ++ next_dates) = Some s1 /\ resume line_as line_ex line_pr (solver_associate near2) 2 f' (first_dates ++ next_dates) = Some s2 /\
    (* the eddy found again is a new track without the stop, and the lost track with it *)
    map (map (fun c => (c_in c, c_out c, c_id c))) (s_links s1) = [[(0, 0, 0); (1, 1, 2)]; [(0, 0, 0)]; [(0, 0, 0)]; [(0, 0, 0); (1, 1, 1)]; [(0, 0, 0)]] /\
    map (map (fun c => (c_in c, c_out c, c_id c))) (s_links s2) = [[(0, 0, 0); (1, 1, 1)]; [(0, 0, 0); (1, 1, 1)]; [(0, 0, 0)]; [(0, 0, 0); (1, 1, 1)]; [(0, 0, 0)]].
Proof.
  split.
  - intros q I0. vm_compute in I0. repeat (destruct I0 as [<-|I0]; [vm_compute; reflexivity|]). destruct I0.
  - let r := eval vm_compute in (track line_as line_ex line_pr (solver_associate near2) 2 first_dates) in
    match r with Some ?st => exists st end.
    match goal with |- exists f f' s1 s2, ?t = Some ?st /\ _ => let r := eval vm_compute in (save st) in match r with Some ?f => exists f; let r' := eval vm_compute in (read_back line_rho f) in match r' with Some ?f' => exists f'; let r2 := eval vm_compute in (resume line_as line_ex line_pr (solver_associate near2) 2 f' (first_dates ++ next_dates)) in let r1 := eval vm_compute in (track line_as line_ex line_pr (solver_associate near2) 2 (first_dates ++ next_dates)) in match r1 with Some ?s1 => match r2 with Some ?s2 => exists s1, s2 end end end end end.
    split; [vm_compute; reflexivity|]. split; [cbn; lia|]. split; [intros s I0; cbn in I0; repeat (destruct I0 as [<-|I0]; [discriminate|]); destruct I0|]. split; [vm_compute; reflexivity|]. split; [vm_compute; reflexivity|]. split; [vm_compute; reflexivity|]. split; [vm_compute; reflexivity|]. split; vm_compute; reflexivity.
Qed.
Print Assumptions C148_resume_refuted.

(** Case of [C148_exact]: the run of C09, all positions are whole numbers. *)
Example C148_case : exists st f f', line_track 2 (firstn 4 line_dates) = Some st /\ save st = Some f /\ read_back (fun v => Some (if Qlt_bool (fst v) 1 then fst v else Qred (single (fst v)), snd v)) f = Some f' /\
  option_map (fun s => rev (s_links s)) (resume line_as line_ex line_pr (solver_associate near) 2 f' line_dates) = Some (line_links 2) /\ f_virt f' <> Some [].
Proof.
  let r := eval vm_compute in (line_track 2 (firstn 4 line_dates)) in match r with Some ?st => exists st; let r' := eval vm_compute in (save st) in match r' with Some ?f => exists f end end.
  eexists. split; [vm_compute; reflexivity|]. split; [vm_compute; reflexivity|]. split; [vm_compute; reflexivity|]. split; [vm_compute; reflexivity|discriminate].
Qed.
(** Case of [C148_row]: an eddy of 12 cm and 60 km. *)
Example C148_row_case : stored single (mkwrow (35 # 2) 40 (5 # 4) 0 (12 # 100) 60000) <> None /\ (forall k, k = 1200%Z -> 12 # 100 == read_value Netcdf false 1 p_amplitude k)%Q.
Proof. split; [vm_compute; discriminate|intros k ->; vm_compute; reflexivity]. Qed.
