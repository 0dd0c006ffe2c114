(** Properties of the variables kept by a grid and of collections of grids. *)
From Coq Require Import List Arith ZArith QArith Bool Lia Lqa.
From Verif Require Import Base Qaux Obs_proofs Store_model.
Import ListNotations.
Local Close Scope Q_scope.
Local Open Scope nat_scope.

Lemma lookup_filter : forall {V} n k (d : list (nat * V)), k <> n -> lookup n (filter (fun p => negb (fst p =? k)) d) = lookup n d.
Proof.
  intros V n k d H. induction d as [|(a, v) d IH]; [reflexivity|]. cbn [filter fst]. destruct (Nat.eqb_spec a k) as [->|N]; cbn [negb lookup].
  - destruct (Nat.eqb_spec k n); [contradiction|]. exact IH.
  - destruct (a =? n); [reflexivity|exact IH].
Qed.
Lemma lookup_put : forall {V} n k (v : V) d, lookup n (put k v d) = if k =? n then Some v else lookup n d.
Proof. intros. unfold put. cbn [lookup]. destruct (Nat.eqb_spec k n); [reflexivity|]. apply lookup_filter. exact n0. Qed.
Lemma lookup_pop : forall {V} n k (d : list (nat * V)), lookup n (pop k d) = if k =? n then None else lookup n d.
Proof.
  intros. unfold pop. destruct (Nat.eqb_spec k n) as [->|H]; [|apply lookup_filter; exact H].
  induction d as [|(a, v) d IH]; [reflexivity|]. cbn [filter fst]. destruct (Nat.eqb_spec a n) as [->|N]; cbn [negb lookup]; [exact IH|]. destruct (Nat.eqb_spec a n); [contradiction|exact IH].
Qed.
Lemma lookup_flags : forall {V} n (d : list (nat * V)), lookup n (map (fun p => (fst p, false)) d) = match lookup n d with Some _ => Some false | None => None end.
Proof. intros. induction d as [|(a, v) d IH]; [reflexivity|]. cbn [map fst lookup]. destruct (a =? n); [reflexivity|exact IH]. Qed.

(** The calls which give a new value to a variable. *)
Definition stores {A Idx} (n : nat) (c : call A Idx) : Prop :=
  match c with Copy _ b => b = n | AddGrid m _ => m = n | AddUV _ u v => u = n \/ v = n | _ => False end.
(** The field of the file with the longitudes first. *)
Definition oriented {A Idx} (tr : A -> A) (f : bool * (Idx -> A)) (i : Idx) : A := if fst f then tr (snd f i) else snd f i.

Section Props.
Variables (A Idx : Type) (tr : A -> A) (no_index : Idx) (file : list (nat * (bool * (Idx -> A)))) (velocity_u velocity_v : A -> A).
Notation grid := (grid A Idx tr file).
Notation run := (run A Idx tr no_index file velocity_u velocity_v).
Notation step := (step A Idx tr no_index file velocity_u velocity_v).
Notation fresh := (fresh A Idx file).
Notation copy := (copy A Idx tr no_index file).
Notation add_uv := (add_uv A Idx tr no_index file velocity_u velocity_v).
Notation write := (write A tr).

Lemma grid_spec : forall s n i a s', grid s n i = Some (a, s') ->
  lookup n (s_vars s') = Some a /\ (forall m, m <> n -> lookup m (s_vars s') = lookup m (s_vars s)) /\ (forall m, m <> n -> lookup m (s_desc s') = lookup m (s_desc s)) /\ s_dims s' = s_dims s /\
  (lookup n (s_vars s) = Some a /\ s' = s \/ lookup n (s_vars s) = None /\ s_dims s = true /\ exists f, lookup n file = Some f /\ a = oriented tr f i /\ (fst f = true -> lookup n (s_desc s') = Some true /\ lookup n (s_desc s) <> None) /\ (fst f = false -> s_desc s' = s_desc s)).
Proof.
  intros s n i a s' E. unfold Store_model.grid in E. destruct (lookup n (s_vars s)) as [b|] eqn:L.
  - injection E as -> <-. split; [exact L|]. split; [reflexivity|]. split; [reflexivity|]. split; [reflexivity|]. left. split; reflexivity.
  - destruct (s_dims s) eqn:D; cbn [negb] in E; [|discriminate E]. destruct (lookup n file) as [(flag, raw)|] eqn:F; [|discriminate E]. cbn [bind] in E. destruct flag.
    + destruct (lookup n (s_desc s)) as [fl|] eqn:LD; [|discriminate E]. cbn [bind] in E. injection E as <- <-. cbn [s_vars s_desc s_dims].
      split; [rewrite lookup_put, Nat.eqb_refl; reflexivity|]. split; [intros m M; rewrite lookup_put; destruct (Nat.eqb_spec n m); [congruence|reflexivity]|]. split; [intros m M; rewrite lookup_put; destruct (Nat.eqb_spec n m); [congruence|reflexivity]|]. split; [reflexivity|].
      right. split; [reflexivity|]. split; [reflexivity|]. exists (true, raw). split; [reflexivity|]. split; [reflexivity|]. split; [|intros H; discriminate H]. intros _. split; [rewrite lookup_put, Nat.eqb_refl; reflexivity|discriminate].
    + injection E as <- <-. cbn [s_vars s_desc s_dims].
      split; [rewrite lookup_put, Nat.eqb_refl; reflexivity|]. split; [intros m M; rewrite lookup_put; destruct (Nat.eqb_spec n m); [congruence|reflexivity]|]. split; [reflexivity|]. split; [reflexivity|].
      right. split; [reflexivity|]. split; [reflexivity|]. exists (false, raw). split; [reflexivity|]. split; [reflexivity|]. split; [intros H; discriminate H|reflexivity].
Qed.
(** A variable not stored nor removed keeps its array. *)
Lemma step_keeps : forall s c s' n a, step s c = Some s' -> ~ stores n c -> c <> Clean -> lookup n (s_vars s) = Some a -> lookup n (s_vars s') = Some a.
Proof.
  intros s c s' n a E NS NC L.
  assert (GK : forall m i b t, grid s m i = Some (b, t) -> lookup n (s_vars t) = Some a).
  { intros m i b t G. destruct (grid_spec _ _ _ _ _ G) as (L1 & L2 & _ & _ & R). destruct (Nat.eq_dec n m) as [->|N]; [|rewrite L2 by exact N; exact L]. destruct R as [(R & ->)|(R & _)]; [exact L|congruence]. }
  destruct c as [m i|x y|m arr|h u v| |]; cbn [Store_model.step] in E.
  - destruct (grid s m i) as [(b, t)|] eqn:G; [|discriminate E]. cbn in E. injection E as <-. eapply GK; eauto.
  - unfold Store_model.copy in E. destruct (lookup x (s_desc s)) as [fl|]; [|discriminate E]. cbn [bind] in E.
    destruct (grid _ x no_index) as [(b, t)|] eqn:G; [|discriminate E]. cbn [bind] in E. injection E as <-. cbn [s_vars]. rewrite lookup_put. destruct (Nat.eqb_spec y n) as [->|N]; [exfalso; apply NS; reflexivity|].
    destruct (grid_spec _ _ _ _ _ G) as (L1 & L2 & _ & _ & R). cbn [s_vars] in *. destruct (Nat.eq_dec n x) as [->|Nx]; [|rewrite L2 by exact Nx; exact L]. destruct R as [(R & ->)|(R & _)]; [exact L|congruence].
  - injection E as <-. unfold add_grid. cbn [s_vars]. rewrite lookup_put. destruct (Nat.eqb_spec m n) as [->|N]; [exfalso; apply NS; reflexivity|exact L].
  - unfold Store_model.add_uv in E. destruct (grid s h no_index) as [(b, t)|] eqn:G; [|discriminate E]. cbn [bind] in E. destruct (lookup h (s_desc t)) as [fl|]; [|discriminate E]. cbn [bind] in E. injection E as <-. cbn [s_vars]. rewrite !lookup_put.
    destruct (Nat.eqb_spec u n) as [->|N1]; [exfalso; apply NS; left; reflexivity|]. destruct (Nat.eqb_spec v n) as [->|N2]; [exfalso; apply NS; right; reflexivity|]. eapply GK; eauto.
  - exfalso. apply NC. reflexivity.
  - injection E as <-. unfold populate. destruct (s_dims s); exact L.
Qed.
Lemma run_keeps : forall cs s s' n a, run s cs = Some s' -> (forall c, In c cs -> ~ stores n c /\ c <> Clean) -> lookup n (s_vars s) = Some a -> lookup n (s_vars s') = Some a.
Proof.
  intros cs. induction cs as [|c cs IH]; intros s s' n a E H L; cbn [Store_model.run] in E; [injection E as <-; exact L|].
  destruct (step s c) as [s1|] eqn:S1; [|discriminate E]. cbn [bind] in E. destruct (H c (or_introl eq_refl)) as (N1 & N2).
  apply (IH s1 s' n a E); [intros c' I; apply H; right; exact I|]. eapply step_keeps; eauto.
Qed.
(** A variable of the file which no call stores. *)
Definition sane (n : nat) (f : bool * (Idx -> A)) (s : store A) : Prop :=
  (s_dims s = false -> lookup n (s_vars s) = None /\ s_desc s = []) /\
  (s_dims s = true -> (lookup n (s_vars s) = None /\ lookup n (s_desc s) = Some false \/ (exists i, lookup n (s_vars s) = Some (oriented tr f i)) /\ lookup n (s_desc s) = Some (fst f))).
Lemma sane_fresh : forall n f, lookup n file = Some f -> sane n f fresh.
Proof. intros n f F. unfold sane, Store_model.fresh, populate. cbn [s_dims s_vars s_desc]. split; [discriminate|]. intros _. left. split; [reflexivity|]. rewrite lookup_flags, F. reflexivity. Qed.
Lemma sane_grid : forall n f s m i b t, lookup n file = Some f -> sane n f s -> grid s m i = Some (b, t) -> sane n f t.
Proof.
  intros n f s m i b t F (S0 & S1) G. destruct (grid_spec _ _ _ _ _ G) as (L1 & L2 & L3 & LD & R).
  destruct R as [(_ & ->)|(R & D & f' & F' & -> & R1 & R2)]; [split; assumption|]. rewrite D in LD. split; [rewrite LD; discriminate|]. intros _.
  destruct (Nat.eq_dec n m) as [<-|N].
  - rewrite F in F'. injection F' as <-. right. split; [exists i; exact L1|]. destruct (S1 D) as [(_ & D1)|((j & V) & _)]; [|congruence].
    destruct (fst f) eqn:FF; [exact (proj1 (R1 eq_refl))|]. rewrite (R2 eq_refl). exact D1.
  - rewrite L2, L3 by exact N. exact (S1 D).
Qed.
Lemma sane_step : forall n f s c s', lookup n file = Some f -> sane n f s -> ~ stores n c -> step s c = Some s' -> sane n f s'.
Proof.
  intros n f s c s' F SN NS E. destruct c as [m i|x y|m arr|h u v| |]; cbn [Store_model.step] in E.
  - destruct (grid s m i) as [(b, t)|] eqn:G; [|discriminate E]. cbn in E. injection E as <-. eapply sane_grid; eauto.
  - unfold Store_model.copy in E. destruct (lookup x (s_desc s)) as [fl|] eqn:LX; [|discriminate E]. cbn [bind] in E.
    destruct (grid _ x no_index) as [(b, t)|] eqn:G; [|discriminate E]. cbn [bind] in E. injection E as <-.
    assert (N : y <> n) by (intros ->; apply NS; reflexivity).
    assert (S1 : sane n f (Store (s_dims s) (s_vars s) (put y fl (s_desc s)))).
    { destruct SN as (S0 & S1). split; cbn [s_dims s_vars s_desc]; intros D; [|rewrite lookup_put; destruct (Nat.eqb_spec y n); [contradiction|]; exact (S1 D)]. destruct (S0 D) as (_ & Z). rewrite Z in LX. discriminate LX. }
    assert (S2 := sane_grid _ _ _ _ _ _ _ F S1 G). destruct (grid_spec _ _ _ _ _ G) as (_ & _ & _ & LD & R). destruct S2 as (S0 & S2).
    split; cbn [s_dims s_vars s_desc]; intros D; rewrite lookup_put; destruct (Nat.eqb_spec y n); try contradiction; auto.
  - injection E as <-. assert (N : m <> n) by (intros ->; apply NS; reflexivity). destruct SN as (S0 & S1). split; unfold add_grid; cbn [s_dims s_vars s_desc]; intros D; rewrite lookup_put; destruct (Nat.eqb_spec m n); try contradiction; auto.
  - unfold Store_model.add_uv in E. destruct (grid s h no_index) as [(b, t)|] eqn:G; [|discriminate E]. cbn [bind] in E. destruct (lookup h (s_desc t)) as [fl|] eqn:LH; [|discriminate E]. cbn [bind] in E. injection E as <-.
    assert (N1 : u <> n) by (intros ->; apply NS; left; reflexivity). assert (N2 : v <> n) by (intros ->; apply NS; right; reflexivity).
    destruct (sane_grid _ _ _ _ _ _ _ F SN G) as (S0 & S1). split; cbn [s_dims s_vars s_desc]; intros D.
    + destruct (S0 D) as (_ & Z). rewrite Z in LH. discriminate LH.
    + rewrite !lookup_put. destruct (Nat.eqb_spec u n); [contradiction|]. destruct (Nat.eqb_spec v n); [contradiction|]. exact (S1 D).
  - injection E as <-. split; cbn [clean s_dims s_vars s_desc]; [split; reflexivity|discriminate].
  - injection E as <-. unfold populate. destruct (s_dims s) eqn:D; [exact SN|]. destruct SN as (S0 & _). destruct (S0 D) as (V & _). split; cbn [s_dims s_vars s_desc]; [discriminate|]. intros _. left. split; [exact V|]. rewrite lookup_flags, F. reflexivity.
Qed.
Lemma sane_run : forall cs s s' n f, lookup n file = Some f -> sane n f s -> (forall c, In c cs -> ~ stores n c) -> run s cs = Some s' -> sane n f s'.
Proof.
  intros cs. induction cs as [|c cs IH]; intros s s' n f F SN H E; cbn [Store_model.run] in E; [injection E as <-; exact SN|].
  destruct (step s c) as [s1|] eqn:S1; [|discriminate E]. cbn [bind] in E. apply (IH s1 s' n f F); [|intros; apply H; right; assumption|exact E]. eapply sane_step; eauto. apply H. left. reflexivity.
Qed.
Lemma lookup_write : forall s n a fl, lookup n (s_vars s) = Some a -> lookup n (s_desc s) = Some fl -> lookup n (write s) = Some (if fl then tr a else a).
Proof.
  intros s n a fl V. unfold Store_model.write. induction (s_desc s) as [|(m, g) d IH]; intros D; [discriminate D|]. cbn [lookup flat_map fst snd] in *.
  destruct (Nat.eqb_spec m n) as [->|N]; [injection D as ->; rewrite V; cbn [app lookup]; rewrite Nat.eqb_refl; reflexivity|].
  destruct (lookup m (s_vars s)); cbn [app lookup]; [destruct (Nat.eqb_spec m n); [contradiction|]|]; auto.
Qed.
Lemma lookup_write_none : forall s n, lookup n (s_desc s) = None -> lookup n (write s) = None.
Proof.
  intros s n. unfold Store_model.write. induction (s_desc s) as [|(m, g) d IH]; intros D; [reflexivity|]. cbn [lookup flat_map fst snd] in *.
  destruct (Nat.eqb_spec m n) as [->|N]; [discriminate D|]. destruct (lookup m (s_vars s)); cbn [app lookup]; [destruct (Nat.eqb_spec m n); [contradiction|]|]; auto.
Qed.

(** C101: a variable of the file which has not been read yet since the grid was
    made or cleaned is read with the indices given, longitudes first. *)
Theorem C101_first : forall cs s n f i, run fresh cs = Some s -> s_dims s = true -> lookup n file = Some f -> (forall c, In c cs -> ~ stores n c) ->
  lookup n (s_vars s) = None -> exists s', grid s n i = Some (oriented tr f i, s').
Proof.
  intros cs s n f i E D F NS V. destruct (sane_run cs fresh s n f F (sane_fresh n f F) NS E) as (_ & SN). destruct (SN D) as [(_ & LD)|((j & V') & _)]; [|congruence].
  unfold Store_model.grid. rewrite V, D, F. cbn [negb bind]. destruct f as (flag, raw). unfold oriented. cbn [fst snd]. destruct flag; [rewrite LD; cbn [bind]|]; eexists; reflexivity.
Qed.
(** C101: then every later reading gives the same array, whatever the calls
    between them and whatever the indices, until the variable is stored again or
    the grid cleaned. *)
Theorem C101_kept : forall s n i a s1 cs s2, grid s n i = Some (a, s1) -> run s1 cs = Some s2 -> (forall c, In c cs -> ~ stores n c /\ c <> Clean) ->
  forall i', grid s2 n i' = Some (a, s2).
Proof.
  intros s n i a s1 cs s2 G E H i'. destruct (grid_spec _ _ _ _ _ G) as (L & _). assert (L2 := run_keeps cs s1 s2 n a E H L). unfold Store_model.grid. rewrite L2. reflexivity.
Qed.
(** C101: so the indices of a second reading are not used. *)
Theorem C101_indices_refuted : forall f, lookup 0 file = Some f -> forall i i', oriented tr f i <> oriented tr f i' ->
  exists s1 a, grid fresh 0 i = Some (oriented tr f i, s1) /\ grid s1 0 i' = Some (a, s1) /\ a <> oriented tr f i'.
Proof.
  intros f F i i' N. destruct (C101_first [] fresh 0 f i) as (s1 & G); auto. exists s1, (oriented tr f i). split; [exact G|]. split; [|exact N]. exact (C101_kept _ _ _ _ _ [] s1 G eq_refl (fun _ I => match I with end) i').
Qed.
(** C101: a variable of the file comes back with its own orientation when the
    grid is written. *)
Theorem C101_written : (forall a, tr (tr a) = a) -> forall cs s n f a, run fresh cs = Some s -> lookup n file = Some f -> (forall c, In c cs -> ~ stores n c) ->
  lookup n (s_vars s) = Some a -> exists i, a = oriented tr f i /\ lookup n (write s) = Some (snd f i).
Proof.
  intros TR cs s n f a E F NS V. destruct (sane_run cs fresh s n f F (sane_fresh n f F) NS E) as (S0 & S1). destruct (s_dims s) eqn:D; [|destruct (S0 eq_refl); congruence].
  destruct (S1 eq_refl) as [(V' & _)|((i & V') & LD)]; [congruence|]. rewrite V in V'. injection V' as ->. exists i. split; [reflexivity|].
  rewrite (lookup_write s n _ _ V LD). unfold oriented. destruct (fst f); [rewrite TR|]; reflexivity.
Qed.
(** C101: the copy of a variable which has already been read is the same array,
    written with the same orientation. *)
Theorem C101_copy : (forall a, tr (tr a) = a) -> forall cs s n m f a, run fresh cs = Some s -> lookup n file = Some f -> (forall c, In c cs -> ~ stores n c) ->
  lookup n (s_vars s) = Some a -> exists s' i, copy s n m = Some s' /\ (forall i', grid s' m i' = Some (a, s')) /\ a = oriented tr f i /\ lookup m (write s') = Some (snd f i).
Proof.
  intros TR cs s n m f a E F NS V. destruct (sane_run cs fresh s n f F (sane_fresh n f F) NS E) as (S0 & S1). destruct (s_dims s) eqn:D; [|destruct (S0 eq_refl); congruence].
  destruct (S1 eq_refl) as [(V' & _)|((i & V') & LD)]; [congruence|]. rewrite V in V'. injection V' as ->.
  unfold Store_model.copy. rewrite LD. cbn [bind]. unfold Store_model.grid at 1. cbn [s_vars]. rewrite V. cbn [bind]. eexists. exists i. split; [reflexivity|].
  split; [intros i'; unfold Store_model.grid; cbn [s_vars]; rewrite lookup_put, Nat.eqb_refl; reflexivity|]. split; [reflexivity|].
  erewrite lookup_write; [|cbn [s_vars]; rewrite lookup_put, Nat.eqb_refl; reflexivity|cbn [s_desc]; rewrite lookup_put, Nat.eqb_refl; reflexivity].
  unfold oriented. destruct (fst f); [rewrite TR|]; reflexivity.
Qed.
(** C101: but the copy of a variable stored with the latitude first and not read
    before is written transposed. *)
Theorem C101_copy_refuted : forall cs s n m f, run fresh cs = Some s -> s_dims s = true -> lookup n file = Some f -> fst f = true -> (forall c, In c cs -> ~ stores n c) ->
  lookup n (s_vars s) = None -> m <> n -> exists s', copy s n m = Some s' /\ lookup m (write s') = Some (tr (snd f no_index)) /\ lookup n (write s') = Some (tr (tr (snd f no_index))).
Proof.
  intros cs s n m f E D F FF NS V MN. destruct (sane_run cs fresh s n f F (sane_fresh n f F) NS E) as (_ & SN). destruct (SN D) as [(_ & LD)|((j & V') & _)]; [|congruence].
  unfold Store_model.copy. rewrite LD. cbn [bind]. unfold Store_model.grid. cbn [s_vars s_dims s_desc]. rewrite V, D, F. cbn [negb bind]. destruct f as (flag, raw). cbn [fst snd] in *. subst flag.
  rewrite lookup_put. destruct (Nat.eqb_spec m n); [contradiction|]. rewrite LD. cbn [bind s_dims s_vars s_desc]. eexists. split; [reflexivity|]. split.
  - erewrite (lookup_write _ m _ false); [reflexivity|cbn [s_vars]; rewrite lookup_put, Nat.eqb_refl; reflexivity|]. cbn [s_desc]. rewrite lookup_put. destruct (Nat.eqb_spec n m); [congruence|]. rewrite lookup_put, Nat.eqb_refl. reflexivity.
  - erewrite (lookup_write _ n _ true); [reflexivity| |cbn [s_desc]; rewrite lookup_put, Nat.eqb_refl; reflexivity]. cbn [s_vars]. rewrite lookup_put. destruct (Nat.eqb_spec m n); [contradiction|]. rewrite lookup_put, Nat.eqb_refl. reflexivity.
Qed.
(** C101: a variable which is only known by add_grid is never written. *)
Theorem C101_add_refuted : forall cs s n a, run fresh cs = Some s -> lookup n file = None -> (forall c, In c cs -> match c with Copy _ b => b <> n | AddUV _ u v => u <> n /\ v <> n | _ => True end) ->
  lookup n (write (add_grid A s n a)) = None.
Proof.
  intros cs s n a E F H. apply lookup_write_none. unfold add_grid. cbn [s_desc].
  assert (G : forall s m i b t, lookup n (s_desc s) = None -> grid s m i = Some (b, t) -> lookup n (s_desc t) = None).
  { intros s0 m i b t L0 G. destruct (grid_spec _ _ _ _ _ G) as (_ & _ & L3 & _ & R). destruct (Nat.eq_dec n m) as [<-|N]; [|rewrite L3 by exact N; exact L0]. destruct R as [(_ & ->)|(_ & _ & f & F' & _)]; [exact L0|congruence]. }
  assert (I0 : lookup n (s_desc fresh) = None). { unfold Store_model.fresh, populate. cbn [s_dims s_desc]. rewrite lookup_flags, F. reflexivity. }
  revert E I0 H. generalize fresh. induction cs as [|c cs IH]; intros s0 E I0 H; cbn [Store_model.run] in E; [injection E as <-; exact I0|].
  destruct (step s0 c) as [s1|] eqn:S1; [|discriminate E]. cbn [bind] in E. apply (IH s1 E); [|intros c' I; apply H; right; exact I]. assert (HC := H c (or_introl eq_refl)). clear IH E H.
  destruct c as [m i|x y|m arr|h u v| |]; cbn [Store_model.step] in S1.
  - destruct (grid s0 m i) as [(b, t)|] eqn:G1; [|discriminate S1]. cbn in S1. injection S1 as <-. eapply G; eauto.
  - unfold Store_model.copy in S1. destruct (lookup x (s_desc s0)) as [fl|]; [|discriminate S1]. cbn [bind] in S1. destruct (grid _ x no_index) as [(b, t)|] eqn:G1; [|discriminate S1]. cbn [bind] in S1. injection S1 as <-. cbn [s_desc].
    eapply G; [|exact G1]. cbn [s_desc]. rewrite lookup_put. destruct (Nat.eqb_spec y n); [contradiction|exact I0].
  - injection S1 as <-. exact I0.
  - unfold Store_model.add_uv in S1. destruct (grid s0 h no_index) as [(b, t)|] eqn:G1; [|discriminate S1]. cbn [bind] in S1. destruct (lookup h (s_desc t)) as [fl|]; [|discriminate S1]. cbn [bind] in S1. injection S1 as <-. cbn [s_desc]. destruct HC as (H1 & H2). rewrite !lookup_put.
    destruct (Nat.eqb_spec v n); [contradiction|]. destruct (Nat.eqb_spec u n); [contradiction|]. eapply G; eauto.
  - injection S1 as <-. reflexivity.
  - injection S1 as <-. unfold populate. destruct (s_dims s0); [exact I0|]. cbn [s_desc]. rewrite lookup_flags, F. reflexivity.
Qed.
(** C101: after a clean and a load, the variables of the file are read again, and
    the ones computed in memory are lost: reading them fails. *)
Theorem C101_clean : forall s n i, let s' := populate A Idx file (clean A s) in
  (forall f, lookup n file = Some f -> exists t, grid s' n i = Some (oriented tr f i, t)) /\ (lookup n file = None -> grid s' n i = None).
Proof.
  intros s n i s'. split.
  - intros f F. apply (C101_first [Clean; Populate]); auto. intros c [<-|[<-|[]]]; intros [].
  - intros F. unfold s', Store_model.grid. cbn. rewrite F. reflexivity.
Qed.
Section UV.
Variables (u_name v_name : nat).
Notation uv_for_advection := (uv_for_advection A Idx tr no_index file velocity_u velocity_v u_name v_name).
(** C101: the velocities of an advection with a height are those of this height
    the first time, and later those of the first height, even if another height is
    given. *)
Theorem C101_height : forall cs s h f a, u_name <> v_name -> h <> u_name -> h <> v_name ->
  run fresh cs = Some s -> lookup h file = Some f -> (forall c, In c cs -> ~ stores h c) -> lookup u_name (s_vars s) = None -> lookup h (s_vars s) = Some a ->
  exists s1, uv_for_advection s h = Some ((velocity_u a, velocity_v a), s1) /\ forall h', uv_for_advection s1 h' = Some ((velocity_u a, velocity_v a), s1).
Proof.
  intros cs s h f a UV HU HV E F NS U V. destruct (sane_run cs fresh s h f F (sane_fresh h f F) NS E) as (S0 & S1). destruct (s_dims s) eqn:D; [|destruct (S0 eq_refl); congruence].
  destruct (S1 eq_refl) as [(V' & _)|((i & V') & LD)]; [congruence|].
  assert (GK : forall (s1 : store A) n b i', lookup n (s_vars s1) = Some b -> grid s1 n i' = Some (b, s1)) by (intros s1 n b i' L; unfold Store_model.grid; rewrite L; reflexivity).
  unfold Store_model.uv_for_advection. rewrite U. unfold Store_model.add_uv. rewrite (GK s h a no_index V). cbn [bind]. rewrite LD. cbn [bind s_dims s_vars s_desc].
  set (s1 := Store _ _ _). assert (L1 : lookup u_name (s_vars s1) = Some (velocity_u a)). { unfold s1. cbn [s_vars]. rewrite lookup_pop, !lookup_put. destruct (Nat.eqb_spec h u_name); [contradiction|]. rewrite Nat.eqb_refl. reflexivity. }
  assert (L2 : lookup v_name (s_vars s1) = Some (velocity_v a)). { unfold s1. cbn [s_vars]. rewrite lookup_pop, !lookup_put. destruct (Nat.eqb_spec h v_name); [contradiction|]. destruct (Nat.eqb_spec u_name v_name); [contradiction|]. rewrite Nat.eqb_refl. reflexivity. }
  clearbody s1. exists s1. rewrite (GK s1 _ _ no_index L1). cbn [bind fst snd]. rewrite (GK s1 _ _ no_index L2). cbn [bind fst snd]. split; [reflexivity|]. intros h'. rewrite L1. cbn [bind]. rewrite (GK s1 _ _ no_index L1). cbn [bind fst snd]. rewrite (GK s1 _ _ no_index L2). reflexivity.
Qed.
End UV.
End Props.
Print Assumptions C101_first.
Print Assumptions C101_kept.
Print Assumptions C101_indices_refuted.
Print Assumptions C101_written.
Print Assumptions C101_copy.
Print Assumptions C101_copy_refuted.
Print Assumptions C101_add_refuted.
Print Assumptions C101_clean.
Print Assumptions C101_height.

(** A file of two variables of 2 by 3 cells: 0 with the latitude first and one
    field by time index, 1 with the longitude first. *)
Definition ex_tr (m : list (list nat)) : list (list nat) := map (fun j => map (fun r => nth j r 0) m) (seq 0 (length (hd [] m))).
Definition ex_file : list (nat * (bool * (nat -> list (list nat)))) := [(0, (true, fun i => [[1 + i; 2; 3]; [4; 5; 6]])); (1, (false, fun _ => [[7; 7]; [8; 8]; [9; 9]]))].
Example C101_ex :
  let run' := Store_model.run _ _ ex_tr 0 ex_file (map (map S)) (map (map pred)) in
  match run' (fresh _ _ ex_file) [Copy 0 5; Grid 0 4; Copy 0 6; AddGrid 7 [[0]]; AddUV 0 8 9] with
  | Some s =>
      (* the copy made after the reading and the velocities have the shape of the file, the copy made before has not, the added variable is lost *)
      lookup 0 (write _ ex_tr s) = Some [[1; 2; 3]; [4; 5; 6]] /\ lookup 6 (write _ ex_tr s) = Some [[1; 2; 3]; [4; 5; 6]] /\
      lookup 8 (write _ ex_tr s) = Some [[2; 3; 4]; [5; 6; 7]] /\ lookup 5 (write _ ex_tr s) = Some [[1; 4]; [2; 5]; [3; 6]] /\ lookup 7 (write _ ex_tr s) = None
  | None => False
  end.
Proof. cbv. repeat split. Qed.

(** ** Collections *)
Section Coll.
Context {D : Type}.
(** C102: an item is the grid of the first date equal to the one asked, and an
    error when there is none. *)
Theorem C102_item : forall (c : collection (D := D)) t,
  match getitem c t with
  | Some d => exists before t' after, c = before ++ (t', d) :: after /\ (t' == t)%Q /\ forall p, In p before -> ~ (fst p == t)%Q
  | None => forall p, In p c -> ~ (fst p == t)%Q
  end.
Proof.
  intros c t. induction c as [|(t', d) c IH]; cbn [getitem]; [intros p []|]. destruct (Qeq_bool t' t) eqn:B.
  - apply Qeq_bool_iff in B. exists [], t', c. split; [reflexivity|]. split; [exact B|]. intros p [].
  - assert (N : ~ (t' == t)%Q) by (intros H; apply Qeq_bool_iff in H; congruence). destruct (getitem c t) as [d'|].
    + destruct IH as (before & t2 & after & -> & Q2 & H). exists ((t', d) :: before), t2, after. split; [reflexivity|]. split; [exact Q2|]. intros p [<-|I]; [exact N|apply H; exact I].
    + intros p [<-|I]; [exact N|apply IH; exact I].
Qed.
(** C102: after any number of shifts a collection holds the most recent grids, in
    the order they were given, as many as at the start. *)
Theorem C102_shift : forall (c : collection (D := D)) l, c <> [] -> shifts c l = skipn (length l) (c ++ l) /\ length (shifts c l) = length c.
Proof.
  intros c l H. assert (E : shifts c l = skipn (length l) (c ++ l)).
  { revert c H. induction l as [|(t, d) l IH]; intros c H; cbn [shifts fold_left length fst snd]; [rewrite app_nil_r; reflexivity|].
    change (fold_left (fun c p => shift_files c (fst p) (snd p)) l (shift_files c t d)) with (shifts (shift_files c t d) l). rewrite IH by (unfold shift_files; destruct (tl c); discriminate).
    unfold shift_files. destruct c as [|x c]; [contradiction|]. cbn [tl]. rewrite <- app_assoc. cbn [app skipn]. reflexivity. }
  split; [exact E|]. rewrite E, skipn_length, app_length. lia.
Qed.
(** C102: the interpolation at the last date fails: it needs the next day. *)
Theorem C102_last_refuted : forall (c : collection (D := D)) t, (forall p, In p c -> (fst p <= t)%Q) -> getitem c (t + 1)%Q = None.
Proof.
  intros c t H. assert (I := C102_item c (t + 1)%Q). destruct (getitem c (t + 1)%Q) as [d|]; [|reflexivity]. exfalso. destruct I as (b & t' & a & -> & Q1 & _). assert (H1 := H (t', d) ltac:(apply in_or_app; right; left; reflexivity)). cbn [fst] in H1. lra.
Qed.
(** C102: with more than [n] grids loaded all the grids are unloaded, otherwise
    nothing changes; dates and order are kept. *)
Theorem C102_reset : forall (loaded : D -> bool) (clean : D -> D) n (c : collection (D := D)), (forall d, loaded (clean d) = false) ->
  let c' := reset_grids loaded clean (Some n) c in
  map fst c' = map fst c /\ (count_true (map (fun p => loaded (snd p)) c) <= n -> c' = c) /\
  (n < count_true (map (fun p => loaded (snd p)) c) -> (forall p, In p c' -> loaded (snd p) = false) /\ forall k t d, nth_error c k = Some (t, d) -> nth_error c' k = Some (t, if loaded d then clean d else d)).
Proof.
  intros loaded clean n c H c'. unfold c', reset_grids. destruct (Nat.ltb_spec n (count_true (map (fun p => loaded (snd p)) c))) as [L|L].
  - split; [rewrite map_map; apply map_ext; intros (t, d); cbn; destruct (loaded d); reflexivity|]. split; [intros H1; lia|]. intros _. split.
    + intros p I. apply in_map_iff in I. destruct I as ((t, d) & <- & _). cbn [snd]. destruct (loaded d) eqn:B; [apply H|exact B].
    + intros k t d N. rewrite nth_error_map, N. cbn. destruct (loaded d); reflexivity.
  - split; [reflexivity|]. split; [reflexivity|]. intros H1. lia.
Qed.
End Coll.
Print Assumptions C102_item.
Print Assumptions C102_shift.
Print Assumptions C102_last_refuted.
Print Assumptions C102_reset.
Example C102_ex : getitem [(1%Q, 10); (2%Q, 20); (2%Q, 30)] 2%Q = Some 20 /\ shifts [(1%Q, 10); (2%Q, 20)] [(3%Q, 30); (4%Q, 40); (5%Q, 50)] = [(4%Q, 40); (5%Q, 50)] /\
  getitem [(1%Q, 10); (2%Q, 20)] (2 + 1)%Q = None /\ reset_grids Nat.even S (Some 1) [(1%Q, 2); (2%Q, 3); (3%Q, 4)] = [(1%Q, 3); (2%Q, 3); (3%Q, 5)].
Proof. repeat split; reflexivity. Qed.

(** The state of advect after [k] releases. *)
Inductive reached {S X} (next : S -> option (Q * X * S)) : nat -> S -> S -> Prop :=
| reached_0 : forall s, reached next 0 s s
| reached_S : forall k s t x s1 s2, next s = Some (t, x, s1) -> reached next k s1 s2 -> reached next (Datatypes.S k) s s2.
(** C102: the rows of a path are the starting positions then the positions of the
    successive releases, and it fails only when advect does. *)
Theorem C102_path : forall {S X} (next : S -> option (Q * X * S)) nb s t_init (x0 : X),
  match path next nb s t_init x0 with
  | Some rows => length rows = nb + 1 /\ nth_error rows 0 = Some (t_init, x0) /\
      forall k, k < nb -> exists sk t x s', reached next k s sk /\ next sk = Some (t, x, s') /\ nth_error rows (k + 1) = Some (Some t, x)
  | None => exists k sk, k < nb /\ reached next k s sk /\ next sk = None
  end.
Proof.
  intros S X next nb s t_init x0. unfold path.
  assert (R : forall nb s, match releases next nb s with
    | Some l => length l = nb /\ forall k, k < nb -> exists sk t x s', reached next k s sk /\ next sk = Some (t, x, s') /\ nth_error l k = Some (t, x)
    | None => exists k sk, k < nb /\ reached next k s sk /\ next sk = None end).
  { clear. induction nb as [|nb IH]; intros s; cbn [releases]; [split; [reflexivity|intros k K; lia]|].
    destruct (next s) as [((t, x), s1)|] eqn:N; cbn [bind]; [|exists 0, s; split; [lia|]; split; [constructor|exact N]].
    specialize (IH s1). destruct (releases next nb s1) as [l|]; cbn [bind].
    - destruct IH as (L & H). split; [cbn; lia|]. intros [|k] K; [exists s, t, x, s1; split; [constructor|split; [exact N|reflexivity]]|].
      destruct (H k ltac:(lia)) as (sk & t' & x' & s' & R & N' & E). exists sk, t', x', s'. split; [econstructor; eauto|]. split; [exact N'|exact E].
    - destruct IH as (k & sk & K & R & E). exists (Datatypes.S k), sk. split; [lia|]. split; [econstructor; eauto|exact E]. }
  specialize (R nb s). destruct (releases next nb s) as [l|]; cbn [bind]; [|exact R]. destruct R as (L & H). split; [cbn; rewrite map_length; lia|]. split; [reflexivity|].
  intros k K. destruct (H k K) as (sk & t & x & s' & R & N & E). exists sk, t, x, s'. split; [exact R|]. split; [exact N|]. rewrite Nat.add_1_r. cbn [nth_error]. rewrite nth_error_map, E. reflexivity.
Qed.
Print Assumptions C102_path.
(** C102: the first time is the one given to the call, in days (or nothing when it
    is not given by name), the next ones are in seconds: from a date which is not
    zero the first interval is not the duration of a release. *)
Theorem C102_units_refuted : forall {S X} (next : S -> option (Q * X * S)) nb s t_init dt (x0 : X) rows t1 x1,
  (forall x s', next s = Some (t1, x, s') -> (t1 == t_init * 86400 + dt)%Q) -> ~ (t_init == 0)%Q ->
  path next (Datatypes.S nb) s (Some t_init) x0 = Some rows -> nth_error rows 1 = Some (Some t1, x1) -> ~ (t1 - t_init == dt)%Q.
Proof.
  intros S X next nb s t_init dt x0 rows t1 x1 H N E R. unfold path in E. cbn [releases] in E. destruct (next s) as [((t, x), s1)|] eqn:NX; [|discriminate E]. cbn [bind] in E.
  destruct (releases next nb s1) as [l|]; [|discriminate E]. cbn [bind] in E. injection E as <-. cbn in R. injection R as <- <-. rewrite (H x s1 eq_refl). intros B. apply N. lra.
Qed.
Print Assumptions C102_units_refuted.
Example C102_path_ex : let next := fun k => if k <? 3 then Some (((inject_Z (Z.of_nat k) + 1) * 3600 + 5 * 86400)%Q, k + 100, k + 1) else None in
  option_map (map (fun p => (option_map Qred (fst p), snd p))) (path next 2 0 (Some 5%Q) 7) = Some [(Some 5%Q, 7); (Some 435600%Q, 100); (Some 439200%Q, 101)] /\ path next 4 0 (Some 5%Q) 7 = None.
Proof. split; reflexivity. Qed.
