From Coq Require Import List Arith ZArith QArith Bool Lia Lqa.
From Verif Require Import Base Spec Qaux Generic_model Generic_proofs Solver_model TrackObs_model Split_model Split_spec Split_proofs.
Import ListNotations.
Local Close Scope Q_scope.
Local Open Scope nat_scope.

(** ** What the loops compute, the searches being given *)
Section Dyn.
Variables (n : nat) (nx px : nat -> option (nat * Q)) (rnd : Q -> Q).
Hypothesis NXP : forall i j c, nx i = Some (j, c) -> i < j < n /\ (0 < c)%Q.
Hypothesis PXP : forall i j c, px i = Some (j, c) -> j < i.
Hypothesis RND : rounding rnd.

Definition T (s : ids) r := nth r (i_track s) 0.
Definition PC (s : ids) r := nth r (i_pcost s) 0%Q.
Definition NC (s : ids) r := nth r (i_ncost s) 0%Q.
Definition PV (s : ids) r := nth r (i_prev s) None.
Definition NX (s : ids) r := nth r (i_next s) None.
Definition fed (s : ids) r := exists k c, T s k <> 0 /\ nx k = Some (r, c).
Definition cost_next r := match nx r with Some (_, c) => rnd c | None => 0%Q end.
Definition wide (s : ids) := length (i_track s) = n /\ length (i_pcost s) = n /\ length (i_ncost s) = n /\ length (i_prev s) = n /\ length (i_next s) = n.

(** [r] is linked to the best of those which point to it. *)
Definition linked (s : ids) r := exists k c, PV s r = Some k /\ T s k <> 0 /\ nx k = Some (r, c) /\ (PC s r == rnd c)%Q /\ T s r = T s k /\
  forall k' c', T s k' <> 0 -> nx k' = Some (r, c') -> (rnd c' <= PC s r)%Q.

Record core (pending : option nat) (s : ids) : Prop := {
  c_next : forall r, T s r <> 0 -> NX s r = option_map fst (nx r) /\ NC s r = cost_next r;
  c_unused : forall r, T s r = 0 -> NX s r = None /\ NC s r = 0%Q;
  c_closed : forall r j c, T s r <> 0 -> nx r = Some (j, c) -> T s j <> 0 \/ pending = Some j;
  c_fresh : forall r, T s r = 0 -> pending <> Some r -> PV s r = None /\ PC s r = 0%Q;
  c_linked : forall r, T s r <> 0 -> fed s r -> linked s r
}.
(** Heads of segments: rows nothing points to. *)
Definition head (s : ids) r := T s r <> 0 /\ ~ fed s r.
Definition heads_ordered (s : ids) := forall a b, head s a -> head s b -> a < b -> T s a < T s b.

Record outer (m tid : nat) (used : list bool) (s : ids) : Prop := {
  o_wide : wide s;
  o_len : length used = n;
  o_used : forall r, r < n -> nth r used false = negb (T s r =? 0);
  o_core : core None s;
  o_below : forall r, r < m -> T s r <> 0;
  o_heads : forall r, head s r -> r < m /\ PV s r = option_map fst (px r);
  o_order : heads_ordered s;
  o_top : forall r, T s r < tid;
  o_all : forall t, 0 < t < tid -> exists r, head s r /\ T s r = t;
  o_tid : 0 < tid
}.
Record inner (m tid : nat) (pending : option nat) (used : list bool) (s : ids) : Prop := {
  n_wide : wide s;
  n_len : length used = n;
  n_used : forall r, r < n -> nth r used false = negb (T s r =? 0);
  n_core : core pending s;
  n_below : forall r, r < m -> T s r <> 0;
  n_heads : forall r, head s r -> r < m /\ PV s r = option_map fst (px r) \/ r = m /\ PV s r = None;
  n_order : heads_ordered s;
  n_top : forall r, T s r <= tid;
  n_all : forall t, 0 < t < tid -> exists r, head s r /\ T s r = t;
  n_tid : 0 < tid;
  n_m : pending = Some m \/ T s m = tid /\ head s m;
  n_pending : forall i, pending = Some i -> T s i = 0 /\ m <= i < n /\
    (i = m /\ PV s i = None /\ PC s i = 0%Q /\ ~ fed s i /\ (forall r, T s r < tid) \/
     i <> m /\ exists p c, T s p = tid /\ nx p = Some (i, c) /\ PV s i = Some p /\ (PC s i == rnd c)%Q /\ forall k c', T s k <> 0 -> nx k = Some (i, c') -> k = p)
}.

Lemma T_lt : forall s r, wide s -> T s r <> 0 -> r < n.
Proof. intros s r (L & _) N. unfold T in N. destruct (Nat.lt_ge_cases r n); [auto|]. rewrite nth_overflow in N by lia. congruence. Qed.
Lemma fed_dec : forall s r, wide s -> {fed s r} + {~ fed s r}.
Proof.
  intros s r W. set (p := fun k => negb (T s k =? 0) && match nx k with Some (j, _) => j =? r | None => false end).
  destruct (existsb p (seq 0 n)) eqn:E; [left|right].
  - apply existsb_exists in E as (k & I & P). unfold p in P. apply andb_true_iff in P as [A B]. apply negb_true_iff, Nat.eqb_neq in A. destruct (nx k) as [[j c]|] eqn:N; [|discriminate]. apply Nat.eqb_eq in B. subst. exists k, c. auto.
  - intros (k & c & A & B). assert (X : existsb p (seq 0 n) = true); [|congruence]. apply existsb_exists. exists k. split; [apply in_seq; pose proof (T_lt s k W A); lia|].
    unfold p. rewrite B, Nat.eqb_refl, andb_true_r. apply negb_true_iff, Nat.eqb_neq. auto.
Qed.

(** *** Segments are chains *)
Inductive climb (s : ids) : nat -> nat -> Prop :=
| climb_refl : forall a, climb s a a
| climb_step : forall b k a, fed s b -> T s b <> 0 -> PV s b = Some k -> climb s k a -> climb s b a.
Lemma climb_le : forall s b a, (forall r, T s r <> 0 -> fed s r -> linked s r) -> climb s b a -> a <= b.
Proof.
  intros s b a L C. induction C as [a|b k a F U P C IH]; [auto|]. destruct (L b U F) as (k' & c & P' & _ & N & _). rewrite P in P'. injection P' as <-. apply NXP in N. lia.
Qed.
Lemma climb_last : forall s b a, climb s b a -> b = a \/ exists x, fed s x /\ T s x <> 0 /\ PV s x = Some a /\ climb s b x.
Proof.
  intros s b a C. induction C as [a|b k a F U P C IH]; [auto|]. right. destruct IH as [->|(x & F' & U' & P' & C')]; [exists b; split; [auto|]; split; [auto|]; split; [auto|constructor]|].
  exists x. split; [auto|]. split; [auto|]. split; [auto|]. econstructor; eauto.
Qed.
Lemma climb_inv : forall s b a, climb s b a -> b <> a -> exists k, PV s b = Some k /\ climb s k a.
Proof. intros s b a C N. destruct C as [a|b k a F U P C]; [congruence|eauto]. Qed.
Lemma head_of : forall s, wide s -> (forall r, T s r <> 0 -> fed s r -> linked s r) -> forall r, T s r <> 0 -> exists h, head s h /\ T s h = T s r /\ h <= r.
Proof.
  intros s W L r. induction r as [r IH] using lt_wf_ind. intros U. destruct (fed_dec s r W) as [F|F].
  - destruct (L r U F) as (k & c & P & UK & N & _ & TT & _). destruct (IH k) as (h & H & E & LE); [apply NXP in N; lia|auto|]. exists h. split; [auto|]. apply NXP in N. split; [congruence|lia].
  - exists r. unfold head. auto.
Qed.
Lemma chain_of : forall s, wide s -> (forall r, T s r <> 0 -> fed s r -> linked s r) -> heads_ordered s ->
  forall b a, a <= b -> T s a <> 0 -> T s a = T s b -> climb s b a.
Proof.
  intros s W L HO b. induction b as [b IH] using lt_wf_ind. intros a LE UA TE. destruct (Nat.eq_dec a b) as [->|NE]; [constructor|].
  assert (UB : T s b <> 0) by congruence. destruct (fed_dec s b W) as [F|F].
  - destruct (L b UB F) as (k & c & P & UK & N & _ & TT & _). pose proof (NXP _ _ _ N) as KB. destruct (Nat.le_gt_cases a k) as [AK|AK].
    + econstructor; eauto. apply IH; [lia|lia|auto|congruence].
    + exfalso. assert (C : climb s a k) by (apply IH; [lia|lia|auto|congruence]). destruct (climb_last _ _ _ C) as [->|(x & FX & UX & PX & CX)]; [lia|].
      destruct (L x UX FX) as (k' & c' & P' & _ & N' & _). rewrite PX in P'. injection P' as <-. rewrite N in N'. injection N' as <- _. apply (climb_le s a b L) in CX. lia.
  - exfalso. destruct (head_of s W L a UA) as (h & H & E & HL). assert (HB : head s b) by (unfold head; auto). assert (X : T s h < T s b) by (apply HO; [auto|auto|lia]). lia.
Qed.

(** *** One step of follow_obs *)
Lemma relabel_len : forall l j old new, length (relabel l j old new) = length l.
Proof. intros. unfold relabel. rewrite app_length, map_length, <- app_length, firstn_skipn. auto. Qed.
Lemma relabel_nth : forall l j old new r, new <> 0 -> old <> 0 -> nth r (relabel l j old new) 0 = if (j <=? r) && (nth r l 0 =? old) then new else nth r l 0.
Proof.
  induction l as [|a l IH]; intros j old new r NN ON.
  - unfold relabel. rewrite firstn_nil, skipn_nil. cbn [app map]. assert (Z : nth r (@nil nat) 0 = 0) by (destruct r; auto). rewrite Z. destruct (Nat.eqb_spec 0 old); [congruence|]. rewrite andb_false_r. auto.
  - destruct j as [|j].
    + unfold relabel. cbn [firstn skipn app Nat.leb andb]. destruct (Nat.lt_ge_cases r (length (a :: l))) as [L|L].
      * rewrite (nth_indep _ 0 ((fun t => if t =? old then new else t) 0)) by (rewrite map_length; auto). rewrite (map_nth (fun t => if t =? old then new else t)). auto.
      * rewrite !nth_overflow by (rewrite ?map_length; auto). destruct (Nat.eqb_spec 0 old); [congruence|auto].
    + destruct r as [|r]; [auto|]. change (relabel (a :: l) (S j) old new) with (a :: relabel l j old new). cbn [nth]. rewrite IH by auto. auto.
Qed.

Variables (meet : nat -> nat -> bool) (overlap : nat -> nat -> Q) (time : list Z) (window : Z) (time_s time_e : list nat) (time_ref : Z).
Hypothesis GN : forall i s, i < n -> get_next_obs meet overlap rnd time window time_s time_e time_ref i s = upd_next rnd i s (nx i).
Hypothesis GP : forall i s, i < n -> get_previous_obs meet overlap rnd time window time_s time_e time_ref i s = upd_prev rnd i s (px i).

Lemma fed_ext : forall s s', (forall r, T s' r <> 0 <-> T s r <> 0) -> forall r, fed s' r <-> fed s r.
Proof. intros s s' E r. split; intros (k & c & U & N); exists k, c; split; auto; apply E; auto. Qed.

(** Last row of the chain: nothing found, or a row already used. *)
Lemma follow_spec : forall fuel m tid i used s, n - i < fuel -> inner m tid (Some i) used s ->
  exists used' s', follow_obs meet overlap rnd time window time_s time_e time_ref fuel i tid used s = Some (used', s') /\ inner m tid None used' s'.
Proof.
  destruct RND as (MONO & IDEM & POS).
  induction fuel as [|fuel IH]; intros m tid i used s FU INV; [lia|].
  destruct INV as [W LU US CO BE HE OR TOP ALL TID MM PEND]. destruct (PEND i eq_refl) as (TI & RI & CASE). destruct W as (W1 & W2 & W3 & W4 & W5).
  cbn [follow_obs]. rewrite (store_lt used i) by lia. cbn [bind]. rewrite (store_lt (i_track s)) by lia. cbn [bind]. rewrite GN by lia.
  set (tr := upd (i_track s) i tid).
  assert (TR : forall r, nth r tr 0 = if r =? i then tid else T s r) by (intros r; unfold tr; rewrite nth_upd by lia; auto).
  (* the state once the row is flagged *)
  set (s1 := Ids tr (i_pcost s) (i_ncost s) (i_prev s) (i_next s)).
  assert (T1 : forall r, T s1 r = if r =? i then tid else T s r) by (intros r; apply TR).
  assert (UP : forall r, T s r <> 0 -> T s1 r <> 0) by (intros r U; rewrite T1; destruct (r =? i); [lia|auto]).
  assert (UI : T s1 i = tid) by (rewrite T1, Nat.eqb_refl; auto).
  assert (TN : forall r, r <> i -> T s1 r = T s r) by (intros r N; rewrite T1; destruct (Nat.eqb_spec r i); [congruence|auto]).
  assert (FI : forall r c, nx i = Some (r, c) -> i < r < n /\ (0 < c)%Q) by (intros; eapply NXP; eauto).
  (* fed before and after *)
  assert (FED : forall r, fed s1 r <-> fed s r \/ exists c, nx i = Some (r, c)).
  { intros r. split.
    - intros (k & c & U & N). destruct (Nat.eq_dec k i) as [->|NK]; [right; eauto|left]. exists k, c. rewrite TN in U by auto. auto.
    - intros [(k & c & U & N)|(c & N)]; [exists k, c; auto|exists i, c; split; [lia|auto]]. }
  (* [i] itself *)
  assert (LI : fed s1 i -> linked s1 i).
  { intros F. apply FED in F. destruct CASE as [(-> & _ & _ & NF & _)|(NM & p & c & TP & NP & PP & CP & ONLY)].
    - destruct F as [F|(c & N)]; [contradiction|]. apply FI in N. lia.
    - exists p, c. assert (p <> i) by (apply NXP in NP; lia). split; [auto|]. split; [rewrite TN by auto; lia|]. split; [auto|]. split; [auto|]. split; [rewrite UI, TN; auto|].
      intros k' c' U N. destruct (Nat.eq_dec k' i) as [->|NK]; [apply FI in N; lia|]. rewrite TN in U by auto. rewrite (ONLY _ _ U N) in N. rewrite NP in N. injection N as <-. change (PC s1 i) with (PC s i). lra. }
  assert (HI : head s1 i -> i = m /\ PV s1 i = None /\ forall r, T s r < tid).
  { intros (_ & NF). destruct CASE as [(-> & P & _ & _ & LT)|(NM & p & c & TP & NP & PP & CP & ONLY)]; [auto|].
    exfalso. apply NF. exists p, c. assert (p <> i) by (apply NXP in NP; lia). rewrite TN by auto. split; [lia|auto]. }
  (* other rows are linked as before, unless [i] points to them *)
  assert (LO : forall r, T s r <> 0 -> fed s r -> (forall c, nx i <> Some (r, c)) -> linked s1 r).
  { intros r U F NI. destruct (c_linked _ _ CO r U F) as (k & c & P & UK & N & C & TT & MX). exists k, c.
    assert (NR : r <> i) by congruence. assert (NK : k <> i) by congruence. split; [auto|]. split; [auto|]. split; [auto|]. split; [auto|]. split; [rewrite !TN; auto|].
    intros k' c' U' N'. destruct (Nat.eq_dec k' i) as [->|NK']; [exfalso; eapply NI; eauto|]. rewrite TN in U' by auto. eauto. }
  assert (HN : forall r, r <> i -> head s1 r -> head s r). { intros r N (U & NF). split; [rewrite TN in U; auto|]. intros F. apply NF, FED. auto. }
  assert (HP : forall r, head s r -> (forall c, nx i <> Some (r, c)) -> head s1 r /\ T s1 r = T s r).
  { intros r (U & NF) NI. split; [|apply TN; congruence]. split; [auto|]. intros F. apply FED in F as [F|(c & N)]; [auto|]. eapply NI; eauto. }
  assert (HB : forall r, head s r -> r <= m). { intros r H. destruct (HE r H) as [[L _]|[-> _]]; lia. }
  assert (HM : forall r, head s r -> forall c, nx i <> Some (r, c)). { intros r H c N. apply HB in H. apply FI in N. lia. }
  assert (MI : T s1 m = tid /\ head s1 m).
  { destruct MM as [E|[TM H]].
    - injection E as ->. split; [auto|]. split; [lia|]. destruct CASE as [(_ & _ & _ & NF & _)|(NM & _)]; [|congruence]. intros F. apply FED in F as [F|(c & N)]; [auto|]. apply FI in N. lia.
    - assert (m <> i) by (intros ->; destruct H; congruence). destruct (HP m H (HM m H)) as [A B]. split; [congruence|auto]. }
  assert (US1 : forall r, r < n -> nth r (upd used i true) false = negb (T s1 r =? 0)).
  { intros r R. rewrite nth_upd by lia. rewrite T1. destruct (Nat.eqb_spec r i); [|auto]. destruct (Nat.eqb_spec tid 0); [lia|auto]. }
  assert (BE1 : forall r, r < m -> T s1 r <> 0) by auto.
  assert (OR1 : heads_ordered s1).
  { intros a b HA HBB AB. destruct (Nat.eq_dec b i) as [->|NB].
    - destruct (HI HBB) as (_ & _ & LT). rewrite UI, TN by lia. auto.
    - destruct (Nat.eq_dec a i) as [->|NA]; [destruct (HI HA) as (-> & _); apply HN in HBB; [|auto]; apply HB in HBB; lia|]. rewrite !TN by auto. apply OR; auto. }
  assert (HE1 : forall r, head s1 r -> r < m /\ PV s1 r = option_map fst (px r) \/ r = m /\ PV s1 r = None).
  { intros r H. destruct (Nat.eq_dec r i) as [->|NR]; [destruct (HI H) as (A & B & _); auto|]. apply HN in H; [|auto]. apply (HE r H). }
  assert (TOP1 : forall r, T s1 r <= tid) by (intros r; rewrite T1; destruct (r =? i); auto).
  assert (ALL1 : forall t, 0 < t < tid -> exists r, head s1 r /\ T s1 r = t).
  { intros t R. destruct (ALL t R) as (r & H & E). destruct (HP r H (HM r H)) as [A B]. exists r. split; [auto|congruence]. }
  clear US ALL MM. pose proof OR as OR0. destruct CO as [C1 C2 C3 C4 C5]. destruct (C2 i TI) as (NXI & NCI).
  assert (U1 : forall r, T s1 r <> 0 -> r = i \/ T s r <> 0) by (intros r; rewrite T1; destruct (Nat.eqb_spec r i); auto).
  assert (Z1 : forall r, T s1 r = 0 -> r <> i /\ T s r = 0) by (intros r; rewrite T1; destruct (Nat.eqb_spec r i); [lia|auto]).
  unfold upd_next. case_eq (nx i); [intros [j c] NI|intros NI].
  2:{ (* nothing follows *)
    cbn [bind]. eexists _, _. split; [reflexivity|]. split; auto.
    - unfold wide. cbn. unfold tr. rewrite length_upd. auto.
    - rewrite length_upd. auto.
    - split.
      + intros r U. destruct (U1 r U) as [->|U']; [|apply (C1 r U')]. unfold cost_next. rewrite NI. auto.
      + intros r Z. apply (C2 r), Z1, Z.
      + intros r q d U N. destruct (U1 r U) as [->|U']; [congruence|]. left. destruct (C3 r q d U' N) as [X|X]; [auto|]. injection X as <-. lia.
      + intros r Z _. destruct (Z1 r Z) as [NR Z']. apply C4; [auto|congruence].
      + intros r U F. destruct (Nat.eq_dec r i) as [->|NR]; [auto|]. destruct (U1 r U) as [->|U']; [congruence|]. apply LO; [auto| |intros; congruence].
        apply FED in F as [F|(d & N)]; [auto|congruence].
    - discriminate. }
  destruct (FI j c NI) as [IJ CP]. assert (NJI : j <> i) by lia.
  change (i_pcost s1) with (i_pcost s). change (i_track s1) with tr. change (i_ncost s1) with (i_ncost s). change (i_prev s1) with (i_prev s). change (i_next s1) with (i_next s).
  rewrite (nth_error_nth_lt (i_pcost s) j 0%Q) by lia. cbn [bind]. change (nth j (i_pcost s) 0%Q) with (PC s j).
  set (pc := if (negb (Qeq_bool (PC s j) 0) && Qlt_bool (PC s j) c) || Qeq_bool (PC s j) 0 then upd (i_pcost s) j (rnd c) else i_pcost s).
  replace (if (negb (Qeq_bool (PC s j) 0) && Qlt_bool (PC s j) c) || Qeq_bool (PC s j) 0 then store (i_pcost s) j (rnd c) else Some (i_pcost s)) with (Some pc).
  2:{ unfold pc. destruct ((negb (Qeq_bool (PC s j) 0) && Qlt_bool (PC s j) c) || Qeq_bool (PC s j) 0); [rewrite store_lt by lia; auto|auto]. }
  assert (LPC : length pc = n). { unfold pc. destruct ((negb (Qeq_bool (PC s j) 0) && Qlt_bool (PC s j) c) || Qeq_bool (PC s j) 0); [rewrite length_upd; auto|auto]. }
  assert (PCO : forall r, r <> j -> nth r pc 0%Q = PC s r).
  { intros r NR. unfold pc. destruct ((negb (Qeq_bool (PC s j) 0) && Qlt_bool (PC s j) c) || Qeq_bool (PC s j) 0); [|auto]. rewrite nth_upd by lia. destruct (Nat.eqb_spec r j); [congruence|auto]. }
  assert (PCJ : nth j pc 0%Q = if (negb (Qeq_bool (PC s j) 0) && Qlt_bool (PC s j) c) || Qeq_bool (PC s j) 0 then rnd c else PC s j).
  { unfold pc. destruct ((negb (Qeq_bool (PC s j) 0) && Qlt_bool (PC s j) c) || Qeq_bool (PC s j) 0); [|auto]. rewrite nth_upd by lia. rewrite Nat.eqb_refl. auto. }
  clearbody pc. cbn [bind]. rewrite (store_lt (i_ncost s)) by lia. cbn [bind i_next i_track i_ncost i_prev i_pcost]. rewrite (store_lt (i_next s)) by lia. cbn [bind].
  rewrite (nth_error_nth_lt (upd used i true) j false) by (rewrite length_upd; lia). cbn [bind]. rewrite US1 by lia.
  assert (NX2 : forall r, nth r (upd (i_next s) i (Some j)) None = if r =? i then Some j else NX s r) by (intros r; rewrite nth_upd by lia; auto).
  assert (NC2 : forall r, nth r (upd (i_ncost s) i (rnd c)) 0%Q = if r =? i then rnd c else NC s r) by (intros r; rewrite nth_upd by lia; auto).
  (* state with the links of [i] *)
  assert (CN : forall tr' pv', (forall r, nth r tr' 0 = 0 <-> T s1 r = 0) -> forall r, nth r tr' 0 <> 0 ->
     NX (Ids tr' pc (upd (i_ncost s) i (rnd c)) pv' (upd (i_next s) i (Some j))) r = option_map fst (nx r) /\
     NC (Ids tr' pc (upd (i_ncost s) i (rnd c)) pv' (upd (i_next s) i (Some j))) r = cost_next r).
  { intros tr' pv' E r U. unfold NX, NC. cbn [i_next i_ncost]. rewrite NX2, NC2. destruct (Nat.eqb_spec r i) as [->|NR]; [unfold cost_next; rewrite NI; auto|].
    assert (U' : T s1 r <> 0) by (rewrite <- E; auto). destruct (U1 r U') as [->|U'']; [congruence|]. apply (C1 r U''). }
  assert (CU : forall tr' pv', (forall r, nth r tr' 0 = 0 <-> T s1 r = 0) -> forall r, nth r tr' 0 = 0 ->
     NX (Ids tr' pc (upd (i_ncost s) i (rnd c)) pv' (upd (i_next s) i (Some j))) r = None /\
     NC (Ids tr' pc (upd (i_ncost s) i (rnd c)) pv' (upd (i_next s) i (Some j))) r = 0%Q).
  { intros tr' pv' E r Z. unfold NX, NC. cbn [i_next i_ncost]. rewrite NX2, NC2. apply E in Z. destruct (Z1 r Z) as [NR Z']. destruct (Nat.eqb_spec r i); [congruence|]. apply (C2 r Z'). }
  assert (WID : forall tr' pv', length tr' = n -> length pv' = n -> wide (Ids tr' pc (upd (i_ncost s) i (rnd c)) pv' (upd (i_next s) i (Some j)))).
  { intros tr' pv' A B. unfold wide. cbn. rewrite !length_upd. auto. }
  assert (LTR : length tr = n) by (unfold tr; rewrite length_upd; auto).
  destruct (Nat.eqb_spec (T s1 j) 0) as [UJ|UJ]; cbn [negb].
  - (* a new row: go on *)
    destruct (Z1 j UJ) as [_ ZJ]. destruct (C4 j ZJ) as [PVJ PCZ]; [congruence|]. rewrite (store_lt (i_prev s)) by lia. cbn [bind].
    rewrite PCZ in PCJ. cbn in PCJ.
    set (s2 := Ids tr pc (upd (i_ncost s) i (rnd c)) (upd (i_prev s) j (Some i)) (upd (i_next s) i (Some j))).
    assert (T2 : forall r, T s2 r = T s1 r) by reflexivity.
    assert (PV2 : forall r, PV s2 r = if r =? j then Some i else PV s r) by (intros r; unfold PV; cbn; rewrite nth_upd by lia; auto).
    assert (F2 : forall r, fed s2 r <-> fed s1 r) by reflexivity.
    assert (NFJ : ~ fed s j). { intros (k & d & U & N). destruct (C3 k j d U N) as [X|X]; [congruence|]. injection X as X. congruence. }
    assert (LK2 : forall r, r <> j -> linked s1 r -> linked s2 r).
    { intros r NR (k & d & P & UK & N & C & TT & MX). exists k, d. unfold linked. rewrite PV2. destruct (Nat.eqb_spec r j); [congruence|]. unfold PC in *. cbn [i_pcost s2]. rewrite PCO by auto. auto 10. }
    apply IH; [lia|]. split; auto.
    + apply WID; [auto|rewrite length_upd; auto].
    + rewrite length_upd. auto.
    + split.
      * apply CN. reflexivity.
      * apply CU. reflexivity.
      * intros r q d U N. destruct (U1 r U) as [->|U']; [rewrite NI in N; injection N as <- _; auto|]. left. destruct (C3 r q d U' N) as [X|X]; [rewrite T2; auto|]. injection X as <-. rewrite T2. lia.
      * intros r Z NP. assert (NR : r <> j) by congruence. rewrite PV2. destruct (Nat.eqb_spec r j); [congruence|]. unfold PC. cbn [i_pcost s2]. rewrite PCO by auto. destruct (Z1 r Z). apply C4; [auto|congruence].
      * intros r U F. assert (NR : r <> j) by (intros ->; rewrite T2 in U; congruence). apply LK2; [auto|]. apply F2 in F. destruct (Nat.eq_dec r i) as [->|NRI]; [auto|].
        destruct (U1 r U) as [->|U']; [congruence|]. apply LO; [auto| |intros d X; rewrite NI in X; injection X as X _; congruence]. apply FED in F as [F|(d & N)]; [auto|]. rewrite NI in N. injection N as X _. congruence.
    + intros r H. rewrite PV2. destruct (Nat.eqb_spec r j) as [->|NR]; [destruct H as [H _]; rewrite T2 in H; congruence|]. apply HE1. apply H.
    + intros q E. injection E as <-. split; [auto|]. split; [lia|]. right. split; [lia|]. exists i, c. split; [auto|]. split; [auto|]. split; [rewrite PV2, Nat.eqb_refl; auto|].
      split; [unfold PC; cbn [i_pcost s2]; rewrite PCJ; reflexivity|]. intros k d U N. destruct (U1 k U) as [->|U']; [auto|]. exfalso. apply NFJ. exists k, d. auto.
  - (* a row already used *)
    destruct (U1 j UJ) as [->|UJ']; [congruence|].
    assert (FJ : fed s j). { destruct (fed_dec s j) as [F|F]; [unfold wide; auto|auto|]. exfalso. assert (H : head s j) by (split; auto). apply HB in H. lia. }
    destruct (C5 j UJ' FJ) as (k & ck & PVJ & UK & NK & PCK & TTJ & MXJ). destruct (NXP _ _ _ NK) as [KJ CKP].
    assert (PJ0 : (0 < PC s j)%Q) by (rewrite PCK; apply POS; auto).
    assert (Z0 : Qeq_bool (PC s j) 0 = false). { destruct (Qeq_bool (PC s j) 0) eqn:E; [|auto]. apply Qeq_bool_iff in E. lra. }
    rewrite Z0 in PCJ. cbn [negb andb orb] in PCJ. rewrite orb_false_r in PCJ.
    rewrite (nth_error_nth_lt (upd (i_ncost s) i (rnd c)) i 0%Q) by (rewrite length_upd; lia). cbn [bind]. rewrite (nth_error_nth_lt pc j 0%Q) by lia. cbn [bind]. rewrite NC2, Nat.eqb_refl.
    assert (RJ : (rnd (PC s j) == PC s j)%Q).
    { assert (A : (rnd (PC s j) <= rnd (rnd ck))%Q) by (apply MONO; lra). assert (B : (rnd (rnd ck) <= rnd (PC s j))%Q) by (apply MONO; lra). pose proof (IDEM ck). lra. }
    assert (GE : (rnd c <= nth j pc 0)%Q /\ (PC s j <= nth j pc 0)%Q).
    { rewrite PCJ. destruct (Qlt_bool (PC s j) c) eqn:L; [apply Qlt_bool_iff in L|apply Qlt_bool_false in L].
      - split; [lra|]. assert (A : (rnd (PC s j) <= rnd c)%Q) by (apply MONO; lra). lra.
      - split; [|lra]. assert (A : (rnd c <= rnd (PC s j))%Q) by (apply MONO; lra). lra. }
    destruct GE as [GE1 GE2].
    assert (MXJ' : forall k' c', T s1 k' <> 0 -> nx k' = Some (j, c') -> (rnd c' <= nth j pc 0)%Q).
    { intros k' c' U N. destruct (U1 k' U) as [->|U']; [rewrite NI in N; injection N as <-; auto|]. specialize (MXJ k' c' U' N). lra. }
    assert (KI : k <> i) by congruence.
    assert (T1J : T s1 j = T s j) by auto. assert (T1K : T s1 k = T s k) by auto.
    assert (FR : forall r, fed s1 r -> r <> j -> fed s r /\ forall d, nx i <> Some (r, d)).
    { intros r F NR. assert (Y : forall d, nx i <> Some (r, d)) by (intros d X; rewrite NI in X; injection X as X _; congruence). split; [|auto]. apply FED in F as [F|(d & N)]; [auto|exfalso; eapply Y; eauto]. }
    destruct (Qeq_bool (rnd c) (nth j pc 0%Q)) eqn:EQ.
    + (* the new link is the best one: the end of the other segment is taken *)
      apply Qeq_bool_iff in EQ. rewrite (nth_error_nth_lt tr j 0) by lia. cbn [bind]. rewrite TR. destruct (Nat.eqb_spec j i); [congruence|]. rewrite (store_lt (i_prev s)) by lia. cbn [bind].
      set (tr2 := relabel tr j (T s j) tid).
      assert (TR2 : forall r, nth r tr2 0 = if (j <=? r) && (T s1 r =? T s j) then tid else T s1 r). { intros r. unfold tr2. rewrite relabel_nth by lia. rewrite T1, TR. auto. }
      assert (ZR : forall r, nth r tr2 0 = 0 <-> T s1 r = 0). { intros r. rewrite TR2. destruct (Nat.eqb_spec (T s1 r) (T s j)) as [E|E]; [|rewrite andb_false_r; reflexivity]. destruct (j <=? r); cbn [andb]; [|reflexivity]. lia. }
      set (s2 := Ids tr2 pc (upd (i_ncost s) i (rnd c)) (upd (i_prev s) j (Some i)) (upd (i_next s) i (Some j))).
      assert (PV2 : forall r, PV s2 r = if r =? j then Some i else PV s r) by (intros r; unfold PV; cbn; rewrite nth_upd by lia; auto).
      assert (F2 : forall r, fed s2 r <-> fed s1 r). { apply fed_ext. intros r. split; intros X Y; apply X, ZR, Y. }
      assert (HD2 : forall r, head s2 r -> head s1 r /\ T s2 r = T s1 r /\ r <> j).
      { intros r (U & F). assert (H : head s1 r). { split; [intros X; apply U, ZR, X|]. rewrite <- F2. auto. }
        assert (RM : r <= m). { destruct (HE1 r H) as [[A _]|[-> _]]; lia. } split; [auto|]. split; [|lia]. change (T s2 r) with (nth r tr2 0). rewrite TR2. destruct (Nat.leb_spec j r); [lia|auto]. }
      assert (HD1 : forall r, head s1 r -> head s2 r /\ T s2 r = T s1 r).
      { intros r (U & F). assert (H : head s2 r). { split; [intros X; apply U, ZR, X|]. rewrite F2. auto. } split; [auto|]. apply HD2, H. }
      eexists _, s2. split; [reflexivity|]. split.
      * apply WID; [unfold tr2; rewrite relabel_len; auto|rewrite length_upd; auto].
      * rewrite length_upd. auto.
      * intros r R. rewrite US1 by auto. f_equal. destruct (Nat.eqb_spec (T s1 r) 0) as [Z|Z]; [apply ZR in Z|]; symmetry; [apply Nat.eqb_eq|apply Nat.eqb_neq]; [auto|intros X; apply Z, ZR, X].
      * split.
        -- apply CN, ZR.
        -- apply CU, ZR.
        -- intros r q d U N. left. assert (U' : T s1 r <> 0) by (intros X; apply U, ZR, X). intros X. apply ZR in X. destruct (U1 r U') as [->|U'']; [rewrite NI in N; injection N as <- _; congruence|].
           destruct (C3 r q d U'' N) as [Y|Y]; [apply UP in Y; congruence|]. injection Y as <-. lia.
        -- intros r Z _. apply ZR in Z. assert (NR : r <> j) by congruence. rewrite PV2. destruct (Nat.eqb_spec r j); [congruence|]. unfold PC. cbn [i_pcost s2]. rewrite PCO by auto. destruct (Z1 r Z). apply C4; [auto|congruence].
        -- intros r U F. apply F2 in F. destruct (Nat.eq_dec r j) as [->|NR].
           ++ exists i, c. rewrite PV2, Nat.eqb_refl. split; [auto|]. split; [intros X; apply ZR in X; lia|]. split; [auto|]. unfold PC. cbn [i_pcost s2]. split; [lra|]. split.
              ** change (nth j tr2 0 = nth i tr2 0). rewrite !TR2, Nat.leb_refl, T1J, Nat.eqb_refl. cbn [andb]. destruct (Nat.leb_spec j i); [lia|]. cbn [andb]. auto.
              ** intros k' c' U' N. apply (MXJ' k' c'); [intros X; apply U', ZR, X|auto].
           ++ assert (L1 : linked s1 r). { destruct (Nat.eq_dec r i) as [->|NRI]; [auto|]. destruct (FR r F NR) as [F' NIR]. assert (U' : T s1 r <> 0) by (intros X; apply U, ZR, X). destruct (U1 r U') as [->|U'']; [congruence|]. apply LO; auto. }
              destruct L1 as (q & d & PQ & UQ & NQ & CQ & TQ & MQ). destruct (NXP _ _ _ NQ) as [QR _]. exists q, d. rewrite PV2. destruct (Nat.eqb_spec r j); [congruence|]. split; [auto|]. split; [intros X; apply ZR in X; auto|]. split; [auto|].
              unfold PC. cbn [i_pcost s2]. rewrite PCO by auto. split; [auto|]. split; [|intros k' c' U' N; apply (MQ k' c'); [intros X; apply U', ZR, X|auto]].
              change (nth r tr2 0 = nth q tr2 0). rewrite !TR2, <- TQ. destruct (Nat.eqb_spec (T s1 r) (T s j)) as [E|E]; [|rewrite !andb_false_r; auto]. rewrite !andb_true_r.
              destruct (Nat.leb_spec j r) as [JR|JR]; destruct (Nat.leb_spec j q) as [JQ|JQ]; auto; [|lia]. exfalso.
              (* the row before [r] in the segment of [j] would be before [j] *)
              assert (NRI : r <> i) by lia. assert (TRS : T s r = T s j) by (rewrite <- E; symmetry; auto). destruct (FR r F NR) as [F' _]. assert (UR : T s r <> 0) by congruence.
              destruct (fed_dec s r) as [_|X]; [unfold wide; auto| |contradiction].
              assert (CL : climb s r j). { apply chain_of; [unfold wide; auto|auto|exact OR0|lia|auto|congruence]. }
              destruct (climb_inv _ _ _ CL) as (k2 & P3 & CL3); [auto|]. change (PV s1 r) with (PV s r) in PQ. rewrite PQ in P3. injection P3 as <-. apply (climb_le s q j C5) in CL3. lia.
      * intros r R X. apply ZR in X. apply (BE1 r R X).
      * intros r H. destruct (HD2 r H) as (H1 & _ & NR). rewrite PV2. destruct (Nat.eqb_spec r j); [congruence|]. apply (HE1 r H1).
      * intros a b A B AB. destruct (HD2 a A) as (A1 & -> & _). destruct (HD2 b B) as (B1 & -> & _). auto.
      * intros r. change (T s2 r) with (nth r tr2 0). rewrite TR2. destruct ((j <=? r) && (T s1 r =? T s j)); auto.
      * intros t R. destruct (ALL1 t R) as (r & H & E). destruct (HD1 r H) as [H2 E2]. exists r. split; [auto|congruence].
      * auto.
      * right. destruct MI as [A B]. destruct (HD1 m B) as [C D]. split; [congruence|auto].
      * discriminate.
    + (* it stays in its segment *)
      assert (NE : ~ (rnd c == nth j pc 0)%Q) by (intros X; apply Qeq_bool_iff in X; congruence).
      assert (PJ : nth j pc 0%Q = PC s j) by (rewrite PCJ in NE |- *; destruct (Qlt_bool (PC s j) c); [exfalso; apply NE; reflexivity|auto]).
      set (s2 := Ids tr pc (upd (i_ncost s) i (rnd c)) (i_prev s) (upd (i_next s) i (Some j))).
      assert (PC2 : forall r, PC s2 r = PC s r) by (intros r; change (nth r pc 0%Q = PC s r); destruct (Nat.eq_dec r j) as [->|]; auto).
      assert (LK2 : forall r, linked s1 r -> linked s2 r).
      { intros r (q & d & PQ & UQ & NQ & CQ & TQ & MQ). exists q, d. rewrite PC2. auto 10. }
      eexists _, s2. split; [reflexivity|]. split; auto.
      * apply WID; auto.
      * rewrite length_upd. auto.
      * split.
        -- apply CN. reflexivity.
        -- apply CU. reflexivity.
        -- intros r q d U N. left. destruct (U1 r U) as [->|U']; [rewrite NI in N; injection N as <- _; auto|]. destruct (C3 r q d U' N) as [X|X]; [apply UP; auto|]. injection X as <-. change (T s1 i <> 0). lia.
        -- intros r Z _. destruct (Z1 r Z) as [NR Z']. rewrite PC2. apply C4; [auto|congruence].
        -- intros r U F. destruct (Nat.eq_dec r j) as [->|NR].
           ++ exists k, ck. rewrite PC2. split; [auto|]. split; [change (T s1 k <> 0); auto|]. split; [auto|]. split; [auto|]. split; [change (T s1 j = T s1 k); congruence|].
              intros k' c' U' N. rewrite <- PJ. eauto.
           ++ apply LK2. destruct (Nat.eq_dec r i) as [->|NRI]; [auto|]. destruct (FR r F NR) as [F' NIR]. destruct (U1 r U) as [->|U'']; [congruence|]. apply LO; auto.
      * discriminate.
Qed.

(** *** The loop over the rows *)
Lemma start_spec : forall m tid used s, outer m tid used s -> m < n -> T s m = 0 -> inner m tid (Some m) used s.
Proof.
  intros m tid used s [W LU US CO BE HE OR TOP ALL TID] MN Z. assert (NF : ~ fed s m). { intros (k & c & U & N). destruct (c_closed _ _ CO k m c U N) as [X|X]; [congruence|discriminate]. }
  destruct (c_fresh _ _ CO m Z) as [P C]; [discriminate|]. split; auto.
  - destruct CO as [C1 C2 C3 C4 C5]. split; auto.
    + intros r j c U N. destruct (C3 r j c U N) as [X|X]; [auto|discriminate].
    + intros r Zr _. apply C4; [auto|discriminate].
  - intros r. specialize (TOP r). lia.
  - intros i E. injection E as <-. split; [auto|]. split; [lia|]. left. auto.
Qed.
Lemma finish_spec : forall m tid used s, inner m tid None used s -> m < n ->
  exists s', upd_prev rnd m s (px m) = Some s' /\ outer (S m) (S tid) used s'.
Proof.
  intros m tid used s [W LU US CO BE HE OR TOP ALL TID MM _] MN. destruct MM as [X|[TM HM]]; [discriminate|].
  assert (TOP' : forall r, T s r < S tid) by (intros r; specialize (TOP r); lia).
  assert (BE' : forall r, r < S m -> T s r <> 0) by (intros r R; destruct (Nat.eq_dec r m) as [->|]; [lia|apply BE; lia]).
  assert (ALL' : forall t, 0 < t < S tid -> exists r, head s r /\ T s r = t) by (intros t R; destruct (Nat.eq_dec t tid) as [->|]; [eauto|apply ALL; lia]).
  unfold upd_prev. destruct (px m) as [[k c]|] eqn:P.
  - destruct W as (W1 & W2 & W3 & W4 & W5). rewrite (store_lt (i_pcost s)) by lia. cbn [bind]. rewrite (store_lt (i_prev s)) by lia. cbn [bind].
    set (s2 := Ids (i_track s) (upd (i_pcost s) m (rnd c)) (i_ncost s) (upd (i_prev s) m (Some k)) (i_next s)).
    assert (PV2 : forall r, PV s2 r = if r =? m then Some k else PV s r) by (intros r; unfold PV; cbn; rewrite nth_upd by lia; auto).
    assert (PC2 : forall r, r <> m -> PC s2 r = PC s r) by (intros r N; unfold PC; cbn; rewrite nth_upd by lia; destruct (Nat.eqb_spec r m); [congruence|auto]).
    exists s2. split; [reflexivity|]. split; auto.
    + unfold wide. cbn. rewrite !length_upd. auto.
    + destruct CO as [C1 C2 C3 C4 C5]. split; auto.
      * intros r Z N. assert (r <> m) by (intros ->; destruct HM as [X _]; apply X, Z). rewrite PV2, PC2 by auto. destruct (Nat.eqb_spec r m); [congruence|]. apply C4; auto.
      * intros r U F. assert (r <> m) by (intros ->; destruct HM as [_ X]; apply X, F). destruct (C5 r U F) as (q & d & PQ & UQ & NQ & CQ & TQ & MQ). exists q, d.
        rewrite PV2, PC2 by auto. destruct (Nat.eqb_spec r m); [congruence|]. auto 10.
    + intros r H. rewrite PV2. destruct (Nat.eqb_spec r m) as [->|NR]; [rewrite P; auto|]. destruct (HE r H) as [[A B]|[A B]]; [split; [lia|auto]|congruence].
  - exists s. split; [auto|]. split; auto. intros r H. destruct (HE r H) as [[A B]|[-> B]]; [split; [lia|auto]|]. split; [lia|]. rewrite P. auto.
Qed.
Lemma loop_spec : forall k m tid used s, length time = n -> n = m + k -> outer m tid used s ->
  exists s' tid' used', set_tracks_loop meet overlap rnd time window time_s time_e time_ref (seq m k) tid used s = Some s' /\ outer n tid' used' s'.
Proof.
  induction k as [|k IH]; intros m tid used s LT E O; cbn [seq set_tracks_loop].
  - exists s, tid, used. split; [auto|]. replace n with m by lia. auto.
  - pose proof O as [W LU US CO BE HE OR TOP ALL TID]. rewrite (nth_error_nth_lt used m false) by lia. cbn [bind]. rewrite US by lia. destruct (Nat.eqb_spec (T s m) 0) as [Z|Z]; cbn [negb].
    + destruct (follow_spec (S (length time)) m tid m used s) as (used1 & s1 & E1 & I1); [lia|apply start_spec; auto; lia|]. rewrite E1. cbn [bind].
      rewrite GP by lia. destruct (finish_spec m tid used1 s1 I1) as (s2 & E2 & O2); [lia|]. rewrite E2. cbn [bind]. apply IH; [auto|lia|auto].
    + apply IH; [auto|lia|]. split; auto.
      * intros r R. destruct (Nat.eq_dec r m) as [->|]; [auto|apply BE; lia].
      * intros r H. destruct (HE r H). split; [lia|auto].
Qed.
End Dyn.

(** ** One group *)
Lemma nth_nth_error : forall {A} (l : list A) i d x, i < length l -> (nth i l d = x <-> nth_error l i = Some x).
Proof. intros A l i d x L. rewrite (nth_error_nth_lt l i d L). split; [intros ->; auto|intros E; injection E; auto]. Qed.
Lemma follows_fun : forall time cost window i j j', follows time cost window i j -> follows time cost window i j' -> j = j'.
Proof.
  intros time cost w i j j' (ti & tj & A & B & R & (P & BD) & Z) (ti' & tj' & A' & B' & R' & (P' & BD') & Z'). rewrite A in A'. injection A' as <-.
  destruct (Z.lt_trichotomy tj tj') as [L|[E|L]].
  - specialize (Z' j tj B ltac:(lia)). lra.
  - subst tj'. destruct (Nat.lt_trichotomy j j') as [L|[E|L]]; [|auto|].
    + destruct (BD j' B') as [U _]. destruct (BD' j B) as [_ V]. specialize (V L). lra.
    + destruct (BD' j B) as [U _]. destruct (BD j' B') as [_ V]. specialize (V L). lra.
  - specialize (Z j' tj' B' ltac:(lia)). lra.
Qed.
Lemma precedes_fun : forall time cost window i j j', precedes time cost window i j -> precedes time cost window i j' -> j = j'.
Proof.
  intros time cost w i j j' (ti & tj & A & B & R & (P & BD) & Z) (ti' & tj' & A' & B' & R' & (P' & BD') & Z'). rewrite A in A'. injection A' as <-.
  destruct (Z.lt_trichotomy tj tj') as [L|[E|L]].
  - specialize (Z j' tj' B' ltac:(lia)). lra.
  - subst tj'. destruct (Nat.lt_trichotomy j j') as [L|[E|L]]; [|auto|].
    + destruct (BD j' B') as [U _]. destruct (BD' j B) as [_ V]. specialize (V L). lra.
    + destruct (BD' j B) as [U _]. destruct (BD j' B') as [_ V]. specialize (V L). lra.
  - specialize (Z' j tj B ltac:(lia)). lra.
Qed.

Theorem set_tracks_spec : forall meet overlap rnd time window, time <> [] -> zsorted time -> (forall i j, (0 <= overlap i j)%Q) -> rounding rnd ->
  exists s, set_tracks meet overlap rnd time window (ids_init (length time)) = Some s /\
    length (i_pcost s) = length time /\ length (i_ncost s) = length time /\
    segmented time (cost_of meet overlap) rnd window (i_track s) (i_prev s) (i_next s).
Proof.
  intros meet overlap rnd time window NE SO NN RN. destruct (build_index_tile time NE SO) as (ts & te & ref & BI & _). unfold set_tracks. rewrite BI. cbn [bind].
  set (n := length time). set (nx := next_found meet overlap time window ts te ref). set (px := prev_found meet overlap time window ts te ref). set (cost := cost_of meet overlap).
  assert (LT : forall i j a b, nth_error time i = Some a -> nth_error time j = Some b -> (a < b)%Z -> i < j).
  { intros i j a b A B L. destruct (Nat.lt_trichotomy i j) as [X|[X|X]]; [auto|subst; rewrite A in B; injection B as <-; lia|]. specialize (SO _ _ _ _ X B A). lia. }
  assert (NXF : forall i j c, nx i = Some (j, c) -> follows time cost window i j /\ c = cost i j) by (apply next_found_Some; auto).
  assert (PXF : forall i j c, px i = Some (j, c) -> precedes time cost window i j /\ c = cost i j) by (apply prev_found_Some; auto).
  assert (NXP : forall i j c, nx i = Some (j, c) -> i < j < n /\ (0 < c)%Q).
  { intros i j c E. apply NXF in E as [(ti & tj & A & B & R & (P & _) & _) ->]. split; [|auto]. split; [eapply LT; eauto; lia|]. eapply nth_error_Some_lt; eauto. }
  assert (PXP : forall i j c, px i = Some (j, c) -> j < i).
  { intros i j c E. apply PXF in E as [(ti & tj & A & B & R & _) _]. eapply LT; eauto. lia. }
  assert (O : outer n nx px rnd 0 1 (repeat false n) (ids_init n)).
  { assert (T0 : forall r, T (ids_init n) r = 0) by (intros r; unfold T; cbn; apply nth_repeat). split.
    - unfold wide. cbn. rewrite !repeat_length. auto.
    - apply repeat_length.
    - intros r R. rewrite T0, nth_repeat. auto.
    - split.
      + intros r U. rewrite T0 in U. congruence.
      + intros r _. unfold NX, NC. cbn. rewrite !nth_repeat. auto.
      + intros r j c U. rewrite T0 in U. congruence.
      + intros r _ _. unfold PV, PC. cbn. rewrite !nth_repeat. auto.
      + intros r U. rewrite T0 in U. congruence.
    - intros r R. lia.
    - intros r [U _]. rewrite T0 in U. congruence.
    - intros a b [U _]. rewrite T0 in U. congruence.
    - intros r. rewrite T0. lia.
    - intros t R. lia.
    - lia. }
  destruct (loop_spec n nx px rnd NXP RN meet overlap time window ts te ref) with (k := n) (m := 0) (tid := 1) (used := repeat false n) (s := ids_init n) as (s & tid & used & E & OUT); auto.
  { intros i s L. apply get_next_found; auto. }
  { intros i s L. apply get_prev_found; auto. }
  fold n in E |- *. rewrite E. exists s. split; [auto|]. destruct OUT as [W _ _ CO BE HE OR TOP ALL TID]. pose proof W as (W1 & W2 & W3 & W4 & W5). split; [auto|]. split; [auto|].
  destruct CO as [C1 _ _ _ C5].
  assert (NXE : forall i j, nth_error (i_next s) i = Some (Some j) <-> exists c, nx i = Some (j, c)).
  { intros i j. split.
    - intros N. assert (L : i < n) by (rewrite <- W5; eapply nth_error_Some_lt; eauto). apply (nth_nth_error _ i None) in N; [|lia]. destruct (C1 i (BE i L)) as [X _]. unfold NX in X. rewrite N in X. destruct (nx i) as [[q c]|]; [|discriminate]. simpl in X. injection X as <-. eauto.
    - intros (c & N). pose proof (NXP _ _ _ N) as [[L1 L2] _]. apply (nth_nth_error _ i None); [lia|]. destruct (C1 i (BE i ltac:(lia))) as [X _]. unfold NX in X. rewrite X, N. auto. }
  assert (PVE : forall i j, nth_error (i_prev s) i = Some (Some j) <-> i < n /\ PV s i = Some j).
  { intros i j. split.
    - intros N. assert (L : i < n) by (rewrite <- W4; eapply nth_error_Some_lt; eauto). split; [auto|]. apply (nth_nth_error _ i None) in N; [auto|lia].
    - intros [L P]. apply (nth_nth_error _ i None); [lia|auto]. }
  assert (TE : forall i t, nth_error (i_track s) i = Some t <-> i < n /\ T s i = t).
  { intros i t. split.
    - intros N. assert (L : i < n) by (rewrite <- W1; eapply nth_error_Some_lt; eauto). split; [auto|]. apply (nth_nth_error _ i 0) in N; [auto|lia].
    - intros [L P]. apply (nth_nth_error _ i 0); [lia|auto]. }
  assert (FEDE : forall r, fed nx s r <-> exists k, nth_error (i_next s) k = Some (Some r)).
  { intros r. split; [intros (k & c & _ & N); exists k; apply NXE; eauto|]. intros (k & N). apply NXE in N as (c & N). exists k, c. split; [apply BE; apply NXP in N; lia|auto]. }
  split; [auto|]. split; [auto|]. split; [auto|]. split; [|split; [|split; [|split; [|split]]]].
  - (* next *) intros i j. rewrite NXE. split; [intros (c & N); apply NXF in N as [F _]; auto|]. intros F. pose proof F as (ti & tj & A & B & R & (P & _) & _).
    destruct (nx i) as [[q c]|] eqn:N; [pose proof (NXF _ _ _ N) as [F' _]; rewrite (follows_fun _ _ _ _ _ _ F F'); eauto|].
    exfalso. pose proof (next_found_None meet overlap NN time window ts te ref SO BI i ti A N j tj B ltac:(lia)) as Z. fold cost in Z. lra.
  - (* previous of a row with a predecessor *)
    intros r k N. pose proof N as N0. apply NXE in N as (c & N). pose proof (NXP _ _ _ N) as [[L1 L2] _]. assert (U : T s r <> 0) by (apply BE; lia).
    destruct (C5 r U) as (k2 & c2 & P & UK & N2 & PCK & TT & MX); [apply FEDE; eauto|]. exists k2. split; [apply PVE; split; [lia|auto]|]. split; [apply NXE; eauto|].
    intros k' N'. apply NXE in N' as (c' & N'). pose proof (NXF _ _ _ N') as [_ E']. pose proof (NXF _ _ _ N2) as [_ E2]. subst c' c2. assert (X : (rnd (cost k' r) <= PC s r)%Q) by (apply (MX k' (cost k' r)); [apply BE; apply NXP in N'; lia|auto]). lra.
  - (* previous of the other rows *)
    intros r NF j. rewrite PVE. assert (X : r < n -> PV s r = option_map fst (px r)). { intros L. apply HE. split; [apply BE; auto|]. rewrite FEDE. intros (k & N). eapply NF; eauto. } split.
    + intros [L P]. rewrite X in P by auto. destruct (px r) as [[q c]|] eqn:N; [|discriminate]. simpl in P. injection P as <-. apply PXF in N as [F _]. auto.
    + intros F. pose proof F as (ti & tj & A & B & R & (P & _) & _). assert (L : r < n) by (eapply nth_error_Some_lt; eauto). split; [auto|]. rewrite X by auto.
      destruct (px r) as [[q c]|] eqn:N; [pose proof (PXF _ _ _ N) as [F' _]; rewrite (precedes_fun _ _ _ _ _ _ F F'); auto|].
      exfalso. pose proof (prev_found_None meet overlap NN time window ts te ref SO BI r ti A N j tj B ltac:(lia)) as Z. fold cost in Z. lra.
  - (* segments *)
    intros a b AB. assert (LK : forall x y, climb nx s x y -> x < n -> y <= x) by (intros x y C _; eapply climb_le; eauto). split.
    + intros (t & A & B & NB). apply TE in A as [LA TA]. apply TE in B as [LB TB]. assert (C : climb nx s b a) by (eapply chain_of; eauto; [lia|congruence]).
      destruct (climb_inv _ _ _ _ C) as (k & P & CK); [lia|]. assert (UB : T s b <> 0) by (apply BE; auto).
      assert (F : fed nx s b). { destruct (fed_dec n nx s b W) as [F|F]; [auto|]. exfalso. destruct (head_of n nx rnd NXP s W C5 a (BE a LA)) as (h & H & E1 & E2). assert (X : T s h < T s b) by (apply OR; [auto|split; auto|lia]). lia. }
      destruct (C5 b UB F) as (k2 & c & P2 & UK & N & _ & TT & _). rewrite P in P2. injection P2 as <-. pose proof (LK _ _ CK ltac:(apply NXP in N; lia)) as AK. pose proof (NXP _ _ _ N) as [[KB _] _].
      assert (k = a). { destruct (Nat.eq_dec k a); [auto|]. exfalso. apply (NB k); [lia|]. apply TE. split; [lia|congruence]. } subst k. split; [apply PVE; auto|apply NXE; eauto].
    + intros [P N]. apply PVE in P as [LB P]. pose proof N as N0. apply NXE in N as (c & N). assert (UB : T s b <> 0) by (apply BE; auto). assert (F : fed nx s b) by (apply FEDE; eauto).
      destruct (C5 b UB F) as (k2 & c2 & P2 & UK & N2 & _ & TT & _). rewrite P in P2. injection P2 as <-. exists (T s b). split; [apply TE; split; [lia|auto]|]. split; [apply TE; auto|].
      intros q R Q. apply TE in Q as [LQ TQ]. assert (C : climb nx s b q) by (eapply chain_of; eauto; lia). destruct (climb_inv _ _ _ _ C) as (k & P3 & CK); [lia|]. rewrite P in P3. injection P3 as <-. apply LK in CK; lia.
  - (* numbers *)
    exists (tid - 1). intros t. split.
    + intros (r & N). apply TE in N as [L <-]. pose proof (BE r L). specialize (TOP r). lia.
    + intros R. destruct (ALL t) as (r & [U _] & E2); [lia|]. exists r. apply TE. split; [eapply T_lt; eauto|auto].
  - (* order of the segments *)
    intros a b ta tb AB A B FA FB. apply TE in A as [LA TA]. apply TE in B as [LB TB]. subst ta tb.
    assert (HD : forall r, r < n -> (forall q, q < r -> nth_error (i_track s) q <> Some (T s r)) -> head nx s r).
    { intros r L F. split; [auto|]. intros FE. destruct (C5 r (BE r L) FE) as (k & c & P & UK & N & _ & TT & _). apply NXP in N as [[KR _] _]. apply (F k KR). apply TE. split; [lia|auto]. }
    apply OR; [apply HD; auto|apply HD; auto|auto].
Qed.
