(** * C144: from the files of identifications to the networks *)
From Coq Require Import List Arith ZArith QArith Bool Lia Lqa Permutation.
From Verif Require Import Base Spec Qaux TrackObs_spec NetEvt_more Split_net Graph_spec NetGroup_spec NetGroup_model NetGroup_more NetGroup_props Net_model Net_spec Net_props Split_model Split_spec Split_proofs Split_more Split_props Split_wf Pipe_model.
Import ListNotations.
Local Close Scope Q_scope.
Local Open Scope nat_scope.

(** ** Specification *)
(** A sort of the rows on group, segment and date, in any order when these are equal. *)
Definition key_le (a b : nat * nat * Q) : Prop :=
  fst (fst a) < fst (fst b) \/ fst (fst a) = fst (fst b) /\ (snd (fst a) < snd (fst b) \/ snd (fst a) = snd (fst b) /\ (snd a <= snd b)%Q).
Definition sorts (argsort : list (nat * nat * Q) -> list nat) : Prop := forall keys,
  Permutation (argsort keys) (seq 0 (length keys)) /\
  forall k l i j a b, k < l -> nth_error (argsort keys) k = Some i -> nth_error (argsort keys) l = Some j -> nth_error keys i = Some a -> nth_error keys j = Some b -> key_le a b.
(** The comparisons of the first command name observations of the two files. *)
Definition comparisons_ok (window : nat) (overlap : nat -> nat -> list nat * list nat) (files : list (list obs)) : Prop :=
  forall i j fi fj, i < j -> j <= i + window -> nth_error files i = Some fi -> nth_error files j = Some fj ->
    length (fst (overlap i j)) = length (snd (overlap i j)) /\
    (forall k, In k (fst (overlap i j)) -> k < length fi) /\ (forall k, In k (snd (overlap i j)) -> k < length fj).
(** [a] and [b], numbers of observations in the files put end to end, were found
    to interact. *)
Definition interact (window : nat) (overlap : nat -> nat -> list nat * list nat) (files : list (list obs)) (a b : nat) : Prop :=
  exists i j k l, i < j /\ j <= i + window /\ j < length files /\ In (k, l) (combine (fst (overlap i j)) (snd (overlap i j))) /\
    a = length (concat (firstn i files)) + k /\ b = length (concat (firstn j files)) + l.
(** The rows of the files follow each other in time, and there are two dates. *)
Definition in_time_order (files : list (list obs)) : Prop :=
  forall a b oa ob, a < b -> nth_error (concat files) a = Some oa -> nth_error (concat files) b = Some ob -> (fst oa <= fst ob)%Z.
Definition two_dates (files : list (list obs)) : Prop := exists oa ob, In oa (concat files) /\ In ob (concat files) /\ fst oa <> fst ob.
(** The observation of a row. *)
Definition obs_of (r : nrow) : obs := (time r, rest r).
Definition overlapping (meet : obs -> obs -> bool) (overlap : obs -> obs -> Q) (a b : obs) : Prop := meet a b = true /\ (0 < overlap a b)%Q.

(** ** Proofs *)
Lemma sum_firstn : forall (files : list (list obs)) i, sum_list (firstn i (map (fun e => length e) files)) = length (concat (firstn i files)).
Proof.
  induction files as [|f files IH]; intros [|i]; cbn [firstn map concat]; try reflexivity. rewrite app_length. cbn [sum_list]. rewrite IH. reflexivity.
Qed.
Lemma sum_all : forall (files : list (list obs)), sum_list (map (fun e => length e) files) = length (concat files).
Proof. induction files as [|f files IH]; cbn [map concat sum_list]; [reflexivity|]. rewrite app_length, IH. reflexivity. Qed.

Lemma rows_overlap : forall meet overlap rnd window tracks time dt s times,
  length time = length tracks -> nsorted tracks -> timestep_of time = Some dt ->
  (forall i j a b g, i < j -> nth_error tracks i = Some g -> nth_error tracks j = Some g -> nth_error time i = Some a -> nth_error time j = Some b -> (a <= b)%Q) ->
  (forall i j, (0 <= overlap i j)%Q) -> rounding rnd ->
  split_network meet overlap rnd window tracks time = Some (times, s) ->
  (forall i j, nth_error (i_next s) i = Some (Some j) -> (0 < overlap_cost meet overlap i j)%Q) /\
  (forall i j, nth_error (i_prev s) i = Some (Some j) -> (0 < overlap_cost meet overlap i j \/ 0 < overlap_cost meet overlap j i)%Q).
Proof.
  intros meet overlap rnd window tracks time dt s times LT NS TS SO NN RN E.
  destruct (C29_split_network meet overlap rnd window tracks time dt LT NS TS SO NN RN) as (s' & E' & L1 & L2 & L3 & Z0 & G). rewrite E in E'. injection E' as -> <-. set (steps := map (fun t => trunc (t / dt)) time) in *.
  assert (WH : forall i, i < length tracks -> nth_error tracks i = Some 0 \/ exists g a b prev next, g <> 0 /\ a <= i < b /\
     segmented (slice steps a b) (fun i j => overlap_cost meet overlap (a + i) (a + j)) rnd window (slice (i_track s) a b) prev next /\
     slice (i_prev s) a b = map (option_map (fun k => k + a)) prev /\ slice (i_next s) a b = map (option_map (fun k => k + a)) next).
  { intros i L. destruct (nth_error_lt_Some tracks i L) as [g GI]. destruct (Nat.eq_dec g 0) as [->|GN]; [auto|]. right. destruct (group_interval tracks i g NS GI) as (a & b & R & BL & RR).
    destruct (G g a b GN ltac:(lia) RR) as (pv & nx & SG & P1 & P2). exists g, a, b, pv, nx. auto 10. }
  assert (UNS : forall (l : list (option nat)) a x i j, map (option_map (fun k => k + a)) l = x -> nth_error x i = Some (Some j) -> exists j', j = j' + a /\ nth_error l i = Some (Some j')).
  { intros l a x i j <- N. rewrite nth_error_map in N. destruct (nth_error l i) as [[q|]|]; simpl in N; try discriminate. injection N as <-. eauto. }
  split; intros i j N.
  - assert (L : i < length tracks) by (rewrite <- L3; eapply nth_error_Some_lt; eauto). destruct (WH i L) as [Z1|(g & a & b & pv & nx & GN & R & SG & P1 & P2)]; [destruct (Z0 i Z1) as (_ & _ & X); congruence|].
    rewrite <- (slice_shift _ a b i R) in N. destruct (UNS _ _ _ _ _ (eq_sym P2) N) as (j' & -> & N'). destruct SG as (_ & _ & _ & NX & _). apply NX in N' as (ti & tj & _ & _ & _ & (B & _) & _).
    replace (a + (i - a)) with i in B by lia. replace (a + j') with (j' + a) in B by lia. exact B.
  - assert (L : i < length tracks) by (rewrite <- L2; eapply nth_error_Some_lt; eauto). destruct (WH i L) as [Z1|(g & a & b & pv & nx & GN & R & SG & P1 & P2)]; [destruct (Z0 i Z1) as (_ & X & _); congruence|].
    rewrite <- (slice_shift _ a b i R) in N. destruct (UNS _ _ _ _ _ (eq_sym P1) N) as (j' & -> & N'). destruct SG as (_ & _ & _ & NX & PF & PO & _).
    destruct (in_dec (fun x y : option nat => ltac:(decide equality; apply Nat.eq_dec) : {x = y} + {x <> y}) (Some (i - a)) nx) as [I|I].
    + apply In_nth_error in I as (k & K). destruct (PF _ _ K) as (p & P & NP & _). rewrite N' in P. injection P as <-. apply NX in NP as (ti & tj & _ & _ & _ & (B & _) & _). right.
      replace (a + (i - a)) with i in B by lia. replace (a + j') with (j' + a) in B by lia. exact B.
    + apply PO in N' as (ti & tj & _ & _ & _ & (B & _) & _); [|intros k K; apply I; eapply nth_error_In; eauto]. left.
      replace (a + (i - a)) with i in B by lia. replace (a + j') with (j' + a) in B by lia. exact B.
Qed.

Lemma map_nodup : forall (f : nat -> nat) l, NoDup l -> (forall x y, In x l -> In y l -> f x = f y -> x = y) -> NoDup (map f l).
Proof.
  intros f l. induction 1 as [|a l NI ND IH]; intros I; cbn [map]; constructor.
  - intros X. apply in_map_iff in X. destruct X as (b & E & B). assert (b = a) by (apply I; [right; exact B|left; reflexivity|exact E]). congruence.
  - apply IH. intros x y IX IY. apply I; right; assumption.
Qed.
Lemma perm_pos : forall (ix : list nat) n p, Permutation ix (seq 0 n) -> p < n -> exists q, nth_error ix q = Some p.
Proof. intros ix n p P L. apply In_nth_error. apply (Permutation_in _ (Permutation_sym P)). apply in_seq. lia. Qed.

Fixpoint index_of (p : nat) (ix : list nat) : nat := match ix with [] => 0 | a :: ix' => if a =? p then 0 else S (index_of p ix') end.
Lemma index_of_spec : forall p ix, In p ix -> nth_error ix (index_of p ix) = Some p.
Proof. induction ix as [|a ix IH]; intros I; [destruct I|]. cbn [index_of]. destruct (Nat.eqb_spec a p) as [->|NE]; [reflexivity|]. apply IH. destruct I as [I|I]; [congruence|exact I]. Qed.

(** Whatever the files, the comparisons of contours, the windows and the order of
    equal rows: the two commands end with a network which is well formed, each
    observation of the files is in it exactly once, two observations are in the
    same network (not 0) if and only if a chain of interactions joins them, those
    without interaction are in network 0, and linked rows overlap. *)
Theorem C144_networks : forall argsort overlap_files meet overlap rnd window_build window_divide files,
  sorts argsort -> comparisons_ok window_build overlap_files files -> in_time_order files -> two_dates files ->
  (forall a b, (0 <= overlap a b)%Q) -> rounding rnd ->
  exists net pos, networks argsort overlap_files meet overlap rnd window_build window_divide files = Some net /\
    well_formed net /\ length net = length (concat files) /\ Permutation pos (seq 0 (length (concat files))) /\
    (forall k o, nth_error (concat files) k = Some o -> exists q r, nth_error pos k = Some q /\ nth_error net q = Some r /\ obs_of r = o) /\
    (forall E, (forall a b, In (a, b) E <-> interact window_build overlap_files files a b) ->
       forall k q r, nth_error pos k = Some q -> nth_error net q = Some r ->
         (track r = 0 <-> forall l, ~ joined E k l) /\
         (forall l q' r', nth_error pos l = Some q' -> nth_error net q' = Some r' -> track r <> 0 -> (track r = track r' <-> chain E k l))) /\
    (forall p q r r', nth_error net p = Some r -> nth_error net q = Some r' ->
       (nxt r = Z.of_nat q -> overlapping meet overlap (obs_of r) (obs_of r')) /\
       (prv r = Z.of_nat q -> overlapping meet overlap (obs_of r) (obs_of r') \/ overlapping meet overlap (obs_of r') (obs_of r))).
Proof.
  intros argsort ovf meet overlap rnd wb wd files SRT CMP ORD TWO NN RN.
  set (nb := map (fun e : list obs => length e) files). set (n := length (concat files)).
  assert (SN : sum_list nb = n) by apply sum_all.
  assert (OK : forall i j ni nj, i < j -> j <= i + wb -> nth_error nb i = Some ni -> nth_error nb j = Some nj ->
     length (fst (ovf i j)) = length (snd (ovf i j)) /\ (forall k, In k (fst (ovf i j)) -> k < ni) /\ (forall k, In k (snd (ovf i j)) -> k < nj)).
  { intros i j ni nj L1 L2 A B. unfold nb in A, B. rewrite nth_error_map in A, B. destruct (nth_error files i) as [fi|] eqn:FI; [|discriminate]. destruct (nth_error files j) as [fj|] eqn:FJ; [|discriminate].
    injection A as <-. injection B as <-. apply (CMP i j fi fj); assumption. }
  assert (EQ : forall a b, interact wb ovf files a b <-> exists i j k l, i < j /\ j <= i + wb /\ j < length nb /\ In (k, l) (combine (fst (ovf i j)) (snd (ovf i j))) /\
     a = sum_list (firstn i nb) + k /\ b = sum_list (firstn j nb) + l).
  { intros a b. unfold interact, nb. rewrite map_length. split; intros (i & j & k & l & A & B & C & D & F & G); exists i, j, k, l; rewrite !sum_firstn in *; auto 10. }
  (* the edges as a list *)
  set (E0 := flat_map (fun i => flat_map (fun j => map (fun p => (sum_list (firstn i nb) + fst p, sum_list (firstn j nb) + snd p)) (combine (fst (ovf i j)) (snd (ovf i j)))) (filter (fun j => (i <? j) && (j <=? i + wb)) (seq 0 (length nb)))) (seq 0 (length nb))).
  assert (HE0 : forall a b, In (a, b) E0 <-> exists i j k l, i < j /\ j <= i + wb /\ j < length nb /\ In (k, l) (combine (fst (ovf i j)) (snd (ovf i j))) /\
     a = sum_list (firstn i nb) + k /\ b = sum_list (firstn j nb) + l).
  { intros a b. unfold E0. rewrite in_flat_map. split.
    - intros (i & _ & I). apply in_flat_map in I. destruct I as (j & J & I). apply filter_In in J. destruct J as [J1 J2]. apply in_seq in J1. apply andb_true_iff in J2. destruct J2 as [J2 J3]. apply Nat.ltb_lt in J2. apply Nat.leb_le in J3.
      apply in_map_iff in I. destruct I as ([k l] & X & I). injection X as <- <-. exists i, j, k, l. cbn [fst snd]. split; [lia|]. split; [lia|]. split; [lia|]. auto.
    - intros (i & j & k & l & A & B & C & D & -> & ->). exists i. split; [apply in_seq; lia|]. apply in_flat_map. exists j. split.
      + apply filter_In. split; [apply in_seq; lia|]. apply andb_true_iff. split; [apply Nat.ltb_lt; lia|apply Nat.leb_le; lia].
      + apply in_map_iff. exists (k, l). split; [reflexivity|exact D]. }
  destruct (C36_group_observations wb nb ovf E0 OK HE0) as (g & GE & GL & G0 & GC). rewrite SN in GL.
  destruct (C44_build_dataset obs (0%Z, []) files g ltac:(fold n; lia)) as (rows & tr & new_i & BE & LR & LTR & PN & MV & SORT & STAB).
  rewrite GL in LR, LTR, PN.
  set (dates := map (fun o : obs => inject_Z (fst o)) rows).
  assert (LN : length new_i = n) by (rewrite (Permutation_length PN), seq_length; reflexivity).
  (* a row of the dataset built comes from a row of the files *)
  assert (BACK : forall p, p < n -> exists k o gk, nth_error new_i k = Some p /\ nth_error (concat files) k = Some o /\ nth_error g k = Some gk /\ nth_error rows p = Some o /\ nth_error tr p = Some gk).
  { intros p L. destruct (perm_pos new_i n p PN L) as (k & K). assert (KL : k < n) by (apply nth_error_Some_lt in K; lia).
    destruct (nth_error_lt_Some (concat files) k KL) as [o O]. destruct (nth_error_lt_Some g k ltac:(lia)) as [gk GK]. destruct (MV k o gk p O GK K) as [A B]. exists k, o, gk. auto. }
  assert (NS : nsorted tr). { intros p q x y PQ X Y. destruct (Nat.eq_dec p q) as [->|NE]; [rewrite X in Y; injection Y as ->; lia|]. apply (SORT p q x y ltac:(lia) X Y). }
  assert (SO : forall i j a b gg, i < j -> nth_error tr i = Some gg -> nth_error tr j = Some gg -> nth_error dates i = Some a -> nth_error dates j = Some b -> (a <= b)%Q).
  { intros i j a b gg IJ TI TJ A B. assert (IL : i < n) by (apply nth_error_Some_lt in TI; lia). assert (JL : j < n) by (apply nth_error_Some_lt in TJ; lia).
    destruct (BACK i IL) as (k & o & gk & K & O & GK & R1 & T1). destruct (BACK j JL) as (l & o' & gl & K' & O' & GL' & R2 & T2).
    unfold dates in A, B. rewrite nth_error_map, R1 in A. rewrite nth_error_map, R2 in B. cbn in A, B. injection A as <-. injection B as <-. rewrite <- Zle_Qle.
    assert (gk = gg) by congruence. assert (gl = gg) by congruence. subst gk gl.
    destruct (Nat.lt_trichotomy k l) as [L|[L|L]].
    - apply (ORD k l o o' L O O').
    - subst l. assert (i = j) by congruence. lia.
    - exfalso. pose proof (STAB l k gg j i L GL' GK K' K). lia. }
  assert (LDT : length dates = length tr) by (unfold dates; rewrite map_length; lia).
  assert (TSX : exists dt, timestep_of dates = Some dt /\ (0 < dt)%Q).
  { destruct TWO as (oa & ob & IA & IB & NE). assert (IND : forall o, In o (concat files) -> In (inject_Z (fst o)) dates).
    { intros o I. apply In_nth_error in I. destruct I as (k & K). assert (KL : k < n) by (unfold n; eapply nth_error_Some_lt; eauto).
      destruct (nth_error_lt_Some g k ltac:(lia)) as [gk GK]. destruct (nth_error_lt_Some new_i k ltac:(lia)) as [p P].
      destruct (MV k o gk p K GK P) as [A _]. unfold dates. apply (in_map (fun o : obs => inject_Z (fst o))). eapply nth_error_In; eauto. }
    apply (C29_timestep dates (inject_Z (fst oa)) (inject_Z (fst ob))); [apply IND; exact IA|apply IND; exact IB|]. intros X. apply NE. apply (proj1 (inject_Z_injective _ _)) in X. exact X. }
  destruct TSX as (dt & TS & DTP).
  assert (NN' : forall i j, (0 <= on_rows overlap 0%Q rows i j)%Q) by (intros i j; unfold on_rows; destruct (nth_error rows i); [destruct (nth_error rows j); [apply NN|]|]; lra).
  destruct (C29_split_network (on_rows meet false rows) (on_rows overlap 0%Q rows) rnd wd tr dates dt LDT NS TS SO NN' RN) as (s & SE & S1 & S2 & S3 & _).
  set (steps := map (fun t => trunc (t / dt)) dates) in *. set (times := map (fun z => (inject_Z z * dt)%Q) steps) in *.
  set (keys := combine (combine tr (i_track s)) times). destruct (SRT keys) as [PX OX]. set (ix := argsort keys) in *.
  assert (LST : length steps = n) by (unfold steps; rewrite map_length; lia).
  assert (LK : length keys = n) by (unfold keys; rewrite !combine_length; unfold times; rewrite map_length; lia). rewrite LK in PX.
  set (data := map (fun p : obs * nat => (snd p, fst (fst p), snd (fst p))) (combine rows tr)).
  assert (LD : length data = n) by (unfold data; rewrite map_length, combine_length; lia).
  assert (CMB : forall {A B} (l : list A) (l' : list B) i x y, nth_error l i = Some x -> nth_error l' i = Some y -> nth_error (combine l l') i = Some (x, y)).
  { intros A B l. induction l as [|u l IH]; intros [|v l'] [|i] x y X Y; try discriminate; cbn in *; [congruence|]. apply IH; assumption. }
  assert (DAT : forall i o gk, nth_error rows i = Some o -> nth_error tr i = Some gk -> nth_error data i = Some (gk, fst o, snd o)).
  { intros i o gk A B. unfold data. rewrite nth_error_map, (CMB _ _ _ _ _ _ _ A B). reflexivity. }
  assert (RO : row_order ix tr (i_track s) steps).
  { intros k l i j gi gj si sj ti tj KL IK JL GI GJ SI SJ TI TJ.
    assert (KI : forall i gi si ti, nth_error tr i = Some gi -> nth_error (i_track s) i = Some si -> nth_error steps i = Some ti -> nth_error keys i = Some (gi, si, (inject_Z ti * dt)%Q)).
    { intros i0 g0 s0 t0 A B C. unfold keys. apply CMB; [apply CMB; assumption|]. unfold times. rewrite nth_error_map, C. reflexivity. }
    pose proof (OX k l i j _ _ KL IK JL (KI _ _ _ _ GI SI TI) (KI _ _ _ _ GJ SJ TJ)) as KE. unfold key_le in KE. cbn [fst snd] in KE.
    destruct KE as [|[? [|[? KE]]]]; [left; assumption|right; split; [assumption|left; assumption]|]. right. split; [assumption|]. right. split; [assumption|].
    apply Qmult_le_r in KE; [|exact DTP]. rewrite <- Zle_Qle in KE. exact KE. }
  assert (DN : data <> []). { intros X. rewrite X in LD. cbn in LD. destruct TWO as (oa & _ & IA & _). unfold n in LD. destruct (concat files); [destruct IA|discriminate]. }
  assert (DT : map (fun d : nat * Z * list Z => fst (fst d)) data = tr).
  { unfold data. rewrite map_map. cbn [fst snd]. assert (CL : forall (a : list obs) (b : list nat), length a = length b -> map (fun x : obs * nat => snd x) (combine a b) = b).
    { induction a as [|u a IH]; intros [|v b] L; try discriminate; cbn; [reflexivity|]. f_equal. apply IH. injection L as L. exact L. } apply CL. lia. }
  assert (DD : forall i j di dj a b, nth_error data i = Some di -> nth_error data j = Some dj -> nth_error dates i = Some a -> nth_error dates j = Some b -> ((a < b)%Q <-> (snd (fst di) < snd (fst dj))%Z)).
  { intros i j di dj a b A B C D. assert (X : forall i di a, nth_error data i = Some di -> nth_error dates i = Some a -> a = inject_Z (snd (fst di))).
    { intros i0 d0 a0 A0 C0. assert (L0 : i0 < n) by (apply nth_error_Some_lt in A0; lia). destruct (BACK i0 L0) as (k & o & gk & _ & _ & _ & R1 & T1). rewrite (DAT _ _ _ R1 T1) in A0. injection A0 as <-.
      unfold dates in C0. rewrite nth_error_map, R1 in C0. injection C0 as <-. reflexivity. }
    rewrite (X _ _ _ A C), (X _ _ _ B D). rewrite <- Zlt_Qlt. reflexivity. }
  assert (PX' : Permutation ix (seq 0 (length data))) by (rewrite LD; exact PX).
  destruct (C78_network (on_rows meet false rows) (on_rows overlap 0%Q rows) rnd wd tr dates dt s times data ix LDT NS TS SO NN' RN SE DN DT DD PX' RO) as (net & NE & WF).
  assert (LKS : forall z, In z (map stored (i_next s)) \/ In z (map stored (i_prev s)) -> link_ok (length data) z).
  { destruct (C78_links (on_rows meet false rows) (on_rows overlap 0%Q rows) rnd wd tr dates dt s times LDT NS TS SO NN' RN SE) as (HN & HP & _).
    intros z I. assert (X : exists o i, z = stored o /\ (nth_error (i_next s) i = Some o \/ nth_error (i_prev s) i = Some o)).
    { destruct I as [I|I]; apply in_map_iff in I as (o & <- & I); apply In_nth_error in I as (i & I); eauto. }
    destruct X as (o & i & -> & X). destruct o as [j|]; [|left; auto]. right. cbn [stored]. rewrite LD. assert (J : j < length tr) by (destruct X as [X|X]; [apply HN in X as (? & ? & ? & _ & _ & X & _)|apply HP in X as (? & ? & ? & _ & _ & X & _)]; eapply nth_error_Some_lt; eauto). lia. }
  destruct (C37_from_split_network ix data (i_track s) (map stored (i_next s)) (map stored (i_prev s)) DN PX' ltac:(lia) ltac:(rewrite map_length; lia) ltac:(rewrite map_length; lia) LKS) as (net' & NE' & LNET & RW).
  rewrite NE in NE'. injection NE' as <-. rewrite LD in LNET.
  set (pos := map (fun p => index_of p ix) new_i).
  assert (IXI : forall p, p < n -> nth_error ix (index_of p ix) = Some p) by (intros p L; apply index_of_spec; apply (Permutation_in _ (Permutation_sym PX)); apply in_seq; lia).
  assert (LIX : length ix = n) by (rewrite (Permutation_length PX), seq_length; reflexivity).
  assert (NDX : NoDup ix) by (eapply Permutation_NoDup; [apply Permutation_sym; exact PX|apply seq_NoDup]).
  assert (UNI : forall k l i, nth_error ix k = Some i -> nth_error ix l = Some i -> k = l).
  { intros k l i A B. apply (proj1 (NoDup_nth_error ix) NDX); [eapply nth_error_Some_lt; eauto|congruence]. }
  assert (NDN : NoDup new_i) by (eapply Permutation_NoDup; [apply Permutation_sym; exact PN|apply seq_NoDup]).
  assert (POS : forall k q, nth_error pos k = Some q -> exists p, nth_error new_i k = Some p /\ p < n /\ nth_error ix q = Some p).
  { intros k q K. unfold pos in K. rewrite nth_error_map in K. destruct (nth_error new_i k) as [p|] eqn:P; [|discriminate]. injection K as <-.
    assert (PL : p < n). { assert (I : In p (seq 0 n)) by (apply (Permutation_in _ PN); eapply nth_error_In; eauto). apply in_seq in I. lia. }
    exists p. split; [reflexivity|]. split; [exact PL|]. apply IXI. exact PL. }
  (* the row of an observation *)
  assert (ROW : forall k q r, nth_error pos k = Some q -> nth_error net q = Some r -> exists o gk, nth_error (concat files) k = Some o /\ nth_error g k = Some gk /\ obs_of r = o /\ track r = gk).
  { intros k q r K N. destruct (POS k q K) as (p & P & PL & IQ). destruct (BACK p PL) as (k' & o & gk & K' & O & GK & R1 & T1).
    assert (k' = k) by (apply (proj1 (NoDup_nth_error new_i) NDN); [eapply nth_error_Some_lt; eauto|congruence]). subst k'.
    destruct (RW q p IQ) as (r0 & d & sg & nn & pp & A1 & A2 & _ & _ & _ & A3 & _). rewrite N in A1. injection A1 as <-. rewrite (DAT _ _ _ R1 T1) in A2. injection A2 as <-.
    injection A3 as B1 B2 B3. exists o, gk. split; [exact O|]. split; [exact GK|]. split; [|symmetry; exact B1]. unfold obs_of. rewrite <- B2, <- B3. destruct o; reflexivity. }
  exists net, pos. split; [|split; [exact WF|split; [exact LNET|split; [|split; [|split]]]]].
  - assert (BN : build_network wb ovf files = Some (rows, tr)) by (unfold build_network; fold nb; rewrite GE; exact BE).
    unfold networks. rewrite BN. cbn [bind]. unfold divide_network. fold dates. rewrite SE. cbn [bind]. exact NE.
  - apply NoDup_Permutation_bis.
    + unfold pos. apply map_nodup; [exact NDN|]. intros x y IX IY XY.
      assert (XL : x < n) by (apply (Permutation_in _ PN) in IX; apply in_seq in IX; lia). assert (YL : y < n) by (apply (Permutation_in _ PN) in IY; apply in_seq in IY; lia).
      pose proof (IXI x XL) as A. pose proof (IXI y YL) as B. rewrite XY in A. congruence.
    + rewrite seq_length. unfold pos. rewrite map_length. lia.
    + intros q I. apply In_nth_error in I. destruct I as (k & K). destruct (POS k q K) as (p & _ & _ & IQ). apply in_seq. apply nth_error_Some_lt in IQ. lia.
  - intros k o O. assert (KL : k < n) by (unfold n; eapply nth_error_Some_lt; eauto). destruct (nth_error_lt_Some pos k ltac:(unfold pos; rewrite map_length; lia)) as [q Q].
    destruct (POS k q Q) as (p & P & PL & IQ). assert (QL : q < length net) by (apply nth_error_Some_lt in IQ; lia). destruct (nth_error_lt_Some net q QL) as [r R]. exists q, r. split; [exact Q|]. split; [exact R|].
    destruct (ROW k q r Q R) as (o' & gk & O' & _ & OB & _). congruence.
  - intros E HE k q r K N. destruct (ROW k q r K N) as (o & gk & O & GK & _ & TK).
    assert (JE : forall a b, joined E a b <-> joined E0 a b) by (intros a b; unfold joined; rewrite !HE, !HE0, !EQ; reflexivity).
    assert (CE : forall a b, chain E a b <-> chain E0 a b) by (intros a b; split; apply chain_incl; intros x y I; apply JE; left; exact I).
    rewrite TK. split.
    + rewrite (G0 k gk GK). split; intros X l J; apply (X l); apply JE; exact J.
    + intros l q' r' K' N' NZ. destruct (ROW l q' r' K' N') as (o' & gl & O' & GL' & _ & TL). rewrite TL. rewrite (GC k l gk gl GK GL' NZ). symmetry. apply CE.
  - destruct (rows_overlap (on_rows meet false rows) (on_rows overlap 0%Q rows) rnd wd tr dates dt s times LDT NS TS SO NN' RN SE) as [HN HP].
    assert (CST : forall i j, (0 < overlap_cost (on_rows meet false rows) (on_rows overlap 0%Q rows) i j)%Q -> exists a b, nth_error rows i = Some a /\ nth_error rows j = Some b /\ overlapping meet overlap a b).
    { intros i j X. unfold overlap_cost, on_rows in X. destruct (nth_error rows i) as [a|]; [|apply Qlt_irrefl in X; destruct X]. destruct (nth_error rows j) as [b|]; [|apply Qlt_irrefl in X; destruct X].
      exists a, b. split; [reflexivity|]. split; [reflexivity|]. unfold overlapping. destruct (meet a b); [split; [reflexivity|exact X]|apply Qlt_irrefl in X; destruct X]. }
    assert (LNK : forall o z q, link_moved ix (stored o) z -> z = Z.of_nat q -> exists j, o = Some j /\ nth_error ix q = Some j).
    { intros o z q M ->. destruct M as [(k & j & K & X & Y)|[X _]]; [|lia]. apply Nat2Z.inj in Y. subst k. destruct o as [j'|]; cbn [stored] in X; [|lia]. apply Nat2Z.inj in X. subst j'. eauto. }
    assert (OB : forall p r, nth_error net p = Some r -> exists i nn pp, nth_error ix p = Some i /\ nth_error rows i = Some (obs_of r) /\ nth_error (i_next s) i = Some nn /\ nth_error (i_prev s) i = Some pp /\ link_moved ix (stored nn) (nxt r) /\ link_moved ix (stored pp) (prv r)).
    { intros p r N. assert (PL : p < length ix) by (apply nth_error_Some_lt in N; lia). destruct (nth_error_lt_Some ix p PL) as [i I]. destruct (RW p i I) as (r0 & d & sg & nn & pp & A1 & A2 & _ & A4 & A5 & A3 & _ & A6 & A7). rewrite N in A1. injection A1 as <-.
      rewrite nth_error_map in A4, A5. destruct (nth_error (i_next s) i) as [n1|] eqn:E1; [|discriminate]. destruct (nth_error (i_prev s) i) as [p1|] eqn:E2; [|discriminate]. cbn [option_map] in A4, A5. injection A4 as <-. injection A5 as <-.
      assert (IL : i < n) by (apply nth_error_Some_lt in A2; lia). destruct (BACK i IL) as (k & o & gk & _ & _ & _ & R1 & T1). rewrite (DAT _ _ _ R1 T1) in A2. injection A2 as <-. injection A3 as B1 B2 B3.
      exists i, n1, p1. split; [exact I|]. split; [rewrite R1; f_equal; unfold obs_of; rewrite <- B2, <- B3; destruct o; reflexivity|]. auto. }
    intros p q r r' N N'. destruct (OB p r N) as (i & nn & pp & I & OI & NI & PI & M1 & M2). destruct (OB q r' N') as (j & nn' & pp' & J & OJ & _). split; intros X.
    + destruct (LNK _ _ _ M1 X) as (j' & -> & J'). rewrite J in J'. injection J' as <-. destruct (CST _ _ (HN i j NI)) as (a & b & A & B & C). congruence.
    + destruct (LNK _ _ _ M2 X) as (j' & -> & J'). rewrite J in J'. injection J' as <-. destruct (HP i j PI) as [Y|Y]; destruct (CST _ _ Y) as (a & b & A & B & C); [left|right]; congruence.
Qed.
Print Assumptions C144_networks.

(** ** A case *)
(** A sort of the rows. *)
Definition key_leb (a b : nat * nat * Q) : bool :=
  (fst (fst a) <? fst (fst b)) || ((fst (fst a) =? fst (fst b)) && ((snd (fst a) <? snd (fst b)) || ((snd (fst a) =? snd (fst b)) && Qle_bool (snd a) (snd b)))).
Fixpoint insert (p : nat * nat * Q * nat) (l : list (nat * nat * Q * nat)) : list (nat * nat * Q * nat) :=
  match l with [] => [p] | a :: l' => if key_leb (fst p) (fst a) then p :: l else a :: insert p l' end.
Definition sort_rows (keys : list (nat * nat * Q)) : list nat := map snd (fold_right insert [] (combine keys (seq 0 (length keys)))).

Lemma key_leb_iff : forall a b, key_leb a b = true <-> key_le a b.
Proof. intros a b. unfold key_leb, key_le. rewrite !orb_true_iff, !andb_true_iff, !orb_true_iff, !andb_true_iff, !Nat.ltb_lt, !Nat.eqb_eq, Qle_bool_iff. tauto. Qed.
Lemma key_le_trans : forall a b c, key_le a b -> key_le b c -> key_le a c.
Proof. unfold key_le. intros a b c [H|[H [H1|[H1 H2]]]] [K|[K [K1|[K1 K2]]]]; try (left; lia); right; (split; [lia|]); try (left; lia). right. split; [lia|lra]. Qed.
Lemma key_le_total : forall a b, ~ key_le a b -> key_le b a.
Proof.
  unfold key_le. intros a b N. destruct (Nat.lt_trichotomy (fst (fst a)) (fst (fst b))) as [L|[L|L]]; [tauto| |left; exact L]. right. split; [auto|].
  destruct (Nat.lt_trichotomy (snd (fst a)) (snd (fst b))) as [M|[M|M]]; [tauto| |left; exact M]. right. split; [auto|]. destruct (Qlt_le_dec (snd b) (snd a)) as [X|X]; [lra|tauto].
Qed.
Lemma insert_perm : forall p l, Permutation (insert p l) (p :: l).
Proof. induction l as [|a l IH]; cbn [insert]; [reflexivity|]. destruct (key_leb _ _); [reflexivity|]. rewrite IH. apply perm_swap. Qed.
Lemma isort_perm : forall l, Permutation (fold_right insert [] l) l.
Proof. induction l as [|a l IH]; cbn [fold_right]; [reflexivity|]. rewrite insert_perm, IH. reflexivity. Qed.
Lemma isort_sorted : forall l, Sorted.StronglySorted (fun x y => key_le (fst x) (fst y)) (fold_right insert [] l).
Proof.
  induction l as [|p l IH]; cbn [fold_right]; [constructor|]. induction IH as [|a r SR IHR FA]; cbn [insert]; [repeat constructor|].
  destruct (key_leb (fst p) (fst a)) eqn:E.
  - apply key_leb_iff in E. constructor; [constructor; assumption|]. constructor; [exact E|]. rewrite Forall_forall in *. intros x X. eapply key_le_trans; [exact E|apply FA; exact X].
  - constructor; [exact IHR|]. rewrite Forall_forall in *. intros x X. apply (Permutation_in _ (insert_perm p r)) in X. destruct X as [<-|X]; [|apply FA; exact X].
    apply key_le_total. intros Y. apply key_leb_iff in Y. congruence.
Qed.
Lemma sorted_nth : forall (l : list (nat * nat * Q * nat)), Sorted.StronglySorted (fun x y => key_le (fst x) (fst y)) l -> forall k m x y, k < m -> nth_error l k = Some x -> nth_error l m = Some y -> key_le (fst x) (fst y).
Proof.
  intros l H. induction H as [|a r SR IH FA]; intros k m x y KM X Y; [destruct k; discriminate|]. destruct m as [|m]; [lia|]. cbn in Y. destruct k as [|k].
  - injection X as <-. rewrite Forall_forall in FA. apply FA. eapply nth_error_In; eauto.
  - cbn in X. apply (IH k m); [lia|assumption|assumption].
Qed.
Lemma sort_rows_sorts : sorts sort_rows.
Proof.
  intros keys. unfold sort_rows. set (l := combine keys (seq 0 (length keys))).
  assert (SL : forall (a : list (nat * nat * Q)) d, map snd (combine a (seq d (length a))) = seq d (length a)) by (induction a as [|x a IH]; intros d; cbn; [reflexivity|]; f_equal; apply IH).
  assert (KL : forall (a : list (nat * nat * Q)) d x i, In (x, i) (combine a (seq d (length a))) -> nth_error a (i - d) = Some x /\ d <= i).
  { induction a as [|y a IH]; intros d x i I; cbn in I; [destruct I|]. destruct I as [I|I]; [injection I as <- <-; rewrite Nat.sub_diag; split; [reflexivity|lia]|].
    apply IH in I. destruct I as [I1 I2]. split; [|lia]. replace (i - d) with (S (i - S d)) by lia. exact I1. }
  split.
  - rewrite (Permutation_map snd (isort_perm l)). unfold l. rewrite SL. reflexivity.
  - intros k m i j a b KM K M A B. rewrite nth_error_map in K, M. destruct (nth_error (fold_right insert [] l) k) as [x|] eqn:X; [|discriminate]. destruct (nth_error (fold_right insert [] l) m) as [y|] eqn:Y; [|discriminate].
    injection K as <-. injection M as <-. pose proof (sorted_nth _ (isort_sorted l) k m x y KM X Y) as R.
    assert (IN : forall k x, nth_error (fold_right insert [] l) k = Some x -> nth_error keys (snd x) = Some (fst x)).
    { intros k0 [x0 i0] X0. apply nth_error_In in X0. apply (Permutation_in _ (isort_perm l)) in X0. apply KL in X0. rewrite Nat.sub_0_r in X0. apply X0. }
    rewrite (IN _ _ X) in A. rewrite (IN _ _ Y) in B. injection A as <-. injection B as <-. exact R.
Qed.

(** Three dates; the second field is a position, two observations overlap when
    they are at the same position or at the next one.  The observation at 50 is
    alone; those at 1 and 2 of the first date join at the second one. *)
Definition case_files : list (list obs) := [[(10, [1]); (10, [50]); (10, [2])]; [(11, [2]); (11, [9])]; [(12, [9]); (12, [2])]]%Z.
Definition case_overlap (a b : obs) : Q := match snd a, snd b with [x], [y] => if (Z.abs (x - y) =? 0)%Z then 1%Q else if (Z.abs (x - y) =? 1)%Z then (1 # 2)%Q else 0%Q | _, _ => 0%Q end.
Definition case_links (i j : nat) : list nat * list nat :=
  match i, j with 0, 1 => ([0; 2], [0; 0]) | 1, 2 => ([0; 1], [1; 0]) | 0, 2 => ([], []) | _, _ => ([], []) end.
Lemma case_overlap_pos : forall a b, (0 <= case_overlap a b)%Q.
Proof. intros a b. unfold case_overlap. destruct (snd a) as [|x [|? ?]]; try lra. destruct (snd b) as [|y [|? ?]]; try lra. destruct (_ =? 0)%Z; [lra|]. destruct (_ =? 1)%Z; lra. Qed.
Example C144_case : sorts sort_rows /\ comparisons_ok 1 case_links case_files /\ in_time_order case_files /\ two_dates case_files /\ (forall a b, (0 <= case_overlap a b)%Q) /\ rounding (fun x => x) /\
  networks sort_rows case_links (fun _ _ => true) case_overlap (fun x => x) 1 1 case_files = Some [{| track := 0; segment := 0; time := 10; nxt := -1; prv := -1; rest := [50%Z] |};
    {| track := 2; segment := 1; time := 10; nxt := 3; prv := -1; rest := [1%Z] |};
    {| track := 2; segment := 2; time := 10; nxt := 3; prv := -1; rest := [2%Z] |};
    {| track := 2; segment := 2; time := 11; nxt := 4; prv := 2; rest := [2%Z] |};
    {| track := 2; segment := 2; time := 12; nxt := -1; prv := 3; rest := [2%Z] |};
    {| track := 3; segment := 1; time := 11; nxt := 6; prv := -1; rest := [9%Z] |};
    {| track := 3; segment := 1; time := 12; nxt := -1; prv := 5; rest := [9%Z] |}].
Proof.
  split; [apply sort_rows_sorts|]. split; [|split; [|split; [|split; [apply case_overlap_pos|split; [|vm_compute; reflexivity]]]]].
  - intros i j fi fj L1 L2 A B. assert (j = S i) by lia. subst j.
    destruct i as [|[|[|i]]]; cbn in A, B; try discriminate.
    + injection A as <-. injection B as <-. cbn. repeat split; intros k K; repeat destruct K as [<-|K]; try lia; destruct K.
    + injection A as <-. injection B as <-. cbn. repeat split; intros k K; repeat destruct K as [<-|K]; try lia; destruct K.
  - intros a b oa ob L A B. assert (BL : b < 7) by (change 7 with (length (concat case_files)); apply nth_error_Some; congruence).
    do 7 (destruct b as [|b]; [do 7 (destruct a as [|a]; [cbn in A, B; injection A as <-; injection B as <-; cbn; lia|]); lia|]). lia.
  - exists (10, [1])%Z, (11, [2])%Z. cbn. intuition discriminate.
  - repeat split; intros; try assumption; lra.
Qed.
