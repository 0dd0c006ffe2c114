(** Proofs about the correction of close events of a network. *)
From Coq Require Import List Arith ZArith QArith Bool Lia Permutation.
From Verif Require Import Base Qaux Sort Generic_model Corr_model Corr_proofs Obs_model Obs_spec TrackObs_more Net_model Net_spec Net_sort Net_links
  NetSeg_model NetSeg_proofs NetEvt_model NetEvt_spec NetEvt_more NetEvt_sel NetFix_model NetFix_spec.
Import ListNotations.
Local Close Scope Q_scope.
Local Open Scope nat_scope.

Lemma nth_renumber : forall rows c p i, length c = length rows -> length p = length rows ->
  nth_error (renumber rows c p) i = match nth_error rows i, nth_error c i, nth_error p i with
    | Some r, Some s, Some q => Some (Row (track r) s (time r) (nxt r) q (rest r)) | _, _, _ => None end.
Proof.
  intros rows c p i LC LP. unfold renumber. rewrite nth_error_map, !nth_comb.
  destruct (nth_error rows i); [|reflexivity]. destruct (nth_error c i); [|reflexivity]. destruct (nth_error p i); reflexivity.
Qed.
Lemma length_renumber : forall rows c p, length c = length rows -> length p = length rows -> length (renumber rows c p) = length rows.
Proof. intros. unfold renumber. rewrite map_length, !combine_length. lia. Qed.

Lemma get_set : forall es s a b e, get_entry es s = Some e -> exists es', set_entry es s a b = Some es' /\
  get_entry es' s = Some (Entry a b (e_p e) (e_n e)) /\ forall t, t <> s -> get_entry es' t = get_entry es t.
Proof.
  induction es as [|[k x] es IH]; intros s a b e H; [discriminate|]. cbn [get_entry set_entry] in *. destruct (Nat.eqb_spec k s) as [->|N].
  - apply Some_inj in H. subst x. eexists. split; [reflexivity|]. cbn [get_entry]. rewrite Nat.eqb_refl. split; [reflexivity|].
    intros t T. destruct (Nat.eqb_spec s t); [congruence|reflexivity].
  - destruct (IH s a b e H) as (es' & E & G & O). rewrite E. cbn [bind]. eexists. split; [reflexivity|]. cbn [get_entry].
    destruct (Nat.eqb_spec k s); [congruence|]. split; [exact G|]. intros t T. destruct (k =? t); [reflexivity|auto].
Qed.

Section Close.
Context (rows : list nrow) (seg : list nat) (sl : list (nat * nat * nat)) (dmax : Z).
Hypothesis SS : segment_sorted rows.
Hypothesis LK : links_ok rows.
Hypothesis LEN : length seg = length rows.
Hypothesis SAME : forall i j s, nth_error seg i = Some s -> (nth_error seg j = Some s <-> same_segment rows i j).
Hypothesis SL : slices_of seg sl.

Lemma row_at : forall i s, nth_error seg i = Some s -> exists r, nth_error rows i = Some r.
Proof. intros i s H. apply nth_error_lt_Some. apply nth_error_Some_lt in H. lia. Qed.
Lemma seg_at : forall i r, nth_error rows i = Some r -> exists s, nth_error seg i = Some s.
Proof. intros i s H. apply nth_error_lt_Some. apply nth_error_Some_lt in H. lia. Qed.
Lemma same_iff : forall i j s t, nth_error seg i = Some s -> nth_error seg j = Some t -> (s = t <-> same_segment rows i j).
Proof. intros i j s t H K. rewrite <- (SAME i j s H). rewrite K. split; [intros ->; auto|]. intros E. apply Some_inj in E. auto. Qed.

Definition orig (es : list (nat * entry)) (s : nat) (e : entry) : Prop :=
  In (e_start e, e_stop e, s) sl /\ e_start e < e_stop e /\ e_stop e <= length rows /\
  (forall k, e_start e <= k < e_stop e <-> nth_error seg k = Some s) /\
  (exists r, nth_error rows (e_start e) = Some r /\ e_p e = prv r) /\ (exists r, nth_error rows (e_stop e - 1) = Some r /\ e_n e = nxt r).

Lemma entries_list : forall l, incl l sl -> exists es, connexion_entries rows l = Some es /\ map fst es = map snd l /\
  forall s e, get_entry es s = Some e -> orig es s e.
Proof.
  induction l as [|[[a b] s] l IH]; intros I.
  - exists []. split; [reflexivity|]. split; [reflexivity|]. intros s e H. discriminate.
  - assert (T : In (a, b, s) sl) by (apply I; left; auto). destruct (slice_rows rows seg sl LEN SL a b s T) as (AB & BL & SA & SB).
    destruct (IH (fun x H => I x (or_intror H))) as (es & E & M & G). cbn [connexion_entries]. destruct (Nat.eqb_spec a b) as [X|_]; [lia|].
    destruct (row_at a s SA) as [ra RA]. destruct (row_at (b - 1) s SB) as [rb RB]. rewrite RA, RB, E. cbn [bind].
    eexists. split; [reflexivity|]. split; [cbn [map fst snd]; rewrite M; reflexivity|].
    intros t e H. cbn [get_entry] in H. destruct (Nat.eqb_spec s t) as [->|N].
    + apply Some_inj in H. subst e. unfold orig. cbn [e_start e_stop e_p e_n]. destruct SL as (S1 & _). destruct (S1 a b t T) as [_ W].
      split; [auto|]. split; [auto|]. split; [auto|]. split; [auto|]. split; eauto.
    + destruct (G t e H) as (P1 & P). split; auto.
Qed.
Lemma get_in : forall es s, In s (map fst es) -> exists e, get_entry es s = Some e.
Proof.
  induction es as [|[k x] es IH]; intros s H; [contradiction|]. cbn [get_entry]. destruct (Nat.eqb_spec k s); [eauto|].
  destruct H as [H|H]; [simpl in H; congruence|auto].
Qed.
Lemma entries_spec : exists es, connexion_entries rows sl = Some es /\ (forall s, In s (map fst es) <-> exists k, nth_error seg k = Some s) /\
  (forall s, (exists k, nth_error seg k = Some s) -> exists e, get_entry es s = Some e /\ orig es s e).
Proof.
  destruct (entries_list sl (fun x H => H)) as (es & E & M & G). exists es. split; [auto|].
  assert (K : forall s, In s (map fst es) <-> exists k, nth_error seg k = Some s).
  { intros s. rewrite M, in_map_iff. split.
    - intros ([[a b] t] & H & I). simpl in H. subst t. destruct (slice_rows rows seg sl LEN SL a b s I) as (_ & _ & SA & _). eauto.
    - intros (k & H). destruct SL as (_ & S2 & _). destruct (S2 k s H) as (a & b & I). exists (a, b, s). auto. }
  split; [exact K|]. intros s H. apply K in H. destruct (get_in es s H) as (e & He). exists e. split; [auto|]. apply (G s e He).
Qed.

Lemma orig_ends : forall es s e k, orig es s e -> nth_error seg k = Some s -> (last_row rows k <-> k = e_stop e - 1) /\ (first_row rows k <-> k = e_start e).
Proof.
  intros es s e k (T & AB & BL & W & _) H. pose proof (proj2 (W k) H) as R. split; split.
  - intros L. assert (X : same_segment rows k (e_stop e - 1)). { apply (SAME k _ s H). apply W. lia. } specialize (L _ X). lia.
  - intros -> j J. apply (SAME _ j s H) in J. apply W in J. lia.
  - intros L. assert (X : same_segment rows k (e_start e)). { apply (SAME k _ s H). apply W. lia. } specialize (L _ X). lia.
  - intros -> j J. apply (SAME _ j s H) in J. apply W in J. lia.
Qed.

Hypothesis INNET : inside_networks rows.
Context (es : list (nat * entry)).
Hypothesis GE : forall s, (exists k, nth_error seg k = Some s) -> exists e, get_entry es s = Some e /\ orig es s e.

Definition in_net (i : nat) (s : nat) : Prop := exists k rk ri, nth_error seg k = Some s /\ nth_error rows k = Some rk /\ nth_error rows i = Some ri /\ track ri = track rk.
Definition inv (done : list nat) (st : fixing) : Prop :=
  (length (lab st) = length rows /\ length (col st) = length rows /\ length (pre st) = length rows) /\
  (forall i l, nth_error (lab st) i = Some l -> in_net i l /\ exists k rk, nth_error seg k = Some l /\ nth_error rows k = Some rk /\ nth_error (col st) i = Some (segment rk)) /\
  (forall s, (exists k, nth_error seg k = Some s) -> exists e e0, get_entry (ent st) s = Some e /\ get_entry es s = Some e0 /\ e_p e = e_p e0 /\ e_n e = e_n e0 /\
     0 < e_stop e <= length rows /\ in_net (e_stop e - 1) s /\ (~ In s done -> e = e0)) /\
  (forall i l, nth_error (lab st) i = Some l -> nth_error seg i = Some l \/ In l done) /\
  (forall i z, nth_error (pre st) i = Some z -> (exists r, nth_error rows i = Some r /\ z = prv r) \/ (exists e re, z = Z.of_nat e /\ nth_error rows e = Some re /\ last_row rows e /\ nxt re = Z.of_nat i)).

Lemma inv_start : inv [] (Fixing seg (map segment rows) (map prv rows) es).
Proof.
  unfold inv. cbn [lab col pre ent]. split; [rewrite !map_length; auto|]. split; [|split; [|split]].
  - intros i l H. destruct (row_at i l H) as [r R]. split.
    + exists i, r, r. auto.
    + exists i, r. split; [auto|]. split; [auto|]. rewrite nth_error_map, R. reflexivity.
  - intros s H. destruct (GE s H) as (e & E & O). exists e, e. pose proof O as (T & AB & BL & W & _). split; [auto|]. split; [auto|]. split; [auto|]. split; [auto|]. split; [lia|]. split; [|auto].
    assert (X : nth_error seg (e_stop e - 1) = Some s) by (apply W; lia). destruct (row_at _ _ X) as [r R]. exists (e_stop e - 1), r, r. auto.
  - auto.
  - intros i z H. rewrite nth_error_map in H. destruct (nth_error rows i) as [r|]; [|discriminate]. apply Some_inj in H. left. eauto.
Qed.

Lemma pyget_lt : forall {A} (l : list A) z, (0 <= z < Z.of_nat (length l))%Z -> pyget l z = nth_error l (Z.to_nat z).
Proof. intros A l z H. replace z with (Z.of_nat (Z.to_nat z)) at 1 by lia. rewrite pyget_of_nat. auto. Qed.

Lemma same_net : forall i s t ri rt k, in_net i s -> nth_error rows i = Some ri -> nth_error seg k = Some s -> nth_error rows k = Some rt -> track ri = t -> track rt = t.
Proof.
  intros i s t ri rt k (k' & rk & ri' & A & B & C & D) H K R T. rewrite H in C. apply Some_inj in C. subst ri'.
  assert (X : same_segment rows k k') by (apply (SAME k k' s K); auto). destruct X as (x & y & X1 & X2 & X3 & _).
  rewrite R in X1. rewrite B in X2. apply Some_inj in X1, X2. subst. lia.
Qed.

(** One step: what it reads and what it changes. *)
Lemma step_spec : forall done st s, inv done st -> (exists k, nth_error seg k = Some s) -> ~ In s done ->
  exists st', close_step dmax (map time rows) st s = Some st' /\ inv (s :: done) st' /\
  forall e0, get_entry es s = Some e0 ->
    (st' = st /\ ~ (exists n l e2 p l1 tn tp, e_n e0 = Z.of_nat n /\ nth_error (lab st) n = Some l /\ get_entry (ent st) l = Some e2 /\ e_p e2 = Z.of_nat p /\
         nth_error (lab st) (e_stop e0 - 1) = Some l1 /\ nth_error (lab st) p = Some l1 /\ nth_error rows n = Some tn /\ nth_error rows p = Some tp /\ (time tn - time tp < dmax)%Z)) \/
    (exists n l e2 p l1 c1 tn tp, e_n e0 = Z.of_nat n /\ nth_error (lab st) n = Some l /\ get_entry (ent st) l = Some e2 /\ e_p e2 = Z.of_nat p /\
         nth_error (lab st) (e_stop e0 - 1) = Some l1 /\ nth_error (col st) (e_stop e0 - 1) = Some c1 /\ nth_error (lab st) p = Some l1 /\ nth_error rows n = Some tn /\ nth_error rows p = Some tp /\ (time tn - time tp < dmax)%Z /\
         lab st' = fill (lab st) n (e_stop e2) l1 /\ col st' = fill (col st) n (e_stop e2) c1 /\ pre st' = upd (pre st) n (Z.of_nat (e_stop e0 - 1)) /\
         forall t, t <> l1 -> get_entry (ent st') t = get_entry (ent st) t).
Proof.
  intros done st s IV K ND. pose proof IV as ((L1 & L2 & L3) & I2 & I3 & I4 & I5).
  assert (WEAK : inv (s :: done) st).
  { split; [auto|]. split; [auto|]. split; [|split; [|auto]].
    - intros t T. destruct (I3 t T) as (e & e0 & A & B & C & D & E & F & G). exists e, e0. split; [auto|]. split; [auto|]. split; [auto|]. split; [auto|]. split; [auto|]. split; [auto|]. intros N. apply G. intros X. apply N. right. auto.
    - intros i l H. destruct (I4 i l H); [auto|right; right; auto]. }
  destruct (I3 s K) as (e & e0 & G1 & G0 & EP & EN & ST & NE & OR). specialize (OR ND). subst e. clear EP EN.
  destruct (GE s K) as (e0' & G0' & O). rewrite G0 in G0'. apply Some_inj in G0'. subst e0'.
  pose proof O as (T & AB & BL & W & (rp & RP & EP) & (rn & RN & EN)).
  unfold close_step. rewrite G1. cbn [bind].
  destruct (nth_error_lt_Some (lab st) (e_stop e0 - 1)) as [l1 HL1]; [lia|]. destruct (nth_error_lt_Some (col st) (e_stop e0 - 1)) as [c1 HC1]; [lia|].
  rewrite HL1, HC1. cbn [bind]. destruct (Z.eqb_spec (e_n e0) (-1)) as [M|M].
  { exists st. split; [reflexivity|]. split; [exact WEAK|]. intros e0' X. rewrite G0 in X. apply Some_inj in X. subst e0'. left. split; [reflexivity|].
    intros (n & _ & _ & _ & _ & _ & _ & X & _). lia. }
  destruct (LK rn (nth_error_In _ _ RN)) as [LN _]. destruct LN as [LN|LN]; [congruence|]. rewrite <- EN in LN.
  set (n := Z.to_nat (e_n e0)). assert (EN' : e_n e0 = Z.of_nat n) by lia. assert (NB : n < length rows) by lia. clearbody n.
  rewrite EN' in *. rewrite !pyget_of_nat.
  destruct (nth_error_lt_Some (lab st) n) as [l HL]; [lia|]. rewrite HL. cbn [bind].
  destruct (I2 n l HL) as [NETn (kn & rkn & KN & _ & _)].
  destruct (I3 l (ex_intro _ kn KN)) as (e2 & e20 & G2 & G20 & EP2 & EN2 & ST2 & NE2 & OR2). rewrite G2. cbn [bind].
  destruct (Z.eqb_spec (e_p e2) (-1)) as [M2|M2].
  { exists st. split; [reflexivity|]. split; [exact WEAK|]. intros e0' X. rewrite G0 in X. apply Some_inj in X. subst e0'. left. split; [reflexivity|].
    intros (n' & l' & e2' & p & _ & _ & _ & X & Y & Z & V & _). assert (n' = n) by lia. subst n'. rewrite HL in Y. apply Some_inj in Y. subst l'. rewrite G2 in Z. apply Some_inj in Z. subst e2'. lia. }
  destruct (GE l (ex_intro _ kn KN)) as (e20' & G20' & O2). rewrite G20 in G20'. apply Some_inj in G20'. subst e20'.
  pose proof O2 as (_ & AB2 & BL2 & W2 & (rp2 & RP2 & EPP2) & _).
  destruct (LK rp2 (nth_error_In _ _ RP2)) as [_ LP]. destruct LP as [LP|LP]; [lia|]. rewrite <- EPP2, <- EP2 in LP.
  set (p := Z.to_nat (e_p e2)). assert (EP' : e_p e2 = Z.of_nat p) by lia. assert (PB : p < length rows) by lia. clearbody p.
  rewrite EP'. rewrite !pyget_of_nat.
  destruct (nth_error_lt_Some (lab st) p) as [lp HLP]; [lia|]. rewrite HLP. cbn [bind]. rewrite !nth_error_map.
  destruct (nth_error_lt_Some rows n) as [tn TN]; [lia|]. destruct (nth_error_lt_Some rows p) as [tp TP]; [lia|]. rewrite TN, TP. cbn [option_map bind].
  destruct ((lp =? l1) && (time tn - time tp <? dmax)%Z) eqn:C.
  2: { exists st. split; [reflexivity|]. split; [exact WEAK|]. intros e0' X. rewrite G0 in X. apply Some_inj in X. subst e0'. left. split; [reflexivity|].
    intros (n' & l' & e2' & p' & l1' & tn' & tp' & X & Y & Z & V & A1 & A2 & A3 & A4 & A5). assert (n' = n) by lia. subst n'. rewrite HL in Y. apply Some_inj in Y. subst l'. rewrite G2 in Z. apply Some_inj in Z. subst e2'.
    assert (p' = p) by lia. subst p'. rewrite HL1 in A1. apply Some_inj in A1. subst l1'. rewrite HLP in A2. apply Some_inj in A2. subst lp.
    rewrite TN in A3. rewrite TP in A4. apply Some_inj in A3, A4. subst. rewrite Nat.eqb_refl in C. cbn [andb] in C. apply Z.ltb_ge in C. lia. }
  apply andb_true_iff in C as [C1 C2]. apply Nat.eqb_eq in C1. apply Z.ltb_lt in C2. subst lp.
  rewrite (pystore_nat (pre st) (Z.of_nat n) n) by lia. cbn [bind].
  assert (NETe : exists re, nth_error rows (e_stop e0 - 1) = Some re /\ track re = track tn).
  { exists rn. split; [auto|]. apply (INNET (e_stop e0 - 1) rn n tn RN); auto. }
  destruct NETe as (re & RE & TRE).
  destruct (I2 _ l1 HL1) as [NETl1 (k1 & rk1 & K1 & RK1 & CK1)]. rewrite HC1 in CK1. apply Some_inj in CK1.
  destruct (I3 l1 (ex_intro _ k1 K1)) as (e1 & e10 & G3 & G30 & EP3 & EN3 & ST3 & NE3 & OR3).
  destruct (get_set (ent st) l1 n (e_stop e2) e1 G3) as (ent' & SE & GS & GO). rewrite SE. cbn [bind].
  eexists. split; [reflexivity|].
  assert (TRL : track rk1 = track tn). { apply (same_net (e_stop e0 - 1) l1 (track tn) re rk1 k1); auto. }
  assert (TRB : exists rb, nth_error rows (e_stop e2 - 1) = Some rb /\ track rb = track tn).
  { destruct NE2 as (k & rk & rb & A1 & A2 & A3 & A4). exists rb. split; [auto|]. rewrite A4. apply (same_net n l (track tn) tn rk k); auto. }
  destruct TRB as (rb & RB & TRB).
  assert (TR : forall i r, n <= i < e_stop e2 -> nth_error rows i = Some r -> track r = track tn).
  { intros i r I R. assert (A : track tn <= track r). { destruct (Nat.eq_dec n i) as [->|N]; [rewrite TN in R; apply Some_inj in R; subst; lia|]. destruct (SS n i tn r ltac:(lia) TN R) as [Q|[Q _]]; lia. }
    assert (B : track r <= track rb). { destruct (Nat.eq_dec i (e_stop e2 - 1)) as [->|N]; [rewrite RB in R; apply Some_inj in R; subst; lia|]. destruct (SS i (e_stop e2 - 1) r rb ltac:(lia) R RB) as [Q|[Q _]]; lia. }
    lia. }
  assert (LIFE : In l1 (s :: done)).
  { destruct (I4 _ _ HL1) as [Q|Q]; [|right; auto]. assert (X : nth_error seg (e_stop e0 - 1) = Some s) by (apply W; lia). rewrite X in Q. apply Some_inj in Q. left. auto. }
  split; [|intros e0' X; rewrite G0 in X; apply Some_inj in X; subst e0'; right; exists n, l, e2, p, l1, c1, tn, tp; cbn [lab col pre ent]; repeat (split; [assumption || reflexivity|]); exact GO].
  unfold inv. cbn [lab col pre ent]. split; [rewrite !length_fill, length_upd; auto|]. split; [|split; [|split]].
  - intros i l' H. rewrite nth_error_fill in H. rewrite nth_error_fill. rewrite L1 in H. rewrite L2. destruct ((n <=? i) && (i <? e_stop e2) && (i <? length rows)) eqn:Q.
    + apply Some_inj in H. subst l'. apply andb_true_iff in Q as [Q Q3]. apply andb_true_iff in Q as [Q1 Q2]. apply Nat.leb_le in Q1. apply Nat.ltb_lt in Q2, Q3.
      destruct (nth_error_lt_Some rows i Q3) as [r R]. split; [exists k1, rk1, r|exists k1, rk1; rewrite CK1; auto]. split; [auto|]. split; [auto|]. split; [auto|]. rewrite TRL. apply (TR i r); auto.
    + apply I2. auto.
  - intros t H. destruct (Nat.eq_dec t l1) as [->|N].
    + exists (Entry n (e_stop e2) (e_p e1) (e_n e1)), e10. cbn [e_start e_stop e_p e_n]. split; [auto|]. split; [auto|]. split; [auto|]. split; [auto|]. split; [lia|].
      split; [exists k1, rk1, rb; split; [auto|]; split; [auto|]; split; [auto|]; lia|]. intros X. contradiction.
    + rewrite (GO t N). destruct (I3 t H) as (x & x0 & A & B & C & D & E & F & G). exists x, x0. split; [auto|]. split; [auto|]. split; [auto|]. split; [auto|]. split; [auto|]. split; [auto|]. intros X. apply G. intros Y. apply X. right. auto.
  - intros i l' H. rewrite nth_error_fill in H. destruct ((n <=? i) && (i <? e_stop e2) && (i <? length (lab st))).
    + apply Some_inj in H. subst l'. right. exact LIFE.
    + destruct (I4 i l' H); [auto|right; right; auto].
  - intros i z H. destruct (Nat.eq_dec i n) as [->|N].
    + rewrite nth_error_upd_eq in H by lia. apply Some_inj in H. subst z. right. exists (e_stop e0 - 1), rn. split; [auto|]. split; [auto|]. split; [|auto].
      apply (orig_ends es s e0 (e_stop e0 - 1) O); [apply W; lia|auto].
    + rewrite nth_error_upd_neq in H by auto. apply I5. auto.
Qed.

Lemma steps_inv : forall todo done st, inv done st -> incr todo -> (forall s, In s todo -> exists k, nth_error seg k = Some s) -> (forall s, In s todo -> ~ In s done) ->
  exists st' done', close_steps dmax (map time rows) st todo = Some st' /\ inv done' st'.
Proof.
  induction todo as [|s todo IH]; intros done st IV IC KE ND; [exists st, done; split; [reflexivity|auto]|].
  destruct (step_spec done st s IV (KE s (or_introl eq_refl)) (ND s (or_introl eq_refl))) as (st1 & E & IV1 & _).
  inversion IC as [|? ? HD TL]; subst. destruct (IH (s :: done) st1 IV1 TL) as (st' & done' & E' & IV').
  - intros t H. apply KE. right. auto.
  - intros t H [X|X]; [subst t; specialize (HD s H); lia|]. apply (ND t (or_intror H) X).
  - exists st', done'. cbn [close_steps]. rewrite E. cbn [bind]. auto.
Qed.
End Close.
