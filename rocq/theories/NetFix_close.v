(** Close events which do not meet each other are all corrected. *)
From Coq Require Import List Arith ZArith QArith Bool Lia Permutation.
From Verif Require Import Base Qaux Sort Generic_model Corr_model Corr_proofs Obs_model Obs_spec TrackObs_more Net_model Net_spec Net_sort Net_links
  NetSeg_model NetSeg_proofs NetEvt_model NetEvt_spec NetEvt_more NetEvt_sel NetFix_model NetFix_spec NetFix_proofs.
Import ListNotations.
Local Close Scope Q_scope.
Local Open Scope nat_scope.

Lemma same_sym : forall rows i j, same_segment rows i j -> same_segment rows j i.
Proof. intros rows i j (a & b & A & B & T & U). exists b, a. auto. Qed.
Lemma same_trans : forall rows i j k, same_segment rows i j -> same_segment rows j k -> same_segment rows i k.
Proof. intros rows i j k (a & b & A & B & T & U) (c & d & C & D & V & W). rewrite B in C. apply Some_inj in C. subst c. exists a, d. split; [auto|]. split; [auto|]. split; congruence. Qed.
Lemma same_refl : forall rows i r, nth_error rows i = Some r -> same_segment rows i i.
Proof. intros rows i r H. exists r, r. auto. Qed.

Section Closed.
Context (rows : list nrow) (seg : list nat) (sl : list (nat * nat * nat)) (dmax : Z).
Hypothesis SS : segment_sorted rows.
Hypothesis LK : links_ok rows.
Hypothesis LEN : length seg = length rows.
Hypothesis SAME : forall i j s, nth_error seg i = Some s -> (nth_error seg j = Some s <-> same_segment rows i j).
Hypothesis SL : slices_of seg sl.
Hypothesis INNET : inside_networks rows.
Context (es : list (nat * entry)).
Hypothesis GE : forall s, (exists k, nth_error seg k = Some s) -> exists e, get_entry es s = Some e /\ orig rows seg sl es s e.
Hypothesis H1 : forall e n k r, close_event rows dmax e n -> same_segment rows n k -> last_row rows k -> nth_error rows k = Some r -> nxt r = (-1)%Z.
Hypothesis H2 : forall e n e' r' n', close_event rows dmax e n -> nth_error rows e' = Some r' -> last_row rows e' -> nxt r' = Z.of_nat n' ->
  same_segment rows n n' -> n <= n' -> e' = e.

Definition taken (done : list nat) (i e : nat) : Prop :=
  exists n s, close_event rows dmax e n /\ same_segment rows n i /\ n <= i /\ nth_error seg e = Some s /\ In s done.
Definition desc (done : list nat) (st : fixing) : Prop :=
  inv rows seg es done st /\
  (forall i r s, nth_error rows i = Some r -> nth_error seg i = Some s ->
     (exists e re se, taken done i e /\ nth_error rows e = Some re /\ nth_error seg e = Some se /\ nth_error (lab st) i = Some se /\ nth_error (col st) i = Some (segment re)) \/
     ((forall e, ~ taken done i e) /\ nth_error (lab st) i = Some s /\ nth_error (col st) i = Some (segment r))) /\
  (forall i r, nth_error rows i = Some r ->
     (exists e s, close_event rows dmax e i /\ nth_error seg e = Some s /\ In s done /\ nth_error (pre st) i = Some (Z.of_nat e)) \/
     ((forall e s, close_event rows dmax e i -> nth_error seg e = Some s -> ~ In s done) /\ nth_error (pre st) i = Some (prv r))) /\
  (forall t, (exists k, nth_error seg k = Some t) -> (forall e n, close_event rows dmax e n -> nth_error seg e <> Some t) -> get_entry (ent st) t = get_entry es t).

Lemma desc_start : desc [] (Fixing seg (map segment rows) (map prv rows) es).
Proof.
  split; [apply inv_start with sl; auto|]. cbn [lab col pre ent]. split; [|split; [|auto]].
  - intros i r s R S'. right. split; [intros e (n & t & _ & _ & _ & _ & X); contradiction|]. rewrite nth_error_map, R. auto.
  - intros i r R. right. split; [auto|]. rewrite nth_error_map, R. auto.
Qed.

Lemma close_last : forall e n, close_event rows dmax e n -> exists re, nth_error rows e = Some re /\ last_row rows e /\ nxt re = Z.of_nat n.
Proof. intros e n (re & rn & f & rf & p & rp & A & B & C & _). eauto. Qed.
Lemma close_fun : forall e n n', close_event rows dmax e n -> close_event rows dmax e n' -> n = n'.
Proof.
  intros e n n' A B. apply close_last in A as (x & X & _ & Y). apply close_last in B as (x' & X' & _ & Y'). rewrite X in X'. apply Some_inj in X'. subst. lia.
Qed.
(** A segment which merges is not one which was split and joined. *)
Lemma not_taken : forall done i e' e re n, taken done i e' -> same_segment rows i e -> nth_error rows e = Some re -> last_row rows e -> nxt re = Z.of_nat n -> False.
Proof.
  intros done i e' e re n (n' & s & C & S1 & _) S2 R L N. assert (X : nxt re = (-1)%Z). { apply (H1 e' n' e re C); auto. eapply same_trans; eauto. } lia.
Qed.

Lemma desc_step : forall done st s, desc done st -> (exists k, nth_error seg k = Some s) -> ~ In s done ->
  exists st', close_step dmax (map time rows) st s = Some st' /\ desc (s :: done) st'.
Proof.
  intros done st s (IV & D1 & D2 & D3) K ND.
  destruct (step_spec rows seg sl dmax SS LK LEN SAME INNET es GE done st s IV K ND) as (st' & E & IV' & CASE). exists st'. split; [exact E|].
  destruct (GE s K) as (e0 & G0 & O). specialize (CASE e0 G0). pose proof O as (T & AB & BL & W & _ & (re & RE & EN)).
  set (e := e_stop e0 - 1) in *. assert (SE : nth_error seg e = Some s) by (apply W; lia).
  assert (LE : last_row rows e) by (apply (orig_ends rows seg sl LEN SAME es s e0 e O SE); reflexivity).
  assert (EE : forall e' n, close_event rows dmax e' n -> nth_error seg e' = Some s -> e' = e).
  { intros e' n C Q. apply close_last in C as (x & X & L & _). apply (orig_ends rows seg sl LEN SAME es s e0 e' O Q). exact L. }
  (* the row e is in no segment joined *)
  assert (LABE : forall k rk n, nth_error rows k = Some rk -> nth_error seg k = Some s -> nxt re = Z.of_nat n -> nth_error (lab st) k = Some s /\ nth_error (col st) k = Some (segment rk)).
  { intros k rk n RK SK N. destruct (D1 k rk s RK SK) as [(e' & _ & _ & TK & _)|(_ & A & B)]; [exfalso|auto].
    apply (not_taken done k e' e re n TK); auto. apply (SAME k e s SK). auto. }
  assert (LABN : forall n rn sn, nxt re = Z.of_nat n -> nth_error rows n = Some rn -> nth_error seg n = Some sn -> nth_error (lab st) n = Some sn /\ forall e', ~ taken done n e').
  { intros n rn sn N RN SN. assert (NT : forall e', ~ taken done n e').
    { intros e' (n' & s' & C & S1 & LN & SE' & I). assert (X : e = e') by (apply (H2 e' n' e re n C); auto). subst e'. rewrite SE in SE'. apply Some_inj in SE'. subst s'. auto. }
    destruct (D1 n rn sn RN SN) as [(e' & _ & _ & TK & _)|(_ & A & B)]; [exfalso; apply (NT e' TK)|auto]. }
  assert (NOTB : forall n sn, close_event rows dmax e n -> nth_error seg n = Some sn -> forall e' n', close_event rows dmax e' n' -> nth_error seg e' <> Some sn).
  { intros n sn C SN e' n' C' Q. apply close_last in C' as (x & X & L & N). assert (Y : nxt x = (-1)%Z). { apply (H1 e n e' x C); auto. apply (SAME n e' sn SN). auto. } lia. }
  destruct CASE as [[-> NO]|(n & l & e2 & p & l1 & c1 & tn & tp & A1 & A2 & A3 & A4 & A5 & A6 & A7 & A8 & A9 & A10 & B1 & B2 & B3 & B4)].
  - assert (NC : forall e' n, close_event rows dmax e' n -> nth_error seg e' <> Some s).
    { intros e' n C Q. pose proof (EE e' n C Q) as ->. apply NO. destruct C as (re' & rn & f & rf & p & rp & C1 & C2 & C3 & C4 & C5 & C6 & C7 & C8 & C9 & C10 & C11).
      rewrite RE in C1. apply Some_inj in C1. subst re'. destruct (seg_at rows seg LEN n rn C4) as [sn SN].
      assert (C : close_event rows dmax e n) by (exists re, rn, f, rf, p, rp; auto 12).
      destruct (LABN n rn sn C3 C4 SN) as [LN _]. pose proof (NOTB n sn C SN) as NB.
      destruct (GE sn (ex_intro _ n SN)) as (e2 & G2 & O2). pose proof (D3 sn (ex_intro _ n SN) NB) as G2'. rewrite G2 in G2'.
      pose proof O2 as (_ & AB2 & _ & W2 & (rf' & RF' & EP2) & _).
      assert (SF : nth_error seg f = Some sn) by (apply (SAME n f sn SN); auto).
      assert (FE : f = e_start e2) by (apply (orig_ends rows seg sl LEN SAME es sn e2 f O2 SF); auto). rewrite <- FE in RF'. rewrite C7 in RF'. apply Some_inj in RF'. subst rf'.
      assert (SP : nth_error seg p = Some s) by (apply (SAME e p s SE); apply same_sym; auto).
      exists n, sn, e2, p, s, rn, rp. split; [congruence|]. split; [auto|]. split; [auto|]. split; [congruence|].
      split; [apply (LABE e re n); auto|]. split; [apply (LABE p rp n); auto|]. auto. }
    assert (TD : forall i e', taken (s :: done) i e' <-> taken done i e').
    { intros i e'. split; intros (n & t & C & S1 & LN & SE' & I); exists n, t; (split; [auto|]; split; [auto|]; split; [auto|]; split; [auto|]).
      - destruct I as [<-|I]; [exfalso; apply (NC e' n C SE')|auto].
      - right. auto. }
    split; [exact IV'|]. split; [|split; [|exact D3]].
    + intros i r t R Q. destruct (D1 i r t R Q) as [(e' & re' & se & TK & X)|(TK & X)]; [left|right].
      * exists e', re', se. rewrite TD. auto.
      * split; [intros e' H; apply TD in H; apply (TK e' H)|auto].
    + intros i r R. destruct (D2 i r R) as [(e' & t & C & X & I & Y)|(X & Y)]; [left|right].
      * exists e', t. split; [auto|]. split; [auto|]. split; [right; auto|auto].
      * split; [|auto]. intros e' t C Q [<-|I]; [apply (NC e' i C Q)|apply (X e' t C Q I)].
  - assert (N : nxt re = Z.of_nat n) by congruence. destruct (LABE e re n RE SE N) as [X1 X2]. rewrite X1 in A5. rewrite X2 in A6. apply Some_inj in A5, A6. subst l1 c1.
    destruct (seg_at rows seg LEN n tn A8) as [sn SN]. destruct (LABN n tn sn N A8 SN) as [X3 NTn]. rewrite X3 in A2. apply Some_inj in A2. subst l.
    assert (SP : nth_error seg p = Some s).
    { destruct (seg_at rows seg LEN p tp A9) as [sp SP]. destruct (D1 p tp sp A9 SP) as [(e' & re' & se & (n' & s' & _ & _ & _ & Q1 & Q2) & _ & Q3 & Q4 & _)|(_ & Q & _)].
      - rewrite A7 in Q4. apply Some_inj in Q4. subst se. rewrite Q3 in Q1. apply Some_inj in Q1. subst s'. contradiction.
      - rewrite A7 in Q. apply Some_inj in Q. subst sp. auto. }
    pose proof IV as (_ & _ & I3 & _). destruct (I3 sn (ex_intro _ n SN)) as (e2' & e20 & G2 & G20 & EP & _). rewrite A3 in G2. apply Some_inj in G2. subst e2'. clear I3.
    destruct (GE sn (ex_intro _ n SN)) as (e20' & G20' & O2). rewrite G20 in G20'. apply Some_inj in G20'. subst e20'. pose proof O2 as (_ & AB2 & BL2 & W2 & (rf & RF & EP2) & _).
    assert (SF : nth_error seg (e_start e20) = Some sn) by (apply W2; lia).
    assert (C : close_event rows dmax e n).
    { exists re, tn, (e_start e20), rf, p, tp. split; [auto|]. split; [auto|]. split; [auto|]. split; [auto|]. split; [apply (SAME n _ sn SN); auto|].
      split; [apply (orig_ends rows seg sl LEN SAME es sn e20 _ O2 SF); auto|]. split; [auto|]. split; [congruence|]. split; [auto|]. split; [apply (SAME p e s SP); auto|auto]. }
    pose proof (D3 sn (ex_intro _ n SN) (NOTB n sn C SN)) as X. rewrite A3, G20 in X. apply Some_inj in X. subst e20.
    assert (RNG : forall i, (n <= i < e_stop e2) <-> same_segment rows n i /\ n <= i).
    { intros i. rewrite <- (SAME n i sn SN), <- W2. assert (e_start e2 <= n) by (apply W2 in SN; lia). lia. }
    assert (LL : length (lab st) = length rows /\ length (col st) = length rows /\ length (pre st) = length rows) by apply IV. destruct LL as (L1 & L2 & L3).
    assert (TD : forall i e', taken (s :: done) i e' <-> taken done i e' \/ (e' = e /\ n <= i < e_stop e2)).
    { intros i e'. rewrite RNG. split.
      - intros (n' & t & C' & S1 & LN & SE' & [<-|I]); [right|left; exists n', t; auto]. pose proof (EE e' n' C' SE') as ->. rewrite <- (close_fun e n' n C' C). auto.
      - intros [(n' & t & C' & S1 & LN & SE' & I)|[-> [S1 LN]]]; [exists n', t; repeat (split; [assumption|]); right; auto|]. exists n, s. repeat (split; [assumption|]). left. auto. }
    split; [exact IV'|]. split; [|split].
    + intros i r t R Q. rewrite B1, B2, !nth_error_fill, L1, L2.
      destruct ((n <=? i) && (i <? e_stop e2) && (i <? length rows)) eqn:F.
      * apply andb_true_iff in F as [F _]. apply andb_true_iff in F as [F1 F2]. apply Nat.leb_le in F1. apply Nat.ltb_lt in F2. left. exists e, re, s.
        split; [apply TD; right; auto|]. auto.
      * assert (NF : ~ (n <= i < e_stop e2)). { intros [F1 F2]. apply nth_error_Some_lt in R. apply Nat.leb_le in F1. apply Nat.ltb_lt in F2, R. rewrite F1, F2, R in F. discriminate F. }
        destruct (D1 i r t R Q) as [(e' & re' & se & TK & Y)|(TK & Y)]; [left|right].
        -- exists e', re', se. split; [apply TD; left; auto|auto].
        -- split; [|auto]. intros e' Z. apply TD in Z as [Z|[_ Z]]; [apply (TK e' Z)|auto].
    + intros i r R. rewrite B3. destruct (Nat.eq_dec i n) as [->|NE].
      * left. exists e, s. split; [auto|]. split; [auto|]. split; [left; auto|]. apply nth_error_upd_eq. apply nth_error_Some_lt in R. lia.
      * rewrite nth_error_upd_neq by auto. destruct (D2 i r R) as [(e' & t & C' & Y & I & Z)|(Y & Z)]; [left|right].
        -- exists e', t. split; [auto|]. split; [auto|]. split; [right; auto|auto].
        -- split; [|auto]. intros e' t C' Q [<-|I]; [|apply (Y e' t C' Q I)]. pose proof (EE e' i C' Q) as ->. apply NE. apply (close_fun e i n C' C).
    + intros t TK TB. destruct (Nat.eq_dec t s) as [->|NE]; [exfalso; apply (TB e n C SE)|]. rewrite (B4 t NE). apply D3; auto.
Qed.

Lemma desc_steps : forall todo done st, desc done st -> incr todo -> (forall s, In s todo -> exists k, nth_error seg k = Some s) -> (forall s, In s todo -> ~ In s done) ->
  exists st' done', close_steps dmax (map time rows) st todo = Some st' /\ desc done' st' /\ (forall s, In s done \/ In s todo -> In s done').
Proof.
  induction todo as [|s todo IH]; intros done st IV IC KE ND; [exists st, done; split; [reflexivity|]; split; [auto|]; intros s [H|H]; [auto|contradiction]|].
  destruct (desc_step done st s IV (KE s (or_introl eq_refl)) (ND s (or_introl eq_refl))) as (st1 & E & IV1).
  inversion IC as [|? ? HD TL]; subst. destruct (IH (s :: done) st1 IV1 TL) as (st' & done' & E' & IV' & DN).
  - intros t H. apply KE. right. auto.
  - intros t H [X|X]; [subst t; specialize (HD s H); lia|]. apply (ND t (or_intror H) X).
  - exists st', done'. cbn [close_steps]. rewrite E. cbn [bind]. split; [auto|]. split; [auto|]. intros t [H|[H|H]]; apply DN; [left; right; auto|left; left; auto|right; auto].
Qed.
End Closed.
