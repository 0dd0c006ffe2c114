(** Properties C93 and C94: numbers of segments given again by the correction of
    close events and by the swap of tracks. *)
From Coq Require Import List Arith ZArith QArith Bool Lia Permutation.
From Verif Require Import Base Qaux Sort Generic_model Corr_model Corr_proofs Obs_model Obs_spec Obs_props TrackObs_more Net_model Net_spec Net_sort Net_links Net_props
  NetSeg_model NetSeg_proofs NetEvt_model NetEvt_spec NetEvt_more NetEvt_sel NetFix_model NetFix_spec NetFix_proofs NetFix_close NetFix_swap NetFix_swaps NetFix_check.
Import ListNotations.
Local Close Scope Q_scope.
Local Open Scope nat_scope.

(** ** C93: correction of close events *)
Lemma sort_mid : forall rows mid, links_ok rows -> renumbered rows mid ->
  (forall i q, nth_error mid i = Some q -> (exists r, nth_error rows i = Some r /\ prv q = prv r) \/ exists e, e < length rows /\ prv q = Z.of_nat e) ->
  exists ix t out, sort [0; 1; 2] mid = Some (ix, t, out) /\ Permutation ix (seq 0 (length rows)) /\ rows_moved ix mid out /\
    (forall p q a b, p < q -> nth_error out p = Some a -> nth_error out q = Some b -> ordered [0; 1; 2] a b).
Proof.
  intros rows mid LK [LM RN] PV.
  assert (LM' : links_ok mid).
  { intros q Q. apply In_nth_error in Q as [i Q]. rewrite LM. destruct (nth_error_lt_Some rows i) as [r R]; [apply nth_error_Some_lt in Q; lia|].
    destruct (RN i r R) as (q' & Q' & _ & _ & NX & _). rewrite Q in Q'. apply Some_inj in Q'. subst q'. destruct (LK r (nth_error_In _ _ R)) as [L1 L2]. split; [rewrite NX; auto|].
    destruct (PV i q Q) as [(r' & R' & E)|(e & E1 & E2)]; [rewrite R in R'; apply Some_inj in R'; subst r'; rewrite E; auto|]. right. lia. }
  destruct (sort_spec [0; 1; 2] mid LM') as (ix & t & out & E & P & _ & M & O). { intros f [<-|[<-|[<-|[]]]]; lia. }
  exists ix, t, out. rewrite LM in P. auto.
Qed.

Lemma close_setup : forall rows, rows <> [] -> segment_sorted rows -> exists seg sl es, segment_track_array rows = Some seg /\ segment_slices seg = Some sl /\ connexion_entries rows sl = Some es /\
  length seg = length rows /\ (forall i j s, nth_error seg i = Some s -> (nth_error seg j = Some s <-> same_segment rows i j)) /\
  (forall s, In s (map fst es) <-> exists k, nth_error seg k = Some s) /\
  (forall s, (exists k, nth_error seg k = Some s) -> exists e, get_entry es s = Some e /\ orig rows seg sl es s e).
Proof.
  intros rows NE SS. destruct (seg_spec rows NE SS) as (seg & ES & LS & SO & SAME & _).
  destruct (slices_spec seg) as (sl & EL & SL); [destruct seg; [destruct rows; [congruence|discriminate]|discriminate]|auto|].
  destruct (entries_spec rows seg sl LS SL) as (es & EE & K & G). exists seg, sl, es. auto 10.
Qed.

(** The result holds every row with its network, its time, its next row and its other
    fields; its number of segment is one of its network; the link to its previous
    row is unchanged or goes to the end of a segment which merges into the row. *)
Theorem C93_kept : forall dmax rows, rows <> [] -> segment_sorted rows -> links_ok rows -> inside_networks rows ->
  exists mid ix out, correct_close_events dmax rows = Some out /\ renumbered rows mid /\
    (forall i r q, nth_error rows i = Some r -> nth_error mid i = Some q ->
       (exists k s, nth_error rows k = Some s /\ track s = track r /\ segment q = segment s) /\
       (prv q = prv r \/ exists e re, prv q = Z.of_nat e /\ nth_error rows e = Some re /\ last_row rows e /\ nxt re = Z.of_nat i)) /\
    Permutation ix (seq 0 (length rows)) /\ rows_moved ix mid out /\
    (forall p q a b, p < q -> nth_error out p = Some a -> nth_error out q = Some b -> ordered [0; 1; 2] a b).
Proof.
  intros dmax rows NE SS LK IN. destruct (close_setup rows NE SS) as (seg & sl & es & E1 & E2 & E3 & LEN & SAME & K & GE).
  destruct (steps_inv rows seg sl dmax SS LK LEN SAME IN es GE (usort (map fst es)) [] (Fixing seg (map segment rows) (map prv rows) es)) as (st & done & ES & (L1 & L2 & L3) & I2 & _ & _ & I5).
  { apply inv_start with sl; auto. } { apply incr_usort. } { intros s H. apply K. apply In_usort. exact H. } { auto. }
  set (mid := renumber rows (col st) (pre st)).
  assert (MN : forall i r, nth_error rows i = Some r -> exists s q, nth_error (col st) i = Some s /\ nth_error (pre st) i = Some q /\ nth_error mid i = Some (Row (track r) s (time r) (nxt r) q (rest r))).
  { intros i r R. pose proof (nth_error_Some_lt _ _ _ R). destruct (nth_error_lt_Some (col st) i) as [s S']; [lia|]. destruct (nth_error_lt_Some (pre st) i) as [q Q]; [lia|].
    exists s, q. split; [auto|]. split; [auto|]. unfold mid. rewrite nth_renumber by auto. rewrite R, S', Q. reflexivity. }
  assert (RN : renumbered rows mid).
  { split; [apply length_renumber; auto|]. intros i r R. destruct (MN i r R) as (s & q & _ & _ & M). eexists. split; [exact M|]. auto. }
  assert (FACT : forall i r q, nth_error rows i = Some r -> nth_error mid i = Some q ->
       (exists k s, nth_error rows k = Some s /\ track s = track r /\ segment q = segment s) /\
       (prv q = prv r \/ exists e re, prv q = Z.of_nat e /\ nth_error rows e = Some re /\ last_row rows e /\ nxt re = Z.of_nat i)).
  { intros i r q R Q. destruct (MN i r R) as (s & p & CS & PP & M). rewrite Q in M. apply Some_inj in M. subst q. cbn [segment prv]. split.
    - destruct (nth_error_lt_Some (lab st) i) as [l L]; [apply nth_error_Some_lt in R; lia|]. destruct (I2 i l L) as [(k & rk & ri & A & B & C & D) (k' & rk' & A' & B' & C')].
      rewrite CS in C'. apply Some_inj in C'. rewrite R in C. apply Some_inj in C. subst ri. exists k', rk'. split; [auto|]. split; [|auto].
      assert (X : same_segment rows k k') by (apply (SAME k k' l A); auto). destruct X as (x & y & X & Y & Z & _). rewrite B in X. rewrite B' in Y. apply Some_inj in X, Y. subst. congruence.
    - destruct (I5 i p PP) as [(r' & R' & ->)|H]; [rewrite R in R'; apply Some_inj in R'; subst; auto|auto]. }
  destruct (sort_mid rows mid LK RN) as (ix & t & out & ST & P & M & O).
  { intros i q Q. destruct (nth_error_lt_Some rows i) as [r R]; [apply nth_error_Some_lt in Q; destruct RN as [X _]; lia|].
    destruct (FACT i r q R Q) as [_ [H|(e & re & H & RE & _)]]; [left; eauto|right; exists e; split; [eapply nth_error_Some_lt; eauto|auto]]. }
  exists mid, ix, out. split; [|auto]. unfold correct_close_events, close_events. rewrite E1. cbn [bind]. rewrite E2. cbn [bind]. rewrite E3. cbn [bind]. rewrite ES. cbn [bind]. fold mid. rewrite ST. reflexivity.
Qed.
Print Assumptions C93_kept.

(** When the close events do not meet, each is corrected: the rows of the segment
    which was split, from the one the other merges into, take the number of the other,
    and the first of them comes from its end; nothing else changes. *)
Theorem C93_closed : forall dmax rows, rows <> [] -> segment_sorted rows -> links_ok rows -> inside_networks rows -> apart rows dmax ->
  exists mid ix out, correct_close_events dmax rows = Some out /\ renumbered rows mid /\
    (forall i r q, nth_error rows i = Some r -> nth_error mid i = Some q ->
       (forall e n re, close_event rows dmax e n -> same_segment rows n i -> n <= i -> nth_error rows e = Some re -> segment q = segment re) /\
       ((forall e n, close_event rows dmax e n -> same_segment rows n i -> ~ n <= i) -> segment q = segment r) /\
       (forall e, close_event rows dmax e i -> prv q = Z.of_nat e) /\
       ((forall e, ~ close_event rows dmax e i) -> prv q = prv r)) /\
    Permutation ix (seq 0 (length rows)) /\ rows_moved ix mid out /\
    (forall p q a b, p < q -> nth_error out p = Some a -> nth_error out q = Some b -> ordered [0; 1; 2] a b).
Proof.
  intros dmax rows NE SS LK IN [H1 H2]. destruct (close_setup rows NE SS) as (seg & sl & es & E1 & E2 & E3 & LEN & SAME & K & GE).
  destruct (desc_steps rows seg sl dmax SS LK LEN SAME IN es GE H1 H2 (usort (map fst es)) [] (Fixing seg (map segment rows) (map prv rows) es)) as (st & done & ES & (IV & D1 & D2 & _) & DN).
  { apply desc_start with sl; auto. } { apply incr_usort. } { intros s H. apply K. apply In_usort. exact H. } { auto. }
  assert (DALL : forall k s, nth_error seg k = Some s -> In s done). { intros k s H. apply DN. right. apply In_usort. apply K. eauto. }
  pose proof IV as ((L1 & L2 & L3) & _).
  set (mid := renumber rows (col st) (pre st)).
  assert (MN : forall i r, nth_error rows i = Some r -> exists s q, nth_error (col st) i = Some s /\ nth_error (pre st) i = Some q /\ nth_error mid i = Some (Row (track r) s (time r) (nxt r) q (rest r))).
  { intros i r R. pose proof (nth_error_Some_lt _ _ _ R). destruct (nth_error_lt_Some (col st) i) as [s S']; [lia|]. destruct (nth_error_lt_Some (pre st) i) as [q Q]; [lia|].
    exists s, q. split; [auto|]. split; [auto|]. unfold mid. rewrite nth_renumber by auto. rewrite R, S', Q. reflexivity. }
  assert (RN : renumbered rows mid).
  { split; [apply length_renumber; auto|]. intros i r R. destruct (MN i r R) as (s & q & _ & _ & M). eexists. split; [exact M|]. auto. }
  assert (CL : forall e n, close_event rows dmax e n -> exists re s, nth_error rows e = Some re /\ nth_error seg e = Some s /\ In s done /\ last_row rows e /\ nxt re = Z.of_nat n).
  { intros e n C. destruct (close_last rows dmax e n C) as (re & RE & L & N). destruct (seg_at rows seg LEN e re RE) as [s S']. exists re, s. split; [auto|]. split; [auto|]. split; [eapply DALL; eauto|auto]. }
  assert (UNI : forall e n e' n' i, close_event rows dmax e n -> close_event rows dmax e' n' -> same_segment rows n i -> same_segment rows n' i -> n <= n' -> e' = e).
  { intros e n e' n' i C C' S1 S2 LE. destruct (CL e' n' C') as (r' & s' & R' & _ & _ & L' & N'). apply (H2 e n e' r' n'); auto. eapply same_trans; [eauto|apply same_sym; auto]. }
  assert (FACT : forall i r q, nth_error rows i = Some r -> nth_error mid i = Some q ->
       (forall e n re, close_event rows dmax e n -> same_segment rows n i -> n <= i -> nth_error rows e = Some re -> segment q = segment re) /\
       ((forall e n, close_event rows dmax e n -> same_segment rows n i -> ~ n <= i) -> segment q = segment r) /\
       (forall e, close_event rows dmax e i -> prv q = Z.of_nat e) /\
       ((forall e, ~ close_event rows dmax e i) -> prv q = prv r)).
  { intros i r q R Q. destruct (MN i r R) as (s & p & CS & PP & M). rewrite Q in M. apply Some_inj in M. subst q. cbn [segment prv].
    destruct (seg_at rows seg LEN i r R) as [si SI].
    split; [|split; [|split]].
    - intros e n re C S1 LE RE. destruct (CL e n C) as (re' & se & RE' & SE & ID & _). rewrite RE in RE'. apply Some_inj in RE'. subst re'.
      destruct (D1 i r si R SI) as [(e' & re' & se' & (n' & s' & C' & S2 & LE' & _ & _) & RE' & _ & _ & COL)|(NT & _)].
      + assert (e' = e). { destruct (le_ge_dec n n'); [apply (UNI e n e' n' i); auto|symmetry; apply (UNI e' n' e n i); auto]. } subst e'. rewrite RE in RE'. apply Some_inj in RE'. subst re'. congruence.
      + exfalso. apply (NT e). exists n, se. auto.
    - intros NO. destruct (D1 i r si R SI) as [(e' & re' & se' & (n' & s' & C' & S2 & LE' & _ & _) & _)|(_ & _ & COL)]; [exfalso; apply (NO e' n' C' S2 LE')|congruence].
    - intros e C. destruct (D2 i r R) as [(e' & s' & C' & _ & _ & PE)|(NT & _)].
      + assert (e' = e) by (apply (UNI e i e' i i); auto; eapply same_refl; eauto). subst. congruence.
      + exfalso. destruct (CL e i C) as (re' & se & _ & SE & ID & _). apply (NT e se C SE ID).
    - intros NO. destruct (D2 i r R) as [(e' & s' & C' & _)|(_ & PE)]; [exfalso; apply (NO e' C')|congruence]. }
  destruct (sort_mid rows mid LK RN) as (ix & t & out & ST & P & M & O).
  { intros i q Q. destruct (nth_error_lt_Some rows i) as [r R]; [apply nth_error_Some_lt in Q; destruct RN as [X _]; lia|]. destruct (MN i r R) as (s & p & CS & PP & M). rewrite Q in M. apply Some_inj in M. subst q. cbn [prv].
    pose proof IV as (_ & _ & _ & _ & I5). destruct (I5 i p PP) as [(r' & R' & ->)|(e & re & -> & RE & _)]; [left; eauto|right; exists e; split; [eapply nth_error_Some_lt; eauto|auto]]. }
  exists mid, ix, out. split; [|auto]. unfold correct_close_events, close_events. rewrite E1. cbn [bind]. rewrite E2. cbn [bind]. rewrite E3. cbn [bind]. rewrite ES. cbn [bind]. fold mid. rewrite ST. reflexivity.
Qed.
Print Assumptions C93_closed.

(** Without a close event the network is sorted and nothing else. *)
Theorem C93_none : forall dmax rows, rows <> [] -> segment_sorted rows -> links_ok rows -> inside_networks rows -> (forall e n, ~ close_event rows dmax e n) ->
  exists ix t out, sort [0; 1; 2] rows = Some (ix, t, out) /\ correct_close_events dmax rows = Some out.
Proof.
  intros dmax rows NE SS LK IN NO. destruct (close_setup rows NE SS) as (seg & sl & es & E1 & E2 & E3 & LEN & SAME & K & GE).
  assert (ST : forall todo done st, inv rows seg es done st -> st = Fixing seg (map segment rows) (map prv rows) es -> incr todo ->
    (forall s, In s todo -> exists k, nth_error seg k = Some s) -> (forall s, In s todo -> ~ In s done) -> close_steps dmax (map time rows) st todo = Some st).
  { induction todo as [|s todo IH]; intros done st IV EQ IC KE ND; [reflexivity|].
    destruct (step_spec rows seg sl dmax SS LK LEN SAME IN es GE done st s IV (KE s (or_introl eq_refl)) (ND s (or_introl eq_refl))) as (st' & E & IV' & CASE). cbn [close_steps]. rewrite E. cbn [bind].
    destruct (GE s (KE s (or_introl eq_refl))) as (e0 & G0 & O). pose proof O as (_ & AB & _ & W & _ & (re & RE & EN)).
    destruct (CASE e0 G0) as [[-> _]|(n & l & e2 & p & l1 & c1 & tn & tp & A1 & A2 & A3 & A4 & A5 & _ & A7 & A8 & A9 & A10 & _)].
    - inversion IC as [|? ? HD TL]; subst. apply (IH (s :: done)); auto.
      + intros t H. apply KE. right. auto.
      + intros t H [X|X]; [subst t; specialize (HD s H); lia|]. apply (ND t (or_intror H) X).
    - exfalso. subst st. cbn [lab col pre ent] in *. destruct (GE l (ex_intro _ n A2)) as (e2' & G2 & O2). rewrite A3 in G2. apply Some_inj in G2. subst e2'.
      pose proof O2 as (_ & AB2 & _ & W2 & (rf & RF & EP2) & _). assert (SF : nth_error seg (e_start e2) = Some l) by (apply W2; lia).
      assert (SE : nth_error seg (e_stop e0 - 1) = Some s) by (apply W; lia). rewrite SE in A5. apply Some_inj in A5. subst l1.
      apply (NO (e_stop e0 - 1) n). exists re, tn, (e_start e2), rf, p, tp. split; [auto|]. split; [apply (orig_ends rows seg sl LEN SAME es s e0 _ O SE); auto|]. split; [congruence|]. split; [auto|].
      split; [apply (SAME n _ l A2); auto|]. split; [apply (orig_ends rows seg sl LEN SAME es l e2 _ O2 SF); auto|]. split; [auto|]. split; [congruence|]. split; [auto|]. split; [apply (SAME p _ s A7); auto|auto]. }
  specialize (ST (usort (map fst es)) [] (Fixing seg (map segment rows) (map prv rows) es) (inv_start rows seg sl LEN es GE) eq_refl (incr_usort _)).
  specialize (ST (fun s H => proj1 (K s) (proj1 (In_usort _ _) H)) (fun s _ X => X)).
  destruct (sort_spec [0; 1; 2] rows LK) as (ix & t & out & E & _). { intros f [<-|[<-|[<-|[]]]]; lia. }
  exists ix, t, out. split; [auto|]. unfold correct_close_events, close_events. rewrite E1. cbn [bind]. rewrite E2. cbn [bind]. rewrite E3. cbn [bind]. rewrite ST. cbn [bind col pre].
  replace (renumber rows (map segment rows) (map prv rows)) with rows; [rewrite E; reflexivity|].
  apply nth_error_ext. intros i. rewrite nth_renumber by (rewrite map_length; auto). rewrite !nth_error_map. destruct (nth_error rows i) as [[tr sg tm nx pr rs]|]; reflexivity.
Qed.
Print Assumptions C93_none.

Lemma moved_times : forall n ix mid out, Permutation ix (seq 0 n) -> rows_moved ix mid out -> one_by_time mid -> one_by_time out.
Proof.
  intros n ix mid out P [LO MV] ONE i j a b IJ (a' & b' & A' & B' & T & G) A B. rewrite A in A'. rewrite B in B'. apply Some_inj in A', B'. subst a' b'.
  destruct (nth_error_lt_Some ix i) as [x X]; [apply nth_error_Some_lt in A; lia|]. destruct (nth_error_lt_Some ix j) as [y Y]; [apply nth_error_Some_lt in B; lia|].
  destruct (MV i x X) as (r & r' & R & R' & (S1 & S2 & S3 & _) & _). destruct (MV j y Y) as (q & q' & Q & Q' & (V1 & V2 & V3 & _) & _).
  rewrite A in R'. rewrite B in Q'. apply Some_inj in R', Q'. subst r' q'. rewrite <- S3, <- V3. apply (ONE x y r q); auto.
  - intros ->. assert (ND : NoDup ix) by (apply (Permutation_NoDup (Permutation_sym P)), seq_NoDup). apply IJ. eapply NoDup_nth_error; eauto; [apply nth_error_Some_lt in X; auto|congruence].
  - exists r, q. split; [auto|]. split; [auto|]. split; congruence.
Qed.

(** A segment still has one row at most for each time. *)
Theorem C93_times : forall dmax rows, rows <> [] -> segment_sorted rows -> links_ok rows -> inside_networks rows -> apart rows dmax -> times_merge rows ->
  exists out, correct_close_events dmax rows = Some out /\ one_by_time out.
Proof.
  intros dmax rows NE SS LK IN AP [TI TMG]. destruct (C93_closed dmax rows NE SS LK IN AP) as (mid & ix & out & E & RN & FACT & P & M & _). exists out. split; [auto|].
  apply (moved_times (length rows) ix mid); auto. destruct RN as [LM RN]. destruct AP as [H1 H2].
  (* a row keeps its number, or is after the end of the segment it joins *)
  assert (CASE : forall i r q, nth_error rows i = Some r -> nth_error mid i = Some q ->
     segment q = segment r /\ (forall e n, close_event rows dmax e n -> same_segment rows n i -> ~ n <= i) \/
     exists e n re, close_event rows dmax e n /\ same_segment rows n i /\ n <= i /\ nth_error rows e = Some re /\ segment q = segment re /\ track re = track r /\ (time re < time r)%Z).
  { intros i r q R Q. destruct (FACT i r q R Q) as (F1 & F2 & _).
    assert (DEC : (exists e n, close_event rows dmax e n /\ same_segment rows n i /\ n <= i) \/ (forall e n, close_event rows dmax e n -> same_segment rows n i -> ~ n <= i)).
    { destruct (some rows (fun e re => some rows (fun n rn => close_b rows dmax e re n rn && same_b rn r && (n <=? i)))) eqn:D.
      - left. apply some_iff in D as (e & re & RE & D). apply some_iff in D as (n & rn & RN' & D). rewrite !andb_true_iff in D. destruct D as [[D1 D2] D3]. exists e, n.
        split; [apply (close_b_iff rows dmax e re n rn); auto|]. split; [apply (same_b_iff rows n i rn r); auto|]. apply Nat.leb_le; auto.
      - right. intros e n C S1 LE. apply not_true_iff_false in D. apply D. pose proof C as (re & rn & _ & _ & _ & _ & RE & _ & _ & RN' & _).
        apply some_iff. exists e, re. split; [auto|]. apply some_iff. exists n, rn. split; [auto|]. rewrite !andb_true_iff.
        split; [split; [apply (close_b_iff rows dmax e re n rn); auto|apply (same_b_iff rows n i rn r); auto]|apply Nat.leb_le; auto]. }
    destruct DEC as [(e & n & C & S1 & LE)|NO]; [right|left; auto]. pose proof C as (re & rn & _ & _ & _ & _ & RE & L & N & RN' & _). exists e, n, re.
    split; [auto|]. split; [auto|]. split; [auto|]. split; [auto|]. split; [eapply F1; eauto|]. pose proof S1 as (x & y & X & Y & T & _). rewrite RN' in X. rewrite R in Y. apply Some_inj in X, Y. subst x y.
    split; [rewrite <- T; apply (IN e re n rn); auto|]. pose proof (TMG e n re rn RE RN' L N). destruct (Nat.eq_dec n i) as [->|NN]; [rewrite RN' in R; apply Some_inj in R; subst; auto|].
    pose proof (TI n i rn r ltac:(lia) S1 RN' R). lia. }
  intros i j a b IJ (a' & b' & A' & B' & T & G) A B. rewrite A in A'. rewrite B in B'. apply Some_inj in A', B'. subst a' b'.
  destruct (nth_error_lt_Some rows i) as [r R]; [apply nth_error_Some_lt in A; lia|]. destruct (nth_error_lt_Some rows j) as [s S']; [apply nth_error_Some_lt in B; lia|].
  destruct (RN i r R) as (x & X & TX & MX & _). destruct (RN j s S') as (y & Y & TY & MY & _). rewrite A in X. rewrite B in Y. apply Some_inj in X, Y. subst x y. rewrite MX, MY.
  assert (IN1 : forall i j r s, i <> j -> nth_error rows i = Some r -> nth_error rows j = Some s -> same_segment rows i j -> time r <> time s).
  { intros u v p q UV PU QV SUV. destruct (lt_eq_lt_dec u v) as [[Z|Z]|Z]; [|contradiction|].
    - pose proof (TI u v p q Z SUV PU QV). lia.
    - pose proof (TI v u q p Z (same_sym _ _ _ SUV) QV PU). lia. }
  assert (ENDS : forall e re k q, nth_error rows e = Some re -> last_row rows e -> nth_error rows k = Some q -> same_segment rows e k -> (time q <= time re)%Z).
  { intros e re k q RE L Q SK. specialize (L k SK). destruct (Nat.eq_dec k e) as [->|NN]; [rewrite RE in Q; apply Some_inj in Q; subst; lia|].
    pose proof (TI k e q re ltac:(lia) (same_sym _ _ _ SK) Q RE). lia. }
  destruct (CASE i r a R A) as [[I1 I2]|(e & n & re & C & S1 & LE & RE & GE & TE & LT)]; destruct (CASE j s b S' B) as [[J1 J2]|(e' & n' & re' & C' & S1' & LE' & RE' & GE' & TE' & LT')].
  - apply (IN1 i j); auto. exists r, s. split; [auto|]. split; [auto|]. split; congruence.
  - pose proof C' as (x & _ & _ & _ & _ & _ & X & L & _). assert (X' : (time r <= time re')%Z). { apply (ENDS e' re' i r); auto. exists re', r. split; [auto|]. split; [auto|]. split; congruence. } lia.
  - pose proof C as (x & _ & _ & _ & _ & _ & X & L & _). assert (X' : (time s <= time re)%Z). { apply (ENDS e re j s); auto. exists re, s. split; [auto|]. split; [auto|]. split; congruence. } lia.
  - assert (EE : e = e'). { pose proof C as (x & _ & _ & _ & _ & _ & X & L & _). pose proof C' as (x' & _ & _ & _ & _ & _ & X' & L' & _).
      assert (SM : same_segment rows e e') by (exists re, re'; split; [auto|]; split; [auto|]; split; congruence). pose proof (L e' SM). pose proof (L' e (same_sym _ _ _ SM)). lia. }
    subst e'. assert (NN : n' = n).
    { destruct (close_last rows dmax e n C) as (x & X & _ & N). destruct (close_last rows dmax e n' C') as (x' & X' & _ & N'). rewrite X in X'. apply Some_inj in X'. subst x'. lia. }
    subst n'. apply (IN1 i j); auto. eapply same_trans; [apply same_sym; eauto|auto].
Qed.
Print Assumptions C93_times.

(** Segment 2 splits from segment 1 after row 0 and segment 1 merges into it at row 7:
    the end of segment 2 goes to segment 1.  Segment 4 splits from segment 3 thirty days before
    segment 3 merges into it: it is left. *)
Definition example_close : list nrow :=
  [Row 1 1 0 1 (-1) [10]; Row 1 1 1 2 0 [11]; Row 1 1 2 3 1 [12]; Row 1 1 3 7 2 [13];
   Row 1 2 1 5 0 [20]; Row 1 2 2 6 4 [21]; Row 1 2 3 7 5 [22]; Row 1 2 4 8 6 [23]; Row 1 2 5 (-1) 7 [24];
   Row 2 3 0 10 (-1) [30]; Row 2 3 29 13 9 [31]; Row 2 4 1 12 9 [40]; Row 2 4 29 13 11 [41]; Row 2 4 30 (-1) 12 [42]]%Z.
Example C93_example : (example_close <> [] /\ segment_sorted example_close /\ links_ok example_close /\ inside_networks example_close /\ apart example_close 20 /\ times_merge example_close) /\
  close_event example_close 20 3 7 /\ ~ close_event example_close 20 10 13 /\ correct_close_events 20 example_close = Some
  [Row 1 1 0 1 (-1) [10]; Row 1 1 1 2 0 [11]; Row 1 1 2 3 1 [12]; Row 1 1 3 4 2 [13]; Row 1 1 4 5 3 [23]; Row 1 1 5 (-1) 4 [24];
   Row 1 2 1 7 0 [20]; Row 1 2 2 8 6 [21]; Row 1 2 3 4 7 [22];
   Row 2 3 0 10 (-1) [30]; Row 2 3 29 13 9 [31]; Row 2 4 1 12 9 [40]; Row 2 4 29 13 11 [41]; Row 2 4 30 (-1) 12 [42]]%Z.
Proof.
  split; [split; [discriminate|]; split; [apply sorted_checked; vm_compute; reflexivity|]; split; [apply links_checked; vm_compute; reflexivity|];
    split; [apply inside_checked; vm_compute; reflexivity|]; split; [apply apart_checked; vm_compute; reflexivity|apply merge_checked; vm_compute; reflexivity]|].
  split; [apply (close_b_iff example_close 20 3 (Row 1 1 3 7 2 [13])%Z 7 (Row 1 2 4 8 6 [23])%Z); reflexivity|].
  split; [|vm_compute; reflexivity]. intros H. apply (close_b_iff example_close 20 10 (Row 2 3 29 13 9 [31])%Z 13 (Row 2 4 30 (-1) 12 [42])%Z) in H; [discriminate H|reflexivity|reflexivity].
Qed.
Example C93_none_example : forall e n, ~ close_event example_close 1 e n.
Proof.
  intros e n C. pose proof C as (re & rn & _ & _ & _ & _ & RE & _ & _ & RN & _). apply (close_b_iff example_close 1 e re n rn RE RN) in C.
  assert (X : some example_close (fun e re => some example_close (fun n rn => close_b example_close 1 e re n rn)) = true).
  { apply some_iff. exists e, re. split; [auto|]. apply some_iff. exists n, rn. auto. }
  vm_compute in X. discriminate X.
Qed.

(** When close events meet, rows of other segments can be taken: segments 1, 2 and 3 meet in turn, and
    after the call rows 1 and 8 given, at the same time, are both in segment 1. *)
Definition example_meet : list nrow :=
  [Row 1 1 0 1 (-1) [10]; Row 1 1 1 2 0 [11]; Row 1 1 2 10 1 [12];
   Row 1 2 1 4 0 [20]; Row 1 2 2 5 3 [21]; Row 1 2 3 6 4 [22]; Row 1 2 4 7 5 [23]; Row 1 2 5 13 6 [24];
   Row 1 3 1 9 0 [30]; Row 1 3 2 10 8 [31]; Row 1 3 3 6 9 [32];
   Row 1 4 4 12 5 [40]; Row 1 4 5 13 11 [41]; Row 1 4 6 (-1) 12 [42]]%Z.
Theorem C93_refuted : exists rows out, rows <> [] /\ segment_sorted rows /\ links_ok rows /\ inside_networks rows /\ times_merge rows /\ times_rise rows /\ one_by_time rows /\
  correct_close_events 20 rows = Some out /\ ~ one_by_time out.
Proof.
  exists example_meet. eexists. split; [discriminate|]. split; [apply sorted_checked; vm_compute; reflexivity|]. split; [apply links_checked; vm_compute; reflexivity|].
  split; [apply inside_checked; vm_compute; reflexivity|]. assert (TM : times_merge example_meet) by (apply merge_checked; vm_compute; reflexivity). split; [exact TM|].
  split; [apply rise_checked; vm_compute; reflexivity|]. split.
  { destruct TM as [TI _]. intros i j a b IJ SM A B. destruct (lt_eq_lt_dec i j) as [[Z|Z]|Z]; [pose proof (TI i j a b Z SM A B); lia|contradiction|].
    pose proof (TI j i b a Z (same_sym _ _ _ SM) B A). lia. }
  split; [vm_compute; reflexivity|]. intros H. apply (H 1 2 (Row 1 1 1 3 0 [11])%Z (Row 1 1 1 4 0 [30])%Z); [lia| |reflexivity|reflexivity|reflexivity].
  eexists. eexists. split; [reflexivity|]. split; [reflexivity|]. split; reflexivity.
Qed.
Print Assumptions C93_refuted.

(** ** C94: swap of tracks *)
Lemma swap_setup : forall argsort rows, sorts argsort -> rows <> [] -> segment_sorted rows -> links_ok rows ->
  exists a b c seg first last, splitting_event_triplet argsort rows = Some (a, b, c) /\ index_segment_track rows = Some (seg, first, last, 0%Z) /\
    seg_facts rows seg /\ length last = length first /\ slices_of seg (triples first last) /\ (forall s, s < length first <-> exists k, nth_error seg k = Some s) /\
    (forall x y z, In (x, y, z) (combine (combine a b) c) -> exists m s rm, x = Z.of_nat m /\ z = Z.of_nat s /\ nth_error rows m = Some rm /\ y = nxt rm /\ splits_from rows m s) /\
    (forall m s, splits_from rows m s -> m < length rows -> exists y, In (Z.of_nat m, y, Z.of_nat s) (combine (combine a b) c)) /\
    (forall p q m y z m' y' z', p < q -> nth_error (combine (combine a b) c) p = Some (Z.of_nat m, y, z) -> nth_error (combine (combine a b) c) q = Some (Z.of_nat m', y', z') ->
       (time (nth m rows row0) <= time (nth m' rows row0))%Z /\ z <> z').
Proof.
  intros argsort rows SO NE SS LK. destruct (splitting_spec argsort rows SO NE SS LK) as (a & b & c & ET & LB & LC & AB & CH & UN & CB & BO & OR).
  destruct (index_spec rows NE SS) as (seg & first & last & EI & _ & SF & LL & SL & FULL & _).
  exists a, b, c, seg, first, last. split; [auto|]. split; [auto|]. split; [auto|]. split; [auto|]. split; [auto|]. split; [auto|].
  assert (NC : forall p x y z, nth_error (combine (combine a b) c) p = Some (x, y, z) <-> nth_error a p = Some x /\ nth_error b p = Some y /\ nth_error c p = Some z).
  { intros p x y z. rewrite !nth_comb. destruct (nth_error a p), (nth_error b p), (nth_error c p); split; try (intros (A & B & C); congruence); try discriminate.
    intros H. injection H as -> -> ->. auto. }
  split; [|split].
  - intros x y z H. apply In_nth_error in H as [p H]. apply NC in H as (A & B & C). pose proof (AB p x A) as XB. pose proof (CB p z C) as ZB.
    exists (Z.to_nat x), (Z.to_nat z). destruct (nth_error_lt_Some rows (Z.to_nat x)) as [rm RM]; [lia|]. exists rm. split; [lia|]. split; [lia|]. split; [auto|].
    split; [rewrite (BO p (Z.to_nat x) rm) in B; [apply Some_inj in B; auto|rewrite Z2Nat.id by lia; auto|auto]|].
    apply CH. exists p. rewrite !Z2Nat.id by lia. auto.
  - intros m s SP MN. apply CH in SP as (p & C & A). destruct (nth_error_lt_Some b p) as [y B]; [apply nth_error_Some_lt in A; lia|]. exists y. apply nth_error_In with p. apply NC. auto.
  - intros p q m y z m' y' z' L H H'. apply NC in H as (A & B & C), H' as (A' & B' & C'). split.
    + pose proof (AB _ _ A). pose proof (AB _ _ A'). apply (OR p q m m'); auto; apply row_nth; lia.
    + intros ->. pose proof (UN p q z' C C'). lia.
Qed.

Lemma swap_length : forall o cost rows seg i_end evs c c', swap_steps o cost rows seg i_end c evs = Some c' -> length c' = length c.
Proof.
  intros o cost rows seg i_end. induction evs as [|[[x y] z] evs IH]; intros c c' H; [apply Some_inj in H; subst; auto|]. cbn [swap_steps] in H.
  apply bind_Some in H as (c1 & H1 & H2). rewrite (IH c1 c' H2). clear H2 IH. unfold swap_step in H1.
  repeat (apply bind_Some in H1; destruct H1 as (? & _ & H1)). match type of H1 with (if ?b then _ else _) = _ => destruct b end; [|apply Some_inj in H1; subst; auto].
  repeat (apply bind_Some in H1; destruct H1 as (? & _ & H1)). apply Some_inj in H1. subst c1. rewrite !length_fill. auto.
Qed.
Lemma renumber_col : forall rows c, length c = length rows -> renumbered rows (renumber rows c (map prv rows)) /\
  (forall i r q, nth_error rows i = Some r -> nth_error (renumber rows c (map prv rows)) i = Some q -> prv q = prv r /\ nth_error c i = Some (segment q)).
Proof.
  intros rows c LC. assert (LP : length (map prv rows) = length rows) by apply map_length. split.
  - split; [apply length_renumber; auto|]. intros i r R. rewrite nth_renumber, R, nth_error_map, R by auto. cbn [option_map]. destruct (nth_error_lt_Some c i) as [s S']; [apply nth_error_Some_lt in R; lia|]. rewrite S'.
    eexists. split; [reflexivity|]. auto.
  - intros i r q R Q. rewrite nth_renumber, R, nth_error_map, R in Q by auto. cbn [option_map] in Q. destruct (nth_error c i) as [s|]; [|discriminate]. apply Some_inj in Q. subst q. auto.
Qed.

(** Whatever the network, a result holds every row with all its fields but the number
    of the segment. *)
Theorem C94_kept : forall argsort o cost rows out, links_ok rows -> swap_track argsort o cost rows = Some out ->
  exists mid ix, renumbered rows mid /\ (forall i r q, nth_error rows i = Some r -> nth_error mid i = Some q -> prv q = prv r) /\
    Permutation ix (seq 0 (length rows)) /\ rows_moved ix mid out /\
    (forall p q a b, p < q -> nth_error out p = Some a -> nth_error out q = Some b -> ordered [0; 1; 2] a b).
Proof.
  intros argsort o cost rows out LK H. unfold swap_track, swapped in H. apply bind_Some in H as (mid & H & H').
  apply bind_Some in H as ([[a b] c] & HT & H). apply bind_Some in H as ([[[seg f] l] z] & HI & H). apply bind_Some in H as (cl & HC & H). apply Some_inj in H.
  assert (LC : length cl = length rows). { rewrite (swap_length _ _ _ _ _ _ _ _ HC), map_length. auto. }
  destruct (renumber_col rows cl LC) as [RN PV]. rewrite H in RN, PV.
  destruct (sort_mid rows mid LK RN) as (ix & t & out' & ST & P & M & O).
  { intros i q Q. left. destruct (nth_error_lt_Some rows i) as [r R]; [apply nth_error_Some_lt in Q; destruct RN as [X _]; lia|]. exists r. split; [auto|]. apply (PV i r q R Q). }
  rewrite ST in H'. cbn [bind] in H'. apply Some_inj in H'. subst out'. exists mid, ix. split; [auto|]. split; [intros i r q R Q; apply (PV i r q R Q)|auto].
Qed.
Print Assumptions C94_kept.

(** When no two exchanges start from the same row, a segment still has one
    row at most for each time, and the numbers of segments are those of the network. *)
Theorem C94_times : forall argsort o cost rows, sorts argsort -> rows <> [] -> segment_sorted rows -> links_ok rows -> inside_networks rows -> times_rise rows -> splits_inside rows ->
  (forall m s s', to_swap (main_max o) (secondary_min o) (delta_max o) cost rows m s -> to_swap (main_max o) (secondary_min o) (delta_max o) cost rows m s' -> s = s') ->
  exists out, swap_track argsort o cost rows = Some out /\ one_by_time out /\
    (forall q, In q out -> exists r, In r rows /\ track r = track q /\ segment r = segment q).
Proof.
  intros argsort o cost rows SO NE SS LK IN TR SI ONE. destruct (swap_setup argsort rows SO NE SS LK) as (a & b & c & seg & first & last & ET & EI & (LS & MO & SAME) & LL & SL & FULL & EV & _ & OR).
  assert (P0 : 0 < length rows) by (destruct rows; [congruence|simpl; lia]).
  set (T0 := fold_right Z.min 0%Z (map time rows)).
  assert (TM : forall k, k < length rows -> (T0 <= time (nth k rows row0))%Z).
  { intros k K. assert (X : In (time (nth k rows row0)) (map time rows)) by (apply in_map, nth_In; auto). unfold T0. revert X. generalize (map time rows). induction l as [|x l IH]; intros X; [contradiction|]. destruct X as [X|X]; simpl; [lia|]. specialize (IH X). lia. }
  pose proof TR as [TI _].
  assert (SG : forall i j, i < length rows -> j < length rows -> (same_segment rows i j <-> sgf seg i = sgf seg j)) by (intros; apply (same_sg rows seg first last LS SAME LL); auto).
  assert (RD : forall i, i < length rows -> nth_error rows i = Some (nth i rows row0)) by (intros; apply row_nth; auto).
  destruct (swap_steps_spec rows seg first last o cost NE SS LK LS MO SAME LL SL FULL SI TR IN ONE (combine (combine a b) c) (map segment rows) (T0 - 1)%Z []) as (c' & T' & done' & ES & LC & OK).
  { apply map_length. }
  { assert (CV : forall k, k < length rows -> nth k (map segment rows) 0 = segment (nth k rows row0)) by (intros; change 0 with (segment row0); apply map_nth).
    assert (EQ : forall i j, i < length rows -> j < length rows -> trf rows i = trf rows j -> nth i (map segment rows) 0 = nth j (map segment rows) 0 -> same_segment rows i j).
    { intros i j I J T C. rewrite !CV in C by auto. exists (nth i rows row0), (nth j rows row0). auto. }
    split; [|split; [|split; [|split]]].
    - intros i j I J IJ T C TE. pose proof (EQ i j I J T C) as SM. destruct (lt_eq_lt_dec i j) as [[Z|Z]|Z]; [|contradiction|].
      + pose proof (TI i j _ _ Z SM (RD i I) (RD j J)). unfold tmf in TE. lia.
      + pose proof (TI j i _ _ Z (same_sym _ _ _ SM) (RD j J) (RD i I)). unfold tmf in TE. lia.
    - intros i j I J T C _ _. apply SG; auto.
    - intros i I C _. left. apply SG in C; [|lia|lia]. destruct C as (x & y & X & Y & _ & Z). rewrite !CV by lia. rewrite (RD i) in X by lia. rewrite (RD (S i)) in Y by lia. apply Some_inj in X, Y. congruence.
    - intros i [].
    - intros i I. exists i. auto. }
  { exact EV. } { exact OR. }
  { intros m y z H. destruct (EV _ _ _ H) as (m' & s & rm & E & _ & RM & _). apply Nat2Z.inj in E. subst m'. apply nth_error_Some_lt in RM. specialize (TM m RM). unfold tmf. lia. }
  { intros m []. }
  destruct (renumber_col rows c' LC) as [RN PV]. set (mid := renumber rows c' (map prv rows)) in *. pose proof RN as [LM RN'].
  destruct (sort_mid rows mid LK RN) as (ix & t & out & ST & P & M & O).
  { intros i q Q. left. destruct (nth_error_lt_Some rows i) as [r R]; [apply nth_error_Some_lt in Q; lia|]. exists r. split; [auto|]. apply (PV i r q R Q). }
  exists out. split; [|split].
  - unfold swap_track, swapped. rewrite ET. cbn [bind]. rewrite EI. cbn [bind]. rewrite ES. cbn [bind]. fold mid. rewrite ST. reflexivity.
  - apply (moved_times (length rows) ix mid); auto. destruct OK as (KK & _).
    intros i j x y IJ (x' & y' & X' & Y' & T & G) X Y. rewrite X in X'. rewrite Y in Y'. apply Some_inj in X', Y'. subst x' y'.
    assert (I : i < length rows) by (apply nth_error_Some_lt in X; lia). assert (J : j < length rows) by (apply nth_error_Some_lt in Y; lia).
    destruct (RN' i _ (RD i I)) as (x' & X' & TX & MX & _). destruct (RN' j _ (RD j J)) as (y' & Y' & TY & MY & _). rewrite X in X'. rewrite Y in Y'. apply Some_inj in X', Y'. subst x' y'.
    destruct (PV i _ x (RD i I) X) as [_ CX]. destruct (PV j _ y (RD j J) Y) as [_ CY]. rewrite MX, MY. apply (KK i j I J IJ); [unfold trf; congruence|].
    rewrite (nth_error_nth _ _ 0 CX), (nth_error_nth _ _ 0 CY). auto.
  - intros q Q. apply In_nth_error in Q as [k Q]. destruct M as [LO MV]. destruct (nth_error_lt_Some ix k) as [i I]; [apply nth_error_Some_lt in Q; lia|].
    destruct (MV k i I) as (r & q' & R & Q' & (S1 & S2 & _) & _). rewrite Q in Q'. apply Some_inj in Q'. subst q'. assert (IL : i < length rows) by (apply nth_error_Some_lt in R; lia).
    destruct (PV i _ r (RD i IL) R) as [_ CX]. destruct OK as (_ & _ & _ & _ & NN). destruct (NN i IL) as (j & J & TJ & CJ). rewrite (nth_error_nth _ _ 0 CX) in CJ.
    exists (nth j rows row0). split; [apply nth_In; auto|]. destruct (RN' i _ (RD i IL)) as (x' & X' & TX & _). rewrite R in X'. apply Some_inj in X'. subst x'. unfold trf in TJ. split; congruence.
Qed.
Print Assumptions C94_times.

(** When a segment is in one exchange at most, the numbers are those asked: the rows
    after [m] in its segment take the number of the segment of [s], the rows of the
    segment of [s] take the number of the segment of [m], the others keep theirs. *)
Theorem C94_swapped : forall argsort o cost rows, sorts argsort -> rows <> [] -> segment_sorted rows -> links_ok rows -> inside_networks rows -> times_rise rows -> splits_inside rows ->
  let asked := to_swap (main_max o) (secondary_min o) (delta_max o) cost rows in
  (forall m s m' s', asked m s -> asked m' s' -> (same_segment rows m m' \/ same_segment rows m s' \/ same_segment rows s m' \/ same_segment rows s s') -> m = m' /\ s = s') ->
  exists mid ix out, swap_track argsort o cost rows = Some out /\ renumbered rows mid /\
    (forall i r q, nth_error rows i = Some r -> nth_error mid i = Some q ->
       (forall m s rs, asked m s -> same_segment rows m i -> m < i -> nth_error rows s = Some rs -> segment q = segment rs) /\
       (forall m s rm, asked m s -> same_segment rows s i -> nth_error rows m = Some rm -> segment q = segment rm) /\
       ((forall m s, asked m s -> ~ (same_segment rows m i /\ m < i) /\ ~ same_segment rows s i) -> segment q = segment r) /\
       prv q = prv r) /\
    Permutation ix (seq 0 (length rows)) /\ rows_moved ix mid out.
Proof.
  intros argsort o cost rows SO NE SS LK IN TR SI asked AL. destruct (swap_setup argsort rows SO NE SS LK) as (a & b & c & seg & first & last & ET & EI & (LS & MO & SAME) & LL & SL & FULL & EV & ALL & OR).
  assert (SG : forall i j, i < length rows -> j < length rows -> (same_segment rows i j <-> sgf seg i = sgf seg j)) by (intros; apply (same_sg rows seg first last LS SAME LL); auto).
  assert (RD : forall i, i < length rows -> nth_error rows i = Some (nth i rows row0)) by (intros; apply row_nth; auto).
  assert (CV : forall k, k < length rows -> nth k (map segment rows) 0 = segment (nth k rows row0)) by (intros; change 0 with (segment row0); apply map_nth).
  destruct (swap_steps_result rows seg first last o cost NE SS LK LS SAME LL SL FULL SI TR IN AL (combine (combine a b) c) (map segment rows) (fun _ _ => False)) as (c' & ES & LC & RES).
  { apply map_length. }
  { intros k K. right. right. split; [intros m s []|apply CV; auto]. }
  { intros m s []. }
  { exact EV. }
  { intros p q [[x y] z] [[x' y'] z'] L H H'. destruct (EV _ _ _ (nth_error_In _ _ H)) as (m & s & _ & -> & _). destruct (EV _ _ _ (nth_error_In _ _ H')) as (m' & s' & _ & -> & _).
    apply (OR p q m y z m' y' z' L H H'). }
  assert (DN : forall m s, asked m s <-> False \/ (to_swap (main_max o) (secondary_min o) (delta_max o) cost rows m s /\ exists y, In (Z.of_nat m, y, Z.of_nat s) (combine (combine a b) c))).
  { intros m s. split; [intros A; right; split; [exact A|]|intros [[]|[A _]]; exact A]. pose proof A as (rm & _ & rs & _ & _ & _ & _ & RM & _ & RS & F & P & _). apply ALL; [exists rs; auto|]. eapply nth_error_Some_lt; eauto. }
  assert (LT : forall m s, asked m s -> m < length rows /\ s < length rows).
  { intros m s A. pose proof A as (rm & _ & rs & _ & _ & _ & _ & RM & _ & RS & _). split; eapply nth_error_Some_lt; eauto. }
  assert (DISJ : forall m s, asked m s -> sgf seg m <> sgf seg s).
  { intros m s A. destruct (LT m s A) as [ML SLT]. pose proof A as (rm & _ & rs & _ & _ & _ & _ & RM & _ & RS & F & P & _). apply (split_facts rows seg first last LS SAME LL TR IN m s); auto. exists rs. auto. }
  destruct (renumber_col rows c' LC) as [RN PV]. set (mid := renumber rows c' (map prv rows)) in *. pose proof RN as [LM RN'].
  destruct (sort_mid rows mid LK RN) as (ix & t & out & ST & P & M & O).
  { intros i q Q. left. destruct (nth_error_lt_Some rows i) as [r R]; [apply nth_error_Some_lt in Q; lia|]. exists r. split; [auto|]. apply (PV i r q R Q). }
  exists mid, ix, out. split; [|split; [auto|split; [|auto]]].
  - unfold swap_track, swapped. rewrite ET. cbn [bind]. rewrite EI. cbn [bind]. rewrite ES. cbn [bind]. fold mid. rewrite ST. reflexivity.
  - intros i r q R Q. destruct (PV i r q R Q) as [PQ CQ]. assert (I : i < length rows) by (eapply nth_error_Some_lt; eauto).
    assert (CI : nth i c' 0 = segment q) by (apply nth_error_nth; auto). specialize (RES i I). cbv beta in RES. rewrite CI in RES.
    assert (RV : nth i rows row0 = r) by (apply nth_error_nth; auto). rewrite RV in RES.
    split; [|split; [|split; [|auto]]].
    + intros m s rs A S1 L RS. destruct (LT m s A) as [ML SLT]. apply SG in S1; auto.
      destruct RES as [(m' & s' & D & E1 & E2 & E3)|[(m' & s' & D & E1 & E3)|(NO & _)]].
      * apply DN in D. destruct (LT m' s' D). destruct (AL m s m' s' A D) as [<- <-]; [left; apply SG; auto; congruence|]. rewrite E3. rewrite (nth_error_nth _ _ row0 RS). auto.
      * apply DN in D. destruct (LT m' s' D). destruct (AL m s m' s' A D) as [<- <-]; [right; left; apply SG; auto; congruence|]. exfalso. apply (DISJ m s A). congruence.
      * exfalso. destruct (NO m s (proj1 (DN m s) A)) as [X _]. apply X. auto.
    + intros m s rm A S1 RM. destruct (LT m s A) as [ML SLT]. apply SG in S1; auto.
      destruct RES as [(m' & s' & D & E1 & E2 & E3)|[(m' & s' & D & E1 & E3)|(NO & _)]].
      * apply DN in D. destruct (LT m' s' D). destruct (AL m s m' s' A D) as [<- <-]; [right; right; left; apply SG; auto; congruence|]. exfalso. apply (DISJ m s A). congruence.
      * apply DN in D. destruct (LT m' s' D). destruct (AL m s m' s' A D) as [<- <-]; [right; right; right; apply SG; auto; congruence|]. rewrite E3. rewrite (nth_error_nth _ _ row0 RM). auto.
      * exfalso. destruct (NO m s (proj1 (DN m s) A)) as [_ X]. apply X. auto.
    + intros NO. destruct RES as [(m' & s' & D & E1 & E2 & E3)|[(m' & s' & D & E1 & E3)|(_ & E)]]; [| |exact E].
      * apply DN in D. destruct (LT m' s' D). exfalso. destruct (NO m' s' D) as [X _]. apply X. split; [apply SG; auto|auto].
      * apply DN in D. destruct (LT m' s' D). exfalso. destruct (NO m' s' D) as [_ X]. apply X. apply SG; auto.
Qed.
Print Assumptions C94_swapped.

(** Segment 2 splits from row 1 of segment 1, which stops two days after: the number 1 goes to the long one. *)
Definition cost_of (r : nrow) : Q := match rest r with z :: _ => z # 10 | [] => 0%Q end.
Definition example_swap : list nrow :=
  [Row 1 1 0 1 (-1) [5]; Row 1 1 1 2 0 [5]; Row 1 1 2 3 1 [6]; Row 1 1 3 (-1) 2 [7];
   Row 1 2 2 5 1 [5]; Row 1 2 9 6 4 [8]; Row 1 2 12 (-1) 5 [9]; Row 2 1 0 (-1) (-1) [1]]%Z.
Definition default_swap : swap_options := SwapOptions 2 10 (-1 # 5).
Notation stable := (stable_argsort (fun a b => (a <=? b)%Z)).
Example C94_example : (example_swap <> [] /\ segment_sorted example_swap /\ links_ok example_swap /\ inside_networks example_swap /\ times_rise example_swap /\ splits_inside example_swap /\
    (forall m s s', to_swap 2 10 (-1 # 5) cost_of example_swap m s -> to_swap 2 10 (-1 # 5) cost_of example_swap m s' -> s = s') /\
    (forall m s m' s', to_swap 2 10 (-1 # 5) cost_of example_swap m s -> to_swap 2 10 (-1 # 5) cost_of example_swap m' s' ->
      (same_segment example_swap m m' \/ same_segment example_swap m s' \/ same_segment example_swap s m' \/ same_segment example_swap s s') -> m = m' /\ s = s')) /\
  to_swap 2 10 (-1 # 5) cost_of example_swap 1 4 /\
  swap_track stable default_swap cost_of example_swap = Some
  [Row 1 1 0 1 (-1) [5]; Row 1 1 1 5 0 [5]; Row 1 1 2 3 1 [5]; Row 1 1 9 4 2 [8]; Row 1 1 12 (-1) 3 [9];
   Row 1 2 2 6 1 [6]; Row 1 2 3 (-1) 5 [7]; Row 2 1 0 (-1) (-1) [1]]%Z.
Proof.
  split; [split; [discriminate|]; split; [apply sorted_checked; vm_compute; reflexivity|]; split; [apply links_checked; vm_compute; reflexivity|];
    split; [apply inside_checked; vm_compute; reflexivity|]; split; [apply rise_checked; vm_compute; reflexivity|]; split; [apply splits_checked; vm_compute; reflexivity|];
    split; [apply one_checked; vm_compute; reflexivity|apply alone_checked; vm_compute; reflexivity]|].
  split; [apply (asked_b_iff example_swap 2 10 (-1 # 5) cost_of 1 (Row 1 1 1 2 0 [5])%Z 4 (Row 1 2 2 5 1 [5])%Z); reflexivity|vm_compute; reflexivity].
Qed.

(** Two segments which split from the same row both take the number of the first: it then
    has two rows at the same time. *)
Theorem C94_same_row_refuted : exists rows out, rows <> [] /\ segment_sorted rows /\ links_ok rows /\ inside_networks rows /\ times_rise rows /\ splits_inside rows /\
  swap_track stable default_swap cost_of rows = Some out /\ ~ one_by_time out.
Proof.
  exists [Row 1 1 0 1 (-1) [5]; Row 1 1 1 2 0 [5]; Row 1 1 2 (-1) 1 [6]; Row 1 2 2 4 1 [5]; Row 1 2 12 (-1) 3 [9]; Row 1 3 2 6 1 [5]; Row 1 3 12 (-1) 5 [9]]%Z.
  eexists. split; [discriminate|]. split; [apply sorted_checked; vm_compute; reflexivity|]. split; [apply links_checked; vm_compute; reflexivity|].
  split; [apply inside_checked; vm_compute; reflexivity|]. split; [apply rise_checked; vm_compute; reflexivity|]. split; [apply splits_checked; vm_compute; reflexivity|].
  split; [vm_compute; reflexivity|]. intros H. eapply (H 2 3); [lia| |reflexivity|reflexivity|reflexivity].
  eexists. eexists. split; [reflexivity|]. split; [reflexivity|]. split; reflexivity.
Qed.
Print Assumptions C94_same_row_refuted.

(** When a segment splits from the last row of one which stops there, the cost read is the one of
    the last row of the dataset: two datasets which differ by a row of another network
    do not get the same segments. *)
Theorem C94_last_row_refuted : exists rows r r', track r <> 1 /\ track r' = track r /\ segment r' = segment r /\ time r' = time r /\
  segment_sorted (rows ++ [r]) /\ links_ok (rows ++ [r]) /\ inside_networks (rows ++ [r]) /\ times_rise (rows ++ [r]) /\
  option_map (map segment) (swap_track stable default_swap cost_of (rows ++ [r])) = Some [1; 1; 1; 1; 1] /\
  option_map (map segment) (swap_track stable default_swap cost_of (rows ++ [r'])) = Some [1; 1; 2; 2; 1].
Proof.
  exists [Row 1 1 0 1 (-1) [5]; Row 1 1 1 (-1) 0 [5]; Row 1 2 2 3 1 [5]; Row 1 2 12 (-1) 2 [9]]%Z, (Row 2 1 0 (-1) (-1) [1])%Z, (Row 2 1 0 (-1) (-1) [9])%Z.
  split; [discriminate|]. split; [reflexivity|]. split; [reflexivity|]. split; [reflexivity|]. split; [apply sorted_checked; vm_compute; reflexivity|]. split; [apply links_checked; vm_compute; reflexivity|].
  split; [apply inside_checked; vm_compute; reflexivity|]. split; [apply rise_checked; vm_compute; reflexivity|]. split; vm_compute; reflexivity.
Qed.
Print Assumptions C94_last_row_refuted.
