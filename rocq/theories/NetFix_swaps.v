(** The loop of swap_track exchanges the ends of the segments asked. *)
From Coq Require Import List Arith ZArith QArith Bool Lia Permutation.
From Verif Require Import Base Qaux Sort Generic_model Corr_model Corr_proofs Obs_model Obs_spec TrackObs_more Net_model Net_spec Net_sort Net_links
  NetSeg_model NetSeg_proofs NetEvt_model NetEvt_spec NetEvt_more NetEvt_sel NetFix_model NetFix_spec NetFix_proofs NetFix_close NetFix_swap.
Import ListNotations.
Local Close Scope Q_scope.
Local Open Scope nat_scope.

Definition row0 : nrow := Row 0 0 0 0 0 [].
Lemma nth_fill : forall (l : list nat) a b x k, nth k (fill l a b x) 0 = if (a <=? k) && (k <? b) && (k <? length l) then x else nth k l 0.
Proof.
  intros l a b x k. pose proof (nth_error_fill l a b x k) as H. destruct ((a <=? k) && (k <? b) && (k <? length l)) eqn:E.
  - apply nth_error_nth. exact H.
  - destruct (nth_error l k) as [y|] eqn:N; [rewrite (nth_error_nth _ _ 0 H), (nth_error_nth _ _ 0 N); auto|].
    apply nth_error_None in N. rewrite !nth_overflow; [auto|auto|rewrite length_fill; auto].
Qed.

Section Swaps.
Context (rows : list nrow) (seg first last : list nat) (o : swap_options) (cost : nrow -> Q).
Hypothesis NE : rows <> [].
Hypothesis SS : segment_sorted rows.
Hypothesis LK : links_ok rows.
Hypothesis LEN : length seg = length rows.
Hypothesis MONO : forall i j a b, i < j -> nth_error seg i = Some a -> nth_error seg j = Some b -> a <= b.
Hypothesis SAME : forall i j s, nth_error seg i = Some s -> (nth_error seg j = Some s <-> same_segment rows i j).
Hypothesis LL : length last = length first.
Hypothesis SL : slices_of seg (triples first last).
Hypothesis FULL : forall s, s < length first <-> exists k, nth_error seg k = Some s.
Notation asked := (to_swap (main_max o) (secondary_min o) (delta_max o) cost rows).
Notation n := (length rows).
Definition sgf (k : nat) : nat := nth k seg 0.
Definition trf (k : nat) : nat := track (nth k rows row0).
Definition tmf (k : nat) : Z := time (nth k rows row0).

Lemma seg_nth : forall k, k < n -> nth_error seg k = Some (sgf k).
Proof. intros k K. apply nth_error_nth'. lia. Qed.
Lemma row_nth : forall k, k < n -> nth_error rows k = Some (nth k rows row0).
Proof. intros k K. apply nth_error_nth'. auto. Qed.
Lemma row_val : forall k r, nth_error rows k = Some r -> k < n /\ nth k rows row0 = r.
Proof. intros k r H. split; [eapply nth_error_Some_lt; eauto|apply nth_error_nth; auto]. Qed.
Lemma same_sg : forall i j, i < n -> j < n -> (same_segment rows i j <-> sgf i = sgf j).
Proof. intros i j I J. rewrite <- (SAME i j _ (seg_nth i I)). rewrite (seg_nth j J). split; [intros H; apply Some_inj in H; auto|intros ->; auto]. Qed.
Lemma same_lt : forall i j, same_segment rows i j -> i < n /\ j < n.
Proof. intros i j (a & b & A & B & _). split; eapply nth_error_Some_lt; eauto. Qed.
Lemma stop_at : forall k, k < n -> exists b, nth_error last (sgf k) = Some b /\ k < b /\ b <= n /\ (forall j, sgf j = sgf k /\ j < n /\ k <= j <-> k <= j < b) /\ last_row rows (b - 1) /\ same_segment rows k (b - 1).
Proof.
  intros k K. assert (F : sgf k < length first) by (apply FULL; exists k; apply seg_nth; auto).
  destruct (nth_error_lt_Some first (sgf k) F) as [a A]. destruct (nth_error_lt_Some last (sgf k)) as [b B]; [lia|].
  assert (T : In (a, b, sgf k) (triples first last)) by (apply In_triples; auto).
  destruct (slice_rows rows seg _ LEN SL a b (sgf k) T) as (AB & BL & _ & SB). destruct SL as (S1 & _). destruct (S1 a b (sgf k) T) as [_ W].
  pose proof (proj2 (W k) (seg_nth k K)) as KW. exists b. split; [auto|]. split; [lia|]. split; [lia|]. split; [|split].
  - intros j. split.
    + intros (X & J & Y). assert (Z : nth_error seg j = Some (sgf k)) by (rewrite <- X; apply seg_nth; auto). apply W in Z. lia.
    + intros Y. assert (Z : nth_error seg j = Some (sgf k)) by (apply W; lia). split; [|lia]. unfold sgf at 1. apply nth_error_nth. auto.
  - intros j J. apply (SAME (b - 1) j (sgf k) SB) in J. apply W in J. lia.
  - apply (SAME k (b - 1) (sgf k) (seg_nth k K)). auto.
Qed.
Lemma last_unique : forall i e f, same_segment rows i e -> last_row rows e -> same_segment rows i f -> last_row rows f -> e = f.
Proof.
  intros i e f A B C D. assert (X : same_segment rows e f) by (eapply same_trans; [apply same_sym; eauto|eauto]). pose proof (B f X). pose proof (D e (same_sym _ _ _ X)). lia.
Qed.

Definition splits_rows (m s : nat) : Prop := exists rs, nth_error rows s = Some rs /\ first_row rows s /\ prv rs = Z.of_nat m.
Hypothesis INS : splits_inside rows.
Lemma swap_step_spec : forall c m s rm, length c = n -> splits_from rows m s -> nth_error rows m = Some rm -> sgf m <> sgf s ->
  exists c', swap_step o cost rows seg last c (Z.of_nat m, nxt rm, Z.of_nat s) = Some c' /\ length c' = n /\
    ((c' = c /\ ~ asked m s) \/ (asked m s /\ S m < n /\ sgf m = sgf (S m) /\ forall k, k < n -> nth k c' 0 = exchange sgf (fun k => nth k c 0) m s k)).
Proof.
  intros c m s rm LC (rs & RS & FS & PS) RM DIFF. pose proof (row_val m rm RM) as [MN VM]. pose proof (row_val s rs RS) as [SN VS].
  destruct (stop_at m MN) as (bm & BM & M1 & M2 & M3 & M4 & M5). destruct (stop_at s SN) as (bs & BS & S1 & S2 & S3 & S4 & S5).
  unfold swap_step. rewrite !pyget_of_nat. rewrite (seg_nth m MN), (seg_nth s SN). cbn [bind]. rewrite BM, BS. cbn [bind]. rewrite RM, RS. cbn [bind].
  destruct (LK rm (nth_error_In _ _ RM)) as [LN _].
  assert (R1 : exists r1, pyget rows (nxt rm) = Some r1 /\ (forall j, nxt rm = Z.of_nat j -> nth_error rows j = Some r1)).
  { destruct LN as [LN|LN].
    - rewrite LN. destruct (nth_error_lt_Some rows (n - 1)) as [r R]; [destruct rows; [congruence|simpl; lia]|]. exists r. split; [|intros j J; lia].
      unfold pyget, pyidx. assert (0 < n) by lia. destruct (Z.leb_spec 0 (-1)); [lia|]. destruct (Z.leb_spec (- Z.of_nat n) (-1)); [|lia]. cbn [bind]. rewrite <- R. f_equal. lia.
    - destruct (nth_error_lt_Some rows (Z.to_nat (nxt rm))) as [r R]; [lia|]. exists r. split; [rewrite (pyget_lt rows seg) by (auto; lia); auto|]. intros j J. rewrite <- R. f_equal. lia. }
  destruct R1 as (r1 & R1 & R1'). rewrite R1. cbn [bind].
  replace (Z.of_nat bm - 1)%Z with (Z.of_nat (bm - 1)) by lia. replace (Z.of_nat bs - 1)%Z with (Z.of_nat (bs - 1)) by lia. rewrite !pyget_of_nat.
  pose proof (row_nth (bm - 1) ltac:(lia)) as RE. pose proof (row_nth (bs - 1) ltac:(lia)) as RF. set (re := nth (bm - 1) rows row0) in *. set (rf := nth (bs - 1) rows row0) in *.
  rewrite RE, RF. cbn [bind].
  match goal with |- context [if ?b then _ else _] => destruct b eqn:Q end.
  - apply andb_true_iff in Q as [Q Q4]. apply andb_true_iff in Q as [Q Q3]. apply andb_true_iff in Q as [Q1 Q2]. apply Z.leb_le in Q1, Q2. apply Z.eqb_eq in Q3. apply Qlt_bool_iff in Q4.
    destruct (INS m s rm rs (bm - 1) re RM RS FS PS M5 M4 RE Q3) as [NX SMM]. destruct (same_lt _ _ SMM) as [_ SMN].
    assert (SGM : sgf m = sgf (S m)) by (apply same_sg; auto).
    rewrite NX. assert (FE : from_end (length c) (Z.of_nat (S m)) = S m) by (unfold from_end; destruct (Z.ltb_spec (Z.of_nat (S m)) 0); lia). rewrite FE.
    pose proof (nth_error_nth' c 0 (n := s) ltac:(lia)) as CS. rewrite CS. cbn [bind].
    set (c1 := fill c (S m) bm (nth s c 0)). assert (L1 : length c1 = n) by (unfold c1; rewrite length_fill; auto).
    pose proof (nth_error_nth' c1 0 (n := m) ltac:(lia)) as CM. rewrite pyget_of_nat, CM. cbn [bind]. eexists. split; [reflexivity|]. split; [rewrite length_fill; auto|]. right.
    split; [exists rm, r1, rs, (bm - 1), re, (bs - 1), rf; rewrite (R1' (S m) NX); auto 20|]. split; [auto|]. split; [auto|].
    intros k K. unfold exchange. rewrite Nat2Z.id, nth_fill, L1. unfold c1 at 1 2. rewrite !nth_fill, LC.
    replace ((S m <=? m) && (m <? bm) && (m <? n)) with false by (destruct (Nat.leb_spec (S m) m); [lia|reflexivity]).
    assert (KN : k <? n = true) by (apply Nat.ltb_lt; auto). rewrite KN, !andb_true_r.
    assert (XM : (S m <=? k) && (k <? bm) = (sgf k =? sgf m) && (m <? k)).
    { apply Bool.eq_iff_eq_true. rewrite !andb_true_iff, Nat.leb_le, !Nat.ltb_lt, Nat.eqb_eq. specialize (M3 k). split; [intros [X Y]|intros [X Y]].
      - split; [apply M3; lia|lia].
      - split; [lia|]. apply M3. split; [auto|]. split; [auto|lia]. }
    assert (XS : (s <=? k) && (k <? bs) = (sgf k =? sgf s)).
    { apply Bool.eq_iff_eq_true. rewrite andb_true_iff, Nat.leb_le, Nat.ltb_lt, Nat.eqb_eq. specialize (S3 k). split; [intros [X Y]; apply S3; lia|intros X].
      assert (s <= k). { apply FS. apply same_sg; auto. } apply S3. auto. }
    rewrite XM, XS. destruct (Nat.eqb_spec (sgf k) (sgf m)) as [X|X]; cbn [andb].
    + destruct (Nat.eqb_spec (sgf k) (sgf s)); [congruence|]. destruct (m <? k); auto.
    + destruct (sgf k =? sgf s); auto.
  - exists c. split; [reflexivity|]. split; [auto|]. left. split; [auto|].
    intros (rm' & rn & rs' & e & re' & f & rf' & A1 & A2 & A3 & A4 & A5 & A6 & A7 & A8 & A9 & A10 & A11 & A12 & A13 & A14 & A15).
    rewrite RM in A1. rewrite RS in A3. apply Some_inj in A1, A3. subst rm' rs'.
    assert (e = bm - 1) by (eapply last_unique; eauto). assert (f = bs - 1) by (eapply last_unique; eauto). subst e f.
    rewrite RE in A8. rewrite RF in A11. apply Some_inj in A8, A11. rewrite <- A8, <- A11 in *.
    destruct (INS m s rm rs (bm - 1) re RM RS FS PS M5 M4 RE A12) as [NX SMM]. rewrite (R1' (S m) NX) in A2. apply Some_inj in A2. subst rn.
    apply Z.leb_le in A13, A14. apply Z.eqb_eq in A12. apply Qlt_bool_iff in A15. rewrite A12, A13, A14, A15 in Q. discriminate Q.
Qed.

Hypothesis RISE : times_rise rows.
Hypothesis INNET : inside_networks rows.
Hypothesis ONE : forall m s s', asked m s -> asked m s' -> s = s'.
Definition cont_sg : forall i k j, i <= k <= j -> j < n -> sgf i = sgf j -> sgf k = sgf i.
Proof.
  intros i k j IJ J E. assert (X : sgf i <= sgf k). { destruct (Nat.eq_dec i k) as [->|N]; [auto|]. apply (MONO i k); [lia|apply seg_nth; lia|apply seg_nth; lia]. }
  assert (Y : sgf k <= sgf j). { destruct (Nat.eq_dec k j) as [->|N]; [auto|]. apply (MONO k j); [lia|apply seg_nth; lia|apply seg_nth; lia]. } lia.
Qed.
Lemma tr_sg : forall i j, i < n -> j < n -> sgf i = sgf j -> trf i = trf j.
Proof. intros i j I J E. apply same_sg in E; auto. destruct E as (a & b & A & B & T & _). apply row_val in A as [_ A], B as [_ B]. unfold trf. rewrite A, B. auto. Qed.
Lemma inc_sg : forall i j, i < j -> j < n -> sgf i = sgf j -> (tmf i < tmf j)%Z.
Proof. intros i j L J E. apply same_sg in E; [|lia|lia]. destruct RISE as [R _]. unfold tmf. apply (R i j); auto; apply row_nth; lia. Qed.
Lemma split_facts : forall m s, splits_from rows m s -> m < n -> s < n /\ (tmf m < tmf s)%Z /\ trf m = trf s /\ sgf m <> sgf s /\ (forall k, k < n -> sgf k = sgf s -> s <= k).
Proof.
  intros m s (rs & RS & FS & PS) MN. pose proof (row_val s rs RS) as [SN VS]. split; [auto|].
  assert (TS : (tmf m < tmf s)%Z). { unfold tmf. rewrite VS. destruct RISE as [_ R]. apply (R m s); auto. apply row_nth; auto. }
  assert (F : forall k, k < n -> sgf k = sgf s -> s <= k). { intros k K E. apply FS. apply same_sg; auto. }
  split; [auto|]. split; [|split; [|auto]].
  - unfold trf. rewrite VS. symmetry. apply (INNET s rs m); auto. apply row_nth; auto.
  - intros E. specialize (F m MN E). destruct (Nat.eq_dec s m) as [->|N]; [lia|]. pose proof (inc_sg s m ltac:(lia) MN (eq_sym E)). lia.
Qed.

Notation sok := (state_ok n sgf trf (fun k => segment (nth k rows row0)) tmf).
Lemma swap_steps_spec : forall evs c T done, length c = n -> sok T done (fun k => nth k c 0) ->
  (forall x y z, In (x, y, z) evs -> exists m s rm, x = Z.of_nat m /\ z = Z.of_nat s /\ nth_error rows m = Some rm /\ y = nxt rm /\ splits_from rows m s) ->
  (forall p q m y z m' y' z', p < q -> nth_error evs p = Some (Z.of_nat m, y, z) -> nth_error evs q = Some (Z.of_nat m', y', z') -> (tmf m <= tmf m')%Z /\ z <> z') ->
  (forall m y z, In (Z.of_nat m, y, z) evs -> (T <= tmf m)%Z) ->
  (forall m, In m done -> exists s, asked m s /\ forall x y, ~ In (x, y, Z.of_nat s) evs) ->
  exists c' T' done', swap_steps o cost rows seg last c evs = Some c' /\ length c' = n /\ sok T' done' (fun k => nth k c' 0).
Proof.
  induction evs as [|[[x y] z] evs IH]; intros c T done LC OK EV OR TE DN; [exists c, T, done; split; [reflexivity|auto]|].
  destruct (EV x y z (or_introl eq_refl)) as (m & s & rm & -> & -> & RM & -> & SP). pose proof (row_val m rm RM) as [MN VM].
  destruct (split_facts m s SP MN) as (SN & TMS & TRMS & DIFF & FS).
  destruct (swap_step_spec c m s rm LC SP RM DIFF) as (c1 & E1 & LC1 & CASE). cbn [swap_steps]. rewrite E1. cbn [bind].
  pose proof (TE m _ _ (or_introl eq_refl)) as TM.
  assert (EV' : forall x y z, In (x, y, z) evs -> exists m s rm, x = Z.of_nat m /\ z = Z.of_nat s /\ nth_error rows m = Some rm /\ y = nxt rm /\ splits_from rows m s).
  { intros x y z H. apply EV. right. auto. }
  assert (OR' : forall p q m y z m' y' z', p < q -> nth_error evs p = Some (Z.of_nat m, y, z) -> nth_error evs q = Some (Z.of_nat m', y', z') -> (tmf m <= tmf m')%Z /\ z <> z').
  { intros p q a b d a' b' d' L P Q. apply (OR (S p) (S q) a b d a' b' d'); auto. lia. }
  assert (TE' : forall m' y z, In (Z.of_nat m', y, z) evs -> (tmf m <= tmf m')%Z).
  { intros m' y z H. apply In_nth_error in H as [q Q]. apply (OR 0 (S q) m (nxt rm) (Z.of_nat s) m' y z); auto. lia. }
  assert (FRESH : forall x y, ~ In (x, y, Z.of_nat s) evs).
  { intros x y H. destruct (EV' x y _ H) as (m' & s' & rm' & -> & _). apply In_nth_error in H as [q Q]. destruct (OR 0 (S q) m (nxt rm) (Z.of_nat s) m' y (Z.of_nat s)) as [_ X]; auto. lia. }
  destruct CASE as [[-> NA]|(AS & SMN & SGM & EX)].
  - apply (IH c (tmf m) done); auto; [eapply state_later; eauto|]. intros m' H. destruct (DN m' H) as (s' & A & B). exists s'. split; [auto|]. intros a b X. apply (B a b). right. auto.
  - apply (IH c1 (tmf m) (m :: done)); auto.
    + assert (NM : ~ In m done). { intros H. destruct (DN m H) as (s' & A & B). pose proof (ONE m s' s A AS) as ->. apply (B (Z.of_nat m) (nxt rm)). left. auto. }
      pose proof (exchange_ok n sgf trf (fun k => segment (nth k rows row0)) tmf cont_sg tr_sg inc_sg T done (fun k => nth k c 0) m s OK TM NM SMN SN SGM TRMS FS TMS) as OK'.
      destruct OK' as (A & B & C & D & E). split; [|split; [|split; [|split]]]; [| | |exact D|].
      * intros i j I J IJ TR. rewrite (EX i I), (EX j J). apply A; auto.
      * intros i j I J TR. rewrite (EX i I), (EX j J). apply B; auto.
      * intros i I. rewrite (EX i ltac:(lia)), (EX (S i) I). apply C; auto.
      * intros i I. rewrite (EX i I). apply E; auto.
    + intros m' [<-|H]; [exists s; auto|]. destruct (DN m' H) as (s' & A & B). exists s'. split; [auto|]. intros a b X. apply (B a b). right. auto.
Qed.

(** When a segment is in one exchange only, the result is known. *)
Definition alone : Prop := forall m s m' s' , asked m s -> asked m' s' -> (same_segment rows m m' \/ same_segment rows m s' \/ same_segment rows s m' \/ same_segment rows s s') -> m = m' /\ s = s'.
Definition result (done : nat -> nat -> Prop) (c : nat -> nat) : Prop := forall k, k < n ->
  (exists m s, done m s /\ sgf k = sgf m /\ m < k /\ c k = segment (nth s rows row0)) \/
  (exists m s, done m s /\ sgf k = sgf s /\ c k = segment (nth m rows row0)) \/
  ((forall m s, done m s -> ~ (sgf k = sgf m /\ m < k) /\ sgf k <> sgf s) /\ c k = segment (nth k rows row0)).
Lemma swap_steps_result : alone -> forall evs c (done : nat -> nat -> Prop), length c = n -> result done (fun k => nth k c 0) ->
  (forall m s, done m s -> asked m s /\ forall x y, ~ In (x, y, Z.of_nat s) evs) ->
  (forall x y z, In (x, y, z) evs -> exists m s rm, x = Z.of_nat m /\ z = Z.of_nat s /\ nth_error rows m = Some rm /\ y = nxt rm /\ splits_from rows m s) ->
  (forall p q e f, p < q -> nth_error evs p = Some e -> nth_error evs q = Some f -> snd e <> snd f) ->
  exists c', swap_steps o cost rows seg last c evs = Some c' /\ length c' = n /\
    result (fun m s => done m s \/ (asked m s /\ exists y, In (Z.of_nat m, y, Z.of_nat s) evs)) (fun k => nth k c' 0).
Proof.
  intros AL. induction evs as [|[[x y] z] evs IH]; intros c done LC OK DN EV UN.
  - exists c. split; [reflexivity|]. split; [auto|]. intros k K. destruct (OK k K) as [(m & s & A & B)|[(m & s & A & B)|(A & B)]]; [left|right; left|right; right].
    + exists m, s. auto.
    + exists m, s. auto.
    + split; [|auto]. intros m s [X|(_ & w & [])]. auto.
  - destruct (EV x y z (or_introl eq_refl)) as (m & s & rm & -> & -> & RM & -> & SP). pose proof (row_val m rm RM) as [MN VM].
    destruct (split_facts m s SP MN) as (SN & TMS & TRMS & DIFF & FS).
    destruct (swap_step_spec c m s rm LC SP RM DIFF) as (c1 & E1 & LC1 & CASE). cbn [swap_steps]. rewrite E1. cbn [bind].
    assert (EV' : forall x y z, In (x, y, z) evs -> exists m s rm, x = Z.of_nat m /\ z = Z.of_nat s /\ nth_error rows m = Some rm /\ y = nxt rm /\ splits_from rows m s).
    { intros x y z H. apply EV. right. auto. }
    assert (UN' : forall p q e f, p < q -> nth_error evs p = Some e -> nth_error evs q = Some f -> snd e <> snd f).
    { intros p q e f L P Q. apply (UN (S p) (S q)); auto. lia. }
    assert (FRESH : forall x y, ~ In (x, y, Z.of_nat s) evs).
    { intros x y H. apply In_nth_error in H as [q Q]. apply (UN 0 (S q) (Z.of_nat m, nxt rm, Z.of_nat s) (x, y, Z.of_nat s)); auto. lia. }
    destruct CASE as [[-> NA]|(AS & SMN & SGM & EX)].
    + destruct (IH c done LC OK) as (c' & E' & L' & R').
      { intros a b D. destruct (DN a b D) as [A B]. split; [auto|]. intros u v H. apply (B u v). right. auto. }
      { auto. } { auto. }
      exists c'. split; [auto|]. split; [auto|]. intros k K. destruct (R' k K) as [(a & b & A & B)|[(a & b & A & B)|(A & B)]]; [left|right; left|right; right].
      * exists a, b. split; [|auto]. destruct A as [A|(A & w & W)]; [auto|right]. split; [auto|]. exists w. right. auto.
      * exists a, b. split; [|auto]. destruct A as [A|(A & w & W)]; [auto|right]. split; [auto|]. exists w. right. auto.
      * split; [|auto]. intros a b [X|(X & w & [W|W])]; [apply A; auto| |apply A; right; split; [auto|eauto]].
        injection W as W1 _ W2. apply Nat2Z.inj in W1, W2. subst. contradiction.
    + set (done1 := fun a b => done a b \/ (a = m /\ b = s)).
      assert (NOM : nth m c 0 = segment (nth m rows row0)).
      { destruct (OK m MN) as [(a & b & D & S1 & L & _)|[(a & b & D & S1 & _)|(_ & B)]]; [| |exact B]; exfalso; destruct (DN a b D) as [A B].
        - apply (B (Z.of_nat m) (nxt rm)). left. destruct (AL m s a b AS A) as [<- <-]; auto. left. apply same_sg; [auto| |auto]. destruct A as (r & _ & _ & _ & _ & _ & _ & A & _). eapply nth_error_Some_lt; eauto.
        - apply (B (Z.of_nat m) (nxt rm)). left. destruct (AL m s a b AS A) as [<- <-]; auto. right. left. apply same_sg; [auto| |auto]. destruct A as (r & r1 & r2 & _ & _ & _ & _ & _ & _ & A & _). eapply nth_error_Some_lt; eauto. }
      assert (NOS : nth s c 0 = segment (nth s rows row0)).
      { destruct (OK s SN) as [(a & b & D & S1 & L & _)|[(a & b & D & S1 & _)|(_ & B)]]; [| |exact B]; exfalso; destruct (DN a b D) as [A B].
        - apply (B (Z.of_nat m) (nxt rm)). left. destruct (AL m s a b AS A) as [<- <-]; auto. right. right. left. apply same_sg; [auto| |auto]. destruct A as (r & _ & _ & _ & _ & _ & _ & A & _). eapply nth_error_Some_lt; eauto.
        - apply (B (Z.of_nat m) (nxt rm)). left. destruct (AL m s a b AS A) as [<- <-]; auto. right. right. right. apply same_sg; [auto| |auto]. destruct A as (r & r1 & r2 & _ & _ & _ & _ & _ & _ & A & _). eapply nth_error_Some_lt; eauto. }
      destruct (IH c1 done1 LC1) as (c' & E' & L' & R').
      { intros k K. rewrite (EX k K). unfold exchange. destruct ((sgf k =? sgf m) && (m <? k)) eqn:F.
        - apply andb_true_iff in F as [F1 F2]. apply Nat.eqb_eq in F1. apply Nat.ltb_lt in F2. left. exists m, s. split; [right; auto|]. auto.
        - destruct (Nat.eqb_spec (sgf k) (sgf s)) as [G|G]; [right; left; exists m, s; split; [right; auto|auto]|].
          destruct (OK k K) as [(a & b & A & B)|[(a & b & A & B)|(A & B)]]; [left|right; left|right; right].
          + exists a, b. split; [left; auto|auto].
          + exists a, b. split; [left; auto|auto].
          + split; [|auto]. intros a b [X|[-> ->]]; [apply A; auto|]. split; [|auto]. intros [X Y]. apply Nat.eqb_eq in X. apply Nat.ltb_lt in Y. rewrite X, Y in F. discriminate F. }
      { intros a b [D|[-> ->]]; [|split; auto]. destruct (DN a b D) as [A B]. split; [auto|]. intros u v H. apply (B u v). right. auto. }
      { auto. } { auto. }
      assert (ST : forall a b, (done1 a b \/ (asked a b /\ exists w, In (Z.of_nat a, w, Z.of_nat b) evs)) <-> (done a b \/ (asked a b /\ exists w, In (Z.of_nat a, w, Z.of_nat b) ((Z.of_nat m, nxt rm, Z.of_nat s) :: evs)))).
      { intros a b. split.
        - intros [[D|[-> ->]]|(A & w & W)]; [auto|right; split; [auto|exists (nxt rm); left; auto]|right; split; [auto|exists w; right; auto]].
        - intros [D|(A & w & [W|W])]; [left; left; auto| |right; eauto]. injection W as W1 _ W2. apply Nat2Z.inj in W1, W2. left. right. auto. }
      exists c'. split; [auto|]. split; [auto|]. intros k K. destruct (R' k K) as [(a & b & A & B)|[(a & b & A & B)|(A & B)]]; [left|right; left|right; right].
      * exists a, b. split; [apply ST; auto|auto].
      * exists a, b. split; [apply ST; auto|auto].
      * split; [|auto]. intros a b X. apply ST in X. apply A; auto.
Qed.
End Swaps.
