(** Proofs on the selection of networks by number and by duration, and on the
    links of inserted rows. *)
From Coq Require Import List Arith ZArith Bool Lia Permutation.
From Verif Require Import Base Sort Generic_model Generic_proofs Spec Corr_model Corr_proofs Corr_more Solver_proofs TrackObs_more Obs_spec Obs_model NetGroup_model NetGroup_more
  Net_model Net_spec Net_sort Net_links Net_reach NetSeg_model NetSeg_spec NetSeg_proofs NetSeg_dead NetEvt_model NetEvt_spec NetEvt_proofs NetEvt_more.
Import ListNotations.
Local Open Scope nat_scope.

Lemma mask_from_ids_spec : forall first last i0 ids m, length last = length first ->
  (forall z, In z ids -> (i0 <= z < i0 + Z.of_nat (length first))%Z) ->
  exists m', mask_from_ids ids first last i0 m = Some m' /\ length m' = length m /\
    forall k, k < length m -> (nth_error m' k = Some true <-> nth_error m k = Some true \/
      exists i a b, In (i0 + Z.of_nat i)%Z ids /\ nth_error first i = Some a /\ nth_error last i = Some b /\ a <= k < b).
Proof.
  intros first last i0 ids. induction ids as [|z ids IH]; intros m LL B.
  - exists m. split; [reflexivity|]. split; [auto|]. intros k K. split; [auto|]. intros [H|(i & a & b & [] & _)]; auto.
  - cbn [mask_from_ids]. pose proof (B z (or_introl eq_refl)) as BZ. set (i := Z.to_nat (z - i0)).
    assert (EI : (z - i0)%Z = Z.of_nat i) by (unfold i; lia). assert (I : i < length first) by (unfold i; lia).
    rewrite (pyget_nat first _ i EI I), (pyget_nat last _ i EI) by lia.
    destruct (nth_error_lt_Some first i I) as [a A]. destruct (nth_error_lt_Some last i) as [b Hb]; [lia|]. rewrite A, Hb. cbn [bind].
    destruct (IH (fill m a b true) LL) as (m' & E & L & N); [intros; apply B; right; auto|].
    rewrite length_fill in L. exists m'. split; [auto|]. split; [auto|]. intros k K. rewrite N by (rewrite length_fill; auto). rewrite nth_fill by auto.
    assert (ZI : (i0 + Z.of_nat i)%Z = z) by lia.
    split.
    + intros [H|(j & a' & b' & J & X)].
      * destruct (Nat.leb_spec a k), (Nat.ltb_spec k b); cbn [andb] in H; auto. right. exists i, a, b. split; [left; auto|auto].
      * right. exists j, a', b'. split; [right; auto|auto].
    + intros [H|(j & a' & b' & [J|J] & X & Y & Z)].
      * left. destruct ((a <=? k) && (k <? b)); auto.
      * left. assert (j = i) by lia. subst j. rewrite A in X. rewrite Hb in Y. apply Some_inj in X, Y. subst a' b'.
        destruct (Nat.leb_spec a k), (Nat.ltb_spec k b); cbn [andb]; auto; lia.
      * right. exists j, a', b'. auto.
Qed.

Lemma false_mask : forall n k, nth_error (repeat false n) k <> Some true.
Proof. intros n k H. rewrite nth_error_repeat_lt in H. destruct (k <? n); discriminate. Qed.

Lemma tracks_zsorted : forall rows, segment_sorted rows -> zsorted (map (fun r => Z.of_nat (track r)) rows).
Proof.
  intros rows SS i j a b L A B. apply col_nth in A as (ra & A & <-). apply col_nth in B as (rb & B & <-).
  destruct (SS i j ra rb L A B) as [H|[H _]]; lia.
Qed.

Theorem networks_mask_spec : forall rows ids, rows <> [] -> segment_sorted rows ->
  (forall z, In z ids -> exists a b, In a rows /\ In b rows /\ (Z.of_nat (track a) <= z <= Z.of_nat (track b))%Z) ->
  exists m, networks_mask false rows ids = Some m /\ length m = length rows /\
    forall k r, nth_error rows k = Some r -> (nth_error m k = Some true <-> In (Z.of_nat (track r)) ids).
Proof.
  intros rows ids NE SS B. set (g := map (fun r => Z.of_nat (track r)) rows).
  assert (NG : g <> []) by (unfold g; destruct rows; [congruence|discriminate]).
  destruct (build_index_tile g NG (tracks_zsorted rows SS)) as (first & last & i0 & E & LL & I0 & RG & TILE & _).
  unfold networks_mask. fold g. rewrite E. cbn [bind].
  assert (TR : forall r, In r rows -> (i0 <= Z.of_nat (track r) < i0 + Z.of_nat (length first))%Z).
  { intros r H. apply RG. unfold g. apply in_map_iff. eauto. }
  destruct (mask_from_ids_spec first last i0 ids (repeat false (length rows)) LL) as (m & EM & LM & N).
  { intros z H. destruct (B z H) as (a & b & A & B' & R). apply TR in A. apply TR in B'. lia. }
  exists m. rewrite repeat_length in *. split; [auto|]. split; [auto|]. intros k r K.
  assert (KL : k < length rows) by (eapply nth_error_Some_lt; eauto). rewrite N by auto.
  assert (GK : nth_error g k = Some (Z.of_nat (track r))) by (unfold g; rewrite nth_error_map, K; auto). split.
  - intros [H|(i & a & b & I & A & B' & R)]; [exfalso; eapply false_mask; eauto|].
    destruct (TILE i a b A B') as [_ T]. apply T in R. rewrite GK in R. apply Some_inj in R. rewrite R. auto.
  - intros I. right. pose proof (TR r (nth_error_In _ _ K)) as RB. set (i := Z.to_nat (Z.of_nat (track r) - i0)).
    assert (EI : (i0 + Z.of_nat i)%Z = Z.of_nat (track r)) by (unfold i; lia).
    destruct (nth_error_lt_Some first i) as [a A]; [unfold i; lia|]. destruct (nth_error_lt_Some last i) as [b Hb]; [rewrite LL; unfold i; lia|].
    exists i, a, b. rewrite EI. split; [auto|]. split; [auto|]. split; [auto|]. destruct (TILE i a b A Hb) as [_ T]. apply T. rewrite EI. auto.
Qed.

(** ** Durations *)
Lemma fold_max_spec : forall l x, (In (fold_left Z.max l x) (x :: l)) /\ forall y, In y (x :: l) -> (y <= fold_left Z.max l x)%Z.
Proof.
  induction l as [|a l IH]; intros x; cbn [fold_left].
  - split; [left; auto|]. intros y [->|[]]. lia.
  - destruct (IH (Z.max x a)) as [I M]. split.
    + destruct I as [I|I]; [|right; right; auto]. rewrite <- I. destruct (Z.max_spec x a) as [[_ ->]|[_ ->]]; [right; left; auto|left; auto].
    + intros y [->|[->|H]]; [pose proof (M _ (or_introl eq_refl)); lia|pose proof (M _ (or_introl eq_refl)); lia|apply M; right; auto].
Qed.
Lemma fold_min_spec : forall l x, (In (fold_left Z.min l x) (x :: l)) /\ forall y, In y (x :: l) -> (fold_left Z.min l x <= y)%Z.
Proof.
  induction l as [|a l IH]; intros x; cbn [fold_left].
  - split; [left; auto|]. intros y [->|[]]. lia.
  - destruct (IH (Z.min x a)) as [I M]. split.
    + destruct I as [I|I]; [|right; right; auto]. rewrite <- I. destruct (Z.min_spec x a) as [[_ ->]|[_ ->]]; [left; auto|right; left; auto].
    + intros y [->|[->|H]]; [pose proof (M _ (or_introl eq_refl)); lia|pose proof (M _ (or_introl eq_refl)); lia|apply M; right; auto].
Qed.
Lemma ptp_spec : forall l, l <> [] -> exists lo hi, ptp l = Some (hi - lo)%Z /\ In lo l /\ In hi l /\ forall y, In y l -> (lo <= y <= hi)%Z.
Proof.
  intros [|x l] H; [congruence|]. destruct (fold_min_spec l x) as [I1 M1]. destruct (fold_max_spec l x) as [I2 M2].
  exists (fold_left Z.min l x), (fold_left Z.max l x). split; [reflexivity|]. split; [auto|]. split; [auto|]. intros y Y. split; auto.
Qed.
Lemma In_slice : forall {A} (l : list A) a b x, In x (slice l a b) <-> exists k, a <= k < b /\ nth_error l k = Some x.
Proof.
  intros A l a b x. split.
  - intros H. apply In_nth_error in H as [k K]. rewrite nth_slice in K. destruct (Nat.ltb_spec k (b - a)); [|discriminate]. exists (a + k). split; [lia|auto].
  - intros (k & R & K). apply nth_error_In with (k - a). rewrite nth_slice. destruct (Nat.ltb_spec (k - a) (b - a)); [|lia]. replace (a + (k - a)) with k by lia. auto.
Qed.

Lemma longer_slices_spec : forall time mn mx slices m, length m = length time ->
  (forall a b s, In (a, b, s) slices -> a < b /\ b <= length time) ->
  exists m', longer_slices time mn mx slices m = Some m' /\ length m' = length m /\
    forall k, k < length m -> (nth_error m' k = Some true <-> nth_error m k = Some true \/
      exists a b s lo hi, In (a, b, s) slices /\ a <= k < b /\ In lo (slice time a b) /\ In hi (slice time a b) /\
        (forall y, In y (slice time a b) -> (lo <= y <= hi)%Z) /\ (mn <= hi - lo + 1 <= mx)%Z).
Proof.
  intros time mn mx. induction slices as [|[[a b] s] sl IH]; intros m LM B.
  - exists m. split; [reflexivity|]. split; [auto|]. intros k K. split; [auto|]. intros [H|(a & b & s & lo & hi & [] & _)]; auto.
  - cbn [longer_slices]. destruct (B a b s (or_introl eq_refl)) as [AB BL]. destruct (Nat.eqb_spec (b - a) 0); [lia|].
    assert (NE : slice time a b <> []).
    { intros H. assert (X : In (nth a time 0%Z) (slice time a b)); [|rewrite H in X; destruct X]. apply In_slice. exists a. split; [lia|]. apply nth_error_nth'. lia. }
    destruct (ptp_spec _ NE) as (lo & hi & EP & ILO & IHI & M). rewrite EP. cbn [bind].
    set (m1 := if ((mn <=? hi - lo + 1) && (hi - lo + 1 <=? mx))%Z then fill m a b true else m).
    assert (L1 : length m1 = length m) by (unfold m1; destruct (_ && _)%Z; [apply length_fill|auto]).
    destruct (IH m1) as (m' & E & L & N); [lia|intros; apply (B a0 b0 s0); right; auto|].
    exists m'. split; [auto|]. split; [lia|]. intros k K. rewrite N by lia.
    assert (C : nth_error m1 k = Some true <-> nth_error m k = Some true \/ (a <= k < b /\ (mn <= hi - lo + 1 <= mx)%Z)).
    { unfold m1. destruct (Z.leb_spec mn (hi - lo + 1)), (Z.leb_spec (hi - lo + 1) mx); cbn [andb]; try (split; [auto|intros [H'|[_ H']]; [auto|lia]]).
      rewrite nth_fill by auto. destruct (Nat.leb_spec a k), (Nat.ltb_spec k b); cbn [andb]; split; intros H'; auto; try (destruct H' as [H'|[H' _]]; [auto|lia]). }
    rewrite C. split.
    + intros [[H|[H1 H2]]|(a' & b' & s' & lo' & hi' & I & R)]; [auto| |].
      * right. exists a, b, s, lo, hi. split; [left; auto|]. auto.
      * right. exists a', b', s', lo', hi'. split; [right; auto|auto].
    + intros [H|(a' & b' & s' & lo' & hi' & [I|I] & R & I1 & I2 & M' & D)]; [auto| |].
      * injection I as <- <- <-. left. right. split; [auto|]. pose proof (M _ I1). pose proof (M _ I2). pose proof (M' _ ILO). pose proof (M' _ IHI). lia.
      * right. exists a', b', s', lo', hi'. auto 10.
Qed.

Theorem longer_spec : forall rows mn mx, rows <> [] -> segment_sorted rows ->
  exists m, mask_longer_than mn mx rows = Some m /\ length m = length rows /\
    forall k r, nth_error rows k = Some r -> (nth_error m k = Some true <->
      exists a b, In a rows /\ In b rows /\ track a = track r /\ track b = track r /\
        (forall c, In c rows -> track c = track r -> (time a <= time c <= time b)%Z) /\
        (mn <= time b - time a + 1)%Z /\ (time b - time a + 1 <= if mx <? 0 then 1000000000000 else mx)%Z).
Proof.
  intros rows mn mx NE SS. unfold mask_longer_than. destruct (slices_spec (map track rows)) as (sl & E & S1 & S2 & S3).
  { destruct rows; [congruence|discriminate]. }
  { intros i j a b L A B. apply col_nth in A as (ra & A & <-). apply col_nth in B as (rb & B & <-). destruct (SS i j ra rb L A B) as [H|[H _]]; lia. }
  rewrite E. cbn [bind]. set (bound := (if mx <? 0 then 1000000000000 else mx)%Z).
  assert (BD : forall a b s, In (a, b, s) sl -> a < b /\ b <= length rows).
  { intros a b s H. destruct (S1 a b s H) as [AB R]. split; [auto|]. assert (X : nth_error (map track rows) (b - 1) = Some s) by (apply R; lia).
    apply nth_error_Some_lt in X. rewrite map_length in X. lia. }
  destruct (longer_slices_spec (map time rows) mn bound sl (repeat false (length rows))) as (m & EM & LM & N).
  { rewrite repeat_length, map_length. auto. } { intros a b s H. rewrite map_length. eauto. }
  rewrite repeat_length in *. exists m. split; [auto|]. split; [auto|]. intros k r K. assert (KL : k < length rows) by (eapply nth_error_Some_lt; eauto).
  rewrite N by auto.
  assert (SLI : forall a b y, In y (slice (map time rows) a b) <-> exists j c, a <= j < b /\ nth_error rows j = Some c /\ time c = y).
  { intros a b y. rewrite In_slice. split; [intros (j & R & J); apply col_nth in J as (c & C & <-); eauto|]. intros (j & c & R & C & <-). exists j. split; [auto|]. rewrite nth_error_map, C. auto. }
  assert (TK : nth_error (map track rows) k = Some (track r)) by (rewrite nth_error_map, K; auto).
  split.
  - intros [H|(a & b & s & lo & hi & I & R & I1 & I2 & M & D)]; [exfalso; eapply false_mask; eauto|].
    destruct (S1 a b s I) as [AB RS]. apply RS in R. rewrite TK in R. apply Some_inj in R. subst s.
    apply SLI in I1 as (j1 & c1 & R1 & C1 & <-). apply SLI in I2 as (j2 & c2 & R2 & C2 & <-).
    apply RS in R1. apply RS in R2. rewrite nth_error_map, C1 in R1. rewrite nth_error_map, C2 in R2. simpl in R1, R2. apply Some_inj in R1, R2.
    exists c1, c2. split; [eapply nth_error_In; eauto|]. split; [eapply nth_error_In; eauto|]. split; [auto|]. split; [auto|]. split; [|lia].
    intros c HC T. apply M. apply SLI. apply In_nth_error in HC as [j J]. exists j, c. split; [|auto]. apply RS. rewrite nth_error_map, J. simpl. congruence.
  - intros (ra & rb & IA & IB & TA & TB & M & D1 & D2). right. destruct (S2 k (track r) TK) as (a & b & I). destruct (S1 a b _ I) as [AB RS].
    assert (ROW : forall c, In c rows -> track c = track r -> In (time c) (slice (map time rows) a b)).
    { intros c HC T. apply SLI. apply In_nth_error in HC as [j J]. exists j, c. split; [|auto]. apply RS. rewrite nth_error_map, J. simpl. congruence. }
    exists a, b, (track r), (time ra), (time rb). split; [auto|]. split; [apply RS; auto|]. split; [apply ROW; auto|]. split; [apply ROW; auto|]. split; [|unfold bound; lia].
    intros y Y. apply SLI in Y as (j & c & R & C & <-). apply M; [eapply nth_error_In; eauto|]. apply RS in R. rewrite nth_error_map, C in R. simpl in R. apply Some_inj in R. auto.
Qed.

(** ** Links of inserted rows *)
Lemma pystore_nat : forall {A} (l : list A) z n v, z = Z.of_nat n -> n < length l -> pystore l z v = Some (upd l n v).
Proof.
  intros A l z n v -> L. unfold pystore, pyidx. destruct (Z.leb_spec 0 (Z.of_nat n)) as [H|H]; [|lia].
  destruct (Z.ltb_spec (Z.of_nat n) (Z.of_nat (length l))) as [H'|H']; [|lia]. rewrite Nat2Z.id. cbn [bind andb]. unfold store.
  destruct (Nat.ltb_spec n (length l)); [auto|lia].
Qed.
Theorem fix_links_spec : forall flags i next previous n, length next = n -> length previous = n -> 
  i + length flags <= n -> (forall k, nth_error flags k = Some true -> 0 < i + k /\ i + k + 1 < n) ->
  exists next' previous', fix_links i flags next previous = Some (next', previous') /\ length next' = n /\ length previous' = n /\
    (forall k, (forall j, nth_error flags j = Some true -> i + j <> k /\ i + j <> k + 1) -> nth_error next' k = nth_error next k) /\
    (forall k j, nth_error flags j = Some true -> i + j = k \/ i + j = k + 1 -> nth_error next' k = Some (Z.of_nat k + 1)%Z) /\
    (forall k, (forall j, nth_error flags j = Some true -> i + j <> k /\ i + j + 1 <> k) -> nth_error previous' k = nth_error previous k) /\
    (forall k j, nth_error flags j = Some true -> i + j = k \/ i + j + 1 = k -> nth_error previous' k = Some (Z.of_nat k - 1)%Z).
Proof.
  induction flags as [|f flags IH]; intros i next previous n LN LP LF B.
  - exists next, previous. split; [reflexivity|]. split; [auto|]. split; [auto|]. split; [auto|]. split; [intros k [|j] H; discriminate|]. split; [auto|]. intros k [|j] H; discriminate.
  - assert (B' : forall k, nth_error flags k = Some true -> 0 < S i + k /\ S i + k + 1 < n) by (intros k H; specialize (B (S k) H); lia).
    cbn [length] in LF. destruct f; cbn [fix_links].
    + destruct (B 0 eq_refl) as [B1 B2]. rewrite Nat.add_0_r in B1, B2.
      rewrite (pystore_nat next _ (i - 1)) by lia. cbn [bind].
      rewrite (pystore_nat (upd next (i - 1) (Z.of_nat i)) _ i) by (rewrite ?length_upd; lia). cbn [bind].
      rewrite (pystore_nat previous _ i) by lia. cbn [bind].
      rewrite (pystore_nat (upd previous i _) _ (S i)) by (rewrite ?length_upd; lia). cbn [bind].
      destruct (IH (S i) (upd (upd next (i - 1) (Z.of_nat i)) i (Z.of_nat i + 1)%Z) (upd (upd previous i (Z.of_nat i - 1)%Z) (S i) (Z.of_nat i)) n)
        as (nx & pv & E & L1 & L2 & N1 & N2 & P1 & P2); try (rewrite !length_upd; auto); try lia; auto.
      exists nx, pv. split; [auto|]. split; [auto|]. split; [auto|].
      assert (DEC : forall q, (exists j, nth_error flags j = Some true /\ S i + j = q) \/ (forall j, nth_error flags j = Some true -> S i + j <> q)).
      { intros q. destruct (le_lt_dec (S i) q) as [G|G]; [|right; intros; lia]. destruct (nth_error flags (q - S i)) as [[]|] eqn:Q.
        - left. exists (q - S i). split; [auto|lia].
        - right. intros j J EQ. replace (q - S i) with j in Q by lia. congruence.
        - right. intros j J EQ. replace (q - S i) with j in Q by lia. congruence. }
      split; [|split; [|split]].
      * intros k H. rewrite N1.
        -- destruct (H 0 eq_refl) as [X Y]. rewrite Nat.add_0_r in X, Y. rewrite nth_error_upd_neq by lia. rewrite nth_error_upd_neq by lia. auto.
        -- intros j J. specialize (H (S j) J). lia.
      * intros k j J EQ. destruct (DEC k) as [(q & Q & Q')|NK]; [apply (N2 k q Q); auto|]. destruct (DEC (k + 1)) as [(q & Q & Q')|NK1]; [apply (N2 k q Q); auto|].
        rewrite N1 by (intros q Q; split; [apply NK; auto|apply NK1; auto]). destruct j as [|j].
        -- destruct EQ as [EQ|EQ]; rewrite Nat.add_0_r in EQ.
           ++ subst k. rewrite nth_error_upd_eq by (rewrite length_upd; lia). auto.
           ++ rewrite nth_error_upd_neq by lia. assert (k = i - 1) by lia. subst k. rewrite nth_error_upd_eq by lia. f_equal. lia.
        -- simpl in J. exfalso. destruct EQ as [EQ|EQ]; [apply (NK j J); lia|apply (NK1 j J); lia].
      * intros k H. rewrite P1.
        -- destruct (H 0 eq_refl) as [X Y]. rewrite Nat.add_0_r in X, Y. rewrite nth_error_upd_neq by lia. rewrite nth_error_upd_neq by lia. auto.
        -- intros j J. specialize (H (S j) J). lia.
      * intros k j J EQ. destruct (DEC k) as [(q & Q & Q')|NK]; [apply (P2 k q Q); auto|].
        destruct (Nat.eq_dec k 0) as [K0|K0]; [lia|].
        destruct (DEC (k - 1)) as [(q & Q & Q')|NK1]; [apply (P2 k q Q); lia|].
        rewrite P1 by (intros q Q; split; [apply NK; auto|specialize (NK1 q Q); lia]). destruct j as [|j].
        -- destruct EQ as [EQ|EQ]; rewrite Nat.add_0_r in EQ.
           ++ subst k. rewrite nth_error_upd_neq by lia. rewrite nth_error_upd_eq by lia. auto.
           ++ replace k with (S i) by lia. rewrite nth_error_upd_eq by (rewrite length_upd; lia). f_equal. lia.
        -- simpl in J. exfalso. destruct EQ as [EQ|EQ]; [apply (NK j J); lia|apply (NK1 j J); lia].
    + destruct (IH (S i) next previous n LN LP ltac:(lia) B') as (nx & pv & E & L1 & L2 & N1 & N2 & P1 & P2).
      exists nx, pv. split; [auto|]. split; [auto|]. split; [auto|]. split; [|split; [|split]].
      * intros k H. apply N1. intros j J. specialize (H (S j) J). lia.
      * intros k [|j] J EQ; [discriminate|]. apply (N2 k j J). lia.
      * intros k H. apply P1. intros j J. specialize (H (S j) J). lia.
      * intros k [|j] J EQ; [discriminate|]. apply (P2 k j J). lia.
Qed.

(** ** Unique segment numbers *)
Theorem segments_mask_spec : forall rows seg ids, rows <> [] -> segment_sorted rows -> segment_track_array rows = Some seg ->
  (forall z, In z ids -> exists s, In s seg /\ z = Z.of_nat s) ->
  exists m, networks_mask true rows ids = Some m /\ length m = length rows /\
    forall k s, nth_error seg k = Some s -> (nth_error m k = Some true <-> In (Z.of_nat s) ids).
Proof.
  intros rows seg ids NE SS ES B. destruct (index_spec rows NE SS) as (seg' & first & last & EI & ES' & SF & LL & SL & FULL & PL & P).
  rewrite ES in ES'. apply Some_inj in ES'. subst seg'. pose proof SF as (LS & SO & SAME). pose proof SL as (S1 & S2 & S3).
  unfold networks_mask. rewrite EI. cbn [bind].
  destruct (mask_from_ids_spec first last 0 ids (repeat false (length rows)) LL) as (m & EM & LM & N).
  { intros z H. destruct (B z H) as (s & S & ->). apply In_nth_error in S as [k K]. assert (s < length first) by (apply FULL; eauto). lia. }
  rewrite repeat_length in *. exists m. split; [auto|]. split; [auto|]. intros k s K. rewrite N by (apply nth_error_Some_lt in K; lia). split.
  - intros [H|(i & a & b & I & A & Hb & R)]; [exfalso; eapply false_mask; eauto|].
    assert (T : In (a, b, i) (triples first last)) by (apply In_triples; auto). destruct (S1 a b i T) as [_ RW]. apply RW in R. rewrite K in R. apply Some_inj in R. subst i. auto.
  - intros I. right. assert (L : s < length first) by (apply FULL; eauto). destruct (nth_error_lt_Some first s L) as [a A]. destruct (nth_error_lt_Some last s) as [b Hb]; [lia|].
    exists s, a, b. split; [auto|]. split; [auto|]. split; [auto|]. assert (T : In (a, b, s) (triples first last)) by (apply In_triples; auto). destruct (S1 a b s T) as [_ RW]. apply RW. auto.
Qed.
