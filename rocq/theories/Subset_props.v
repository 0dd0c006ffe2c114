(** C106: the command which takes a part of a file of networks. *)
From Coq Require Import List Arith ZArith Bool Lia.
From Verif Require Import Base Net_model Net_spec Net_sort Net_links Net_props NetSeg_model NetEvt_model NetEvt_sel NetEvt_props Subset_model.
From Verif Require TrackObs_model TrackObs_spec TrackObs_props.
Import ListNotations.
Local Open Scope nat_scope.

(** Extractions one after the other. *)
Lemma moved_twice : forall ix1 ix2 old mid new, NoDup ix1 -> rows_moved ix1 old mid -> rows_moved ix2 mid new -> rows_moved (map (fun k => nth k ix1 0) ix2) old new.
Proof.
  intros ix1 ix2 old mid new ND [L1 M1] [L2 M2]. split; [rewrite map_length; exact L2|]. intros k i K. rewrite nth_error_map in K. destruct (nth_error ix2 k) as [m|] eqn:EK; [|discriminate K]. cbn in K. apply Some_inj in K.
  destruct (M2 k m EK) as (r' & r'' & R' & R'' & S2 & N2 & P2). assert (ML : m < length ix1) by (apply nth_error_Some_lt in R'; lia).
  assert (EM : nth_error ix1 m = Some i) by (rewrite <- K; apply nth_error_nth'; exact ML). destruct (M1 m i EM) as (r & r0 & R & R0 & S1 & N1 & P1). rewrite R' in R0. apply Some_inj in R0. subst r0.
  exists r, r''. split; [exact R|]. split; [exact R''|].
  assert (G : forall v v' v'', link_moved ix1 v v' -> link_moved ix2 v' v'' -> link_moved (map (fun k => nth k ix1 0) ix2) v v'').
  { intros v v' v'' [(k1 & j1 & A1 & A2 & A3)|[A1 A2]] [(k2 & j2 & B1 & B2 & B3)|[B1 B2]].
    - left. exists k2, j1. split; [|split; assumption]. rewrite nth_error_map, B1. cbn. f_equal. assert (j2 = k1) by lia. subst j2. apply nth_error_nth. exact A1.
    - right. split; [exact B1|]. intros j J E. apply in_map_iff in J as (q & Q1 & Q2). assert (j = j1) by lia. subst j j1. assert (Q : q = k1).
      { assert (QL : q < length ix1). { destruct (In_nth_error _ _ Q2) as [z Z]. destruct (M2 z q Z) as (x & _ & X & _). apply nth_error_Some_lt in X. lia. }
        refine (proj1 (NoDup_nth_error ix1) ND q k1 QL _). rewrite A1. apply nth_error_nth'. exact QL. }
      subst q. exact (B2 k1 Q2 A3).
    - lia.
    - right. split; [exact B1|]. intros j J E. apply in_map_iff in J as (q & Q1 & Q2). apply (A2 j); [|exact E]. subst j. apply nth_In. destruct (In_nth_error _ _ Q2) as [z Z]. destruct (M2 z q Z) as (x & _ & X & _). apply nth_error_Some_lt in X. lia. }
  split; [destruct S1 as (?&?&?&?), S2 as (?&?&?&?); repeat split; congruence|]. split; [exact (G _ _ _ N1 N2)|exact (G _ _ _ P1 P2)].
Qed.

(** [new] holds the rows of [old] which satisfy [P], in order, with the links between them. *)
Definition picks (P : nrow -> Prop) (old new : list nrow) : Prop :=
  exists ix, incr ix /\ rows_moved ix old new /\ forall k r, nth_error old k = Some r -> (In k ix <-> P r).
Definition content (P : nrow -> Prop) : Prop := forall r r', same_obs r r' -> (P r <-> P r').
Lemma same_sym : forall a b, same_obs a b -> same_obs b a.
Proof. intros a b (?&?&?&?). repeat split; congruence. Qed.
Lemma picks_ext : forall (P Q : nrow -> Prop) old new, (forall r, In r old -> (P r <-> Q r)) -> picks P old new -> picks Q old new.
Proof. intros P Q old new H (ix & I & M & N). exists ix. split; [exact I|]. split; [exact M|]. intros k r K. rewrite (N k r K). apply H. apply nth_error_In with k. exact K. Qed.
Lemma picks_from : forall P old new, picks P old new -> forall r', In r' new -> exists r, In r old /\ same_obs r r' /\ P r.
Proof.
  intros P old new (ix & I & (L & M) & N) r' R'. apply In_nth_error in R' as [k K]. destruct (nth_error_lt_Some ix k) as [i EI]; [apply nth_error_Some_lt in K; lia|]. destruct (M k i EI) as (r & r0 & R & R0 & SO & _). rewrite K in R0. apply Some_inj in R0. subst r0.
  exists r. split; [apply nth_error_In with i; exact R|]. split; [exact SO|]. apply (N i r R). apply nth_error_In with k. exact EI.
Qed.
Lemma picks_to : forall P old new, picks P old new -> forall r, In r old -> P r -> exists r', In r' new /\ same_obs r r'.
Proof.
  intros P old new (ix & I & (L & M) & N) r R PR. apply In_nth_error in R as [i EI]. assert (J : In i ix) by (apply (N i r EI); exact PR). apply In_nth_error in J as [k K]. destruct (M k i K) as (r0 & r' & R0 & R' & SO & _). rewrite EI in R0. apply Some_inj in R0. subst r0. exists r'. split; [apply nth_error_In with k; exact R'|exact SO].
Qed.
Lemma picks_links : forall P old new, picks P old new -> links_ok new.
Proof. intros P old new (ix & I & M & N). exact (moved_links_ok ix old new M). Qed.
Lemma picks_sorted : forall P old new, segment_sorted old -> picks P old new -> segment_sorted new.
Proof.
  intros P old new SS (ix & I & (L & M) & N) i j a b IJ A B. destruct (nth_error_lt_Some ix i) as [p EP]; [apply nth_error_Some_lt in A; lia|]. destruct (nth_error_lt_Some ix j) as [q EQ]; [apply nth_error_Some_lt in B; lia|].
  destruct (M i p EP) as (r & r1 & R & R1 & (S1 & S2 & _) & _). destruct (M j q EQ) as (r2 & r3 & R2 & R3 & (T1 & T2 & _) & _). rewrite A in R1. rewrite B in R3. apply Some_inj in R1, R3. subst r1 r3. rewrite <- S1, <- S2, <- T1, <- T2. exact (SS p q r r2 (incr_nth ix I i j p q IJ EP EQ) R R2).
Qed.
Lemma picks_all : forall rows, links_ok rows -> picks (fun _ => True) rows rows.
Proof.
  intros rows LK. destruct (C38_extract_with_mask rows (repeat true (length rows)) LK (repeat_length _ _)) as (ix & new & E & I & W & M & _). assert (IX : ix = seq 0 (length rows)).
  { apply incr_ext; [exact I| |].
    - clear. generalize 0. induction (length rows) as [|n IH]; intros k; [constructor|]. cbn [seq]. constructor; [intros b B; apply in_seq in B; lia|apply IH].
    - intros x. rewrite W, in_seq, nth_error_repeat_lt. destruct (Nat.ltb_spec x (length rows)); split; intros Q; try lia; try reflexivity; discriminate Q. }
  subst ix. exists (seq 0 (length rows)). split; [exact I|]. split.
  - split; [rewrite seq_length; reflexivity|]. intros k i K. rewrite nth_error_seq in K. destruct (Nat.ltb_spec k (length rows)) as [Q|Q]; [|discriminate K]. apply Some_inj in K. cbn in K. subst i. destruct (nth_error_lt_Some rows k Q) as [r R]. exists r, r. split; [exact R|]. split; [exact R|]. split; [repeat split|].
    assert (G : forall v, link_ok (length rows) v -> link_moved (seq 0 (length rows)) v v).
    { intros v V. unfold link_ok in V. destruct (Z.eq_dec v (-1)) as [->|NV]; [right; split; [reflexivity|]; intros j _; lia|]. left. exists (Z.to_nat v), (Z.to_nat v). rewrite nth_error_seq. destruct (Nat.ltb_spec (Z.to_nat v) (length rows)); [|lia]. split; [reflexivity|]. lia. }
    destruct (LK r (nth_error_In _ _ R)) as [A B]. split; [exact (G _ A)|exact (G _ B)].
  - intros k r K. rewrite in_seq. apply nth_error_Some_lt in K. split; [tauto|lia].
Qed.
Lemma picks_trans : forall (P Q : nrow -> Prop) old mid new, content Q -> picks P old mid -> picks Q mid new -> picks (fun r => P r /\ Q r) old new.
Proof.
  intros P Q old mid new CQ (ix1 & I1 & M1 & N1) (ix2 & I2 & M2 & N2). exists (map (fun k => nth k ix1 0) ix2). assert (B2 : forall m, In m ix2 -> m < length ix1).
  { intros m H. destruct (In_nth_error _ _ H) as [z Z]. destruct M2 as [L2 M2]. destruct (M2 z m Z) as (x & _ & X & _). apply nth_error_Some_lt in X. destruct M1 as [L1 _]. lia. }
  split; [|split].
  - clear N2 M2. induction I2 as [|a l H I2 IH]; [constructor|]. cbn [map]. constructor; [|apply IH; intros m J; apply B2; right; exact J]. intros b J. apply in_map_iff in J as (q & <- & J). apply (incr_nth ix1 I1 a q); [apply H; exact J| |]; apply nth_error_nth'; apply B2; [left; reflexivity|right; exact J].
  - exact (moved_twice ix1 ix2 old mid new (incr_NoDup _ I1) M1 M2).
  - intros k r K. rewrite <- (N1 k r K). destruct M1 as [L1 M1]. split.
    + intros J. apply in_map_iff in J as (q & E & J). pose proof (B2 q J) as QL. assert (EQ : nth_error ix1 q = Some k) by (rewrite <- E; apply nth_error_nth'; exact QL). split; [apply nth_error_In with q; exact EQ|]. destruct (M1 q k EQ) as (r0 & r' & R0 & R' & SO & _). rewrite K in R0. apply Some_inj in R0. subst r0. apply (CQ r r' SO). apply (N2 q r' R'). exact J.
    + intros [J QR]. apply In_nth_error in J as [q EQ]. destruct (M1 q k EQ) as (r0 & r' & R0 & R' & SO & _). rewrite K in R0. apply Some_inj in R0. subst r0. apply in_map_iff. exists q. split; [apply nth_error_nth; exact EQ|]. apply (N2 q r' R'). apply (CQ r r' SO). exact QR.
Qed.

(** ** The options *)
Definition with_ids (ids : option (list Z)) (r : nrow) : Prop := match ids with Some l => In (Z.of_nat (track r)) l | None => True end.
(** The network of [r] lasts at least and at most the days asked; a negative bound is not used (or 10^12 days). *)
Definition with_length (rows : list nrow) (length_ : option (Z * Z)) (r : nrow) : Prop :=
  match length_ with
  | Some (mn, mx) => exists a b, In a rows /\ In b rows /\ track a = track r /\ track b = track r /\
      (forall c, In c rows -> track c = track r -> (time a <= time c <= time b)%Z) /\
      (mn <= time b - time a + 1)%Z /\ (time b - time a + 1 <= if mx <? 0 then 1000000000000 else mx)%Z
  | None => True
  end.
(** Days below zero count from the first and the last days of the rows chosen so far. *)
Definition with_period (rows : list nrow) (chosen : nrow -> Prop) (period : option (Z * Z)) (r : nrow) : Prop :=
  match period with
  | Some (p0, p1) =>
      (0 < p0 -> p0 <= time r)%Z /\ (0 < p1 -> time r <= p1)%Z /\
      ((p0 < 0)%Z -> exists a, In a rows /\ chosen a /\ (forall c, In c rows -> chosen c -> (time a <= time c)%Z) /\ (time a + Z.abs p0 <= time r)%Z) /\
      ((p1 < 0)%Z -> exists b, In b rows /\ chosen b /\ (forall c, In c rows -> chosen c -> (time c <= time b)%Z) /\ (time r <= time b - Z.abs p1)%Z)
  | None => True
  end.
Lemma ids_content : forall ids, content (with_ids ids).
Proof. intros [l|] r r' (T & _); cbn; [rewrite T|]; tauto. Qed.
Lemma length_content : forall rows l, content (with_length rows l).
Proof. intros rows [[mn mx]|] r r' (T & _); cbn; [rewrite T|]; tauto. Qed.
Lemma period_content : forall rows ch p, content (with_period rows ch p).
Proof. intros rows ch [[p0 p1]|] r r' (_ & _ & T & _); cbn; [rewrite T|]; tauto. Qed.

Lemma ids_step : forall rows ids, rows <> [] -> segment_sorted rows -> links_ok rows ->
  (forall l z, ids = Some l -> In z l -> exists a b, In a rows /\ In b rows /\ (Z.of_nat (track a) <= z <= Z.of_nat (track b))%Z) ->
  exists new, option_step ids (fun l r => networks r l) rows = Some new /\ picks (with_ids ids) rows new.
Proof.
  intros rows [l|] NE SS LK B; cbn [option_step with_ids].
  - destruct (C75_networks rows l NE SS LK) as (ix & new & E & I & M & N); [intros z Z; exact (B l z eq_refl Z)|]. exists new. split; [exact E|]. exists ix. split; [exact I|]. split; assumption.
  - exists rows. split; [reflexivity|]. apply picks_all. exact LK.
Qed.
Lemma length_step : forall rows l, segment_sorted rows -> links_ok rows -> (l <> None -> rows <> []) ->
  exists new, option_step l (fun l r => longer_than (fst l) (snd l) r) rows = Some new /\ picks (with_length rows l) rows new.
Proof.
  intros rows [[mn mx]|] SS LK NE; cbn [option_step with_length fst snd].
  - destruct (C76_longer_than rows mn mx (NE ltac:(discriminate)) SS LK) as (ix & new & E & I & M & N). exists new. split; [exact E|]. exists ix. split; [exact I|]. split; assumption.
  - exists rows. split; [reflexivity|]. apply picks_all. exact LK.
Qed.
Lemma extreme : forall rows : list nrow, rows <> [] -> exists a b, In a rows /\ In b rows /\ forall c, In c rows -> (time a <= time c <= time b)%Z.
Proof.
  induction rows as [|x rows IH]; intros N; [congruence|]. destruct rows as [|y rows]; [exists x, x; split; [left; reflexivity|]; split; [left; reflexivity|]; intros c [->|[]]; lia|].
  destruct IH as (a & b & A & B & C); [discriminate|]. exists (if (time x <=? time a)%Z then x else a), (if (time b <=? time x)%Z then x else b).
  split; [destruct (time x <=? time a)%Z; [left; reflexivity|right; exact A]|]. split; [destruct (time b <=? time x)%Z; [left; reflexivity|right; exact B]|].
  pose proof (C a A) as CA. intros c [H|H]; [subst c|specialize (C c H)]; destruct (Z.leb_spec (time x) (time a)); destruct (Z.leb_spec (time b) (time x)); try lia.
Qed.
Lemma period_step : forall rows p, links_ok rows -> exists new, option_step p extract_with_period rows = Some new /\ picks (with_period rows (fun _ => True) p) rows new.
Proof.
  intros rows [[p0 p1]|] LK; cbn [option_step]; [|exists rows; split; [reflexivity|]; apply picks_all; exact LK]. unfold extract_with_period. cbn [fst snd].
  destruct rows as [|x rows'].
  - exists []. assert (E : TrackObs_model.period_mask (map time []) p0 p1 = []) by (unfold TrackObs_model.period_mask; cbn; destruct (0 <? p0)%Z, (p0 <? 0)%Z, (0 <? p1)%Z, (p1 <? 0)%Z; reflexivity). rewrite E. split; [reflexivity|]. exists []. split; [constructor|]. split; [split; [reflexivity|intros k i K; destruct k; discriminate K]|]. intros k r K. destruct k; discriminate K.
  - set (rows := x :: rows') in *. destruct (extreme rows ltac:(discriminate)) as (a & b & A & B & C).
    destruct (TrackObs_props.C50_period (map time rows) p0 p1 (time a) (time b)) as [LM MM].
    { split; [apply in_map; exact A|]. intros t T. apply in_map_iff in T as (c & <- & H). apply (C c H). }
    { split; [apply in_map; exact B|]. intros t T. apply in_map_iff in T as (c & <- & H). apply (C c H). }
    rewrite map_length in LM, MM. destruct (C38_extract_with_mask rows _ LK LM) as (ix & new & E & I & W & M & _). exists new. split; [exact E|]. exists ix. split; [exact I|]. split; [exact M|]. intros k r K. rewrite W, MM by (apply nth_error_Some_lt in K; exact K). rewrite nth_error_map, K. cbn [option_map with_period].
    split.
    + intros (t & T & Q). apply Some_inj in T. subst t. destruct Q as (Q1 & Q2 & Q3 & Q4). split; [exact Q1|]. split; [exact Q3|]. split; intros Z; [exists a|exists b]; (split; [assumption|]); (split; [exact Logic.I|]); (split; [intros c H _; apply (C c H)|]); [exact (Q2 Z)|exact (Q4 Z)].
    + intros (Q1 & Q2 & Q3 & Q4). exists (time r). split; [reflexivity|]. split; [exact Q1|]. split; [|split; [exact Q2|]].
      * intros Z. destruct (Q3 Z) as (a' & A' & _ & C' & H). pose proof (C' a A Logic.I). pose proof (C a' A'). lia.
      * intros Z. destruct (Q4 Z) as (b' & B' & _ & C' & H). pose proof (C' b B Logic.I). pose proof (C b' B'). lia.
Qed.
(** The file written holds exactly the rows of the networks asked for, which last as long as asked, on the period asked, with the links between them. *)
Theorem C106_subset : forall rows length_ trash ids period, rows <> [] -> segment_sorted rows -> links_ok rows ->
  (forall l z, ids = Some l -> In z l -> exists a b, In a rows /\ In b rows /\ (Z.of_nat (track a) <= z <= Z.of_nat (track b))%Z) ->
  (exists r, In r rows /\ with_ids ids r) ->
  exists ix new, subset_network length_ None trash ids period rows = Some new /\ incr ix /\ rows_moved ix rows new /\
    forall k r, nth_error rows k = Some r -> (In k ix <-> (with_ids ids r /\ with_length rows length_ r) /\ with_period rows (fun c => with_ids ids c /\ with_length rows length_ c) period r).
Proof.
  intros rows length_ trash ids period NE SS LK B (w & W & WI).
  destruct (ids_step rows ids NE SS LK B) as (r1 & E1 & P1). pose proof (picks_sorted _ _ _ SS P1) as SS1. pose proof (picks_links _ _ _ P1) as LK1.
  destruct (picks_to _ _ _ P1 w W WI) as (w' & W' & _). assert (NE1 : r1 <> []) by (intros ->; exact W').
  destruct (length_step r1 length_ SS1 LK1 ltac:(intros _; exact NE1)) as (r2 & E2 & P2). pose proof (picks_links _ _ _ P2) as LK2.
  destruct (period_step r2 period LK2) as (r3 & E3 & P3).
  assert (P12 : picks (fun r => with_ids ids r /\ with_length rows length_ r) rows r2).
  { apply (picks_ext (fun r => with_ids ids r /\ with_length r1 length_ r)); [|apply (picks_trans _ _ rows r1 r2); [apply length_content|exact P1|exact P2]].
    intros r R. destruct length_ as [[mn mx]|]; cbn [with_length]; [|tauto].
    assert (ID : forall c, with_ids ids r -> track c = track r -> with_ids ids c) by (intros c H T; destruct ids; cbn in *; [rewrite T|]; assumption).
    split; intros [HI (a & b & A & BB & TA & TB & H & D)]; (split; [exact HI|]).
    - destruct (picks_from _ _ _ P1 a A) as (a0 & A0 & (SA1 & _ & SA2 & _) & _). destruct (picks_from _ _ _ P1 b BB) as (b0 & B0 & (SB1 & _ & SB2 & _) & _). exists a0, b0. split; [exact A0|]. split; [exact B0|]. split; [congruence|]. split; [congruence|]. rewrite SA2, SB2. split; [|exact D].
      intros c C TC. destruct (picks_to _ _ _ P1 c C (ID c HI TC)) as (c' & C' & (SC1 & _ & SC2 & _)). rewrite SC2. apply (H c' C'). congruence.
    - destruct (picks_to _ _ _ P1 a A (ID a HI TA)) as (a0 & A0 & (SA1 & _ & SA2 & _)). destruct (picks_to _ _ _ P1 b BB (ID b HI TB)) as (b0 & B0 & (SB1 & _ & SB2 & _)). exists a0, b0. split; [exact A0|]. split; [exact B0|]. split; [congruence|]. split; [congruence|]. rewrite <- SA2, <- SB2. split; [|exact D].
      intros c C TC. destruct (picks_from _ _ _ P1 c C) as (c' & C' & (SC1 & _ & SC2 & _) & _). rewrite <- SC2. apply (H c' C'). congruence. }
  assert (P123 : picks (fun r => (with_ids ids r /\ with_length rows length_ r) /\ with_period rows (fun c => with_ids ids c /\ with_length rows length_ c) period r) rows r3).
  { apply (picks_ext (fun r => (with_ids ids r /\ with_length rows length_ r) /\ with_period r2 (fun _ => True) period r)); [|apply (picks_trans _ _ rows r2 r3); [apply period_content|exact P12|exact P3]].
    intros r R. destruct period as [[p0 p1]|]; cbn [with_period]; [|tauto].
    split; intros [HI (Q1 & Q2 & Q3 & Q4)]; (split; [exact HI|]); (split; [exact Q1|]); (split; [exact Q2|]); split; intros Z.
    - destruct (Q3 Z) as (a & A & _ & H & D). destruct (picks_from _ _ _ P12 a A) as (a0 & A0 & (_ & _ & SA & _) & CA). exists a0. split; [exact A0|]. split; [exact CA|]. rewrite SA. split; [|exact D]. intros c C CC. destruct (picks_to _ _ _ P12 c C CC) as (c' & C' & (_ & _ & SC & _)). rewrite SC. exact (H c' C' I).
    - destruct (Q4 Z) as (a & A & _ & H & D). destruct (picks_from _ _ _ P12 a A) as (a0 & A0 & (_ & _ & SA & _) & CA). exists a0. split; [exact A0|]. split; [exact CA|]. rewrite SA. split; [|exact D]. intros c C CC. destruct (picks_to _ _ _ P12 c C CC) as (c' & C' & (_ & _ & SC & _)). rewrite SC. exact (H c' C' I).
    - destruct (Q3 Z) as (a & A & CA & H & D). destruct (picks_to _ _ _ P12 a A CA) as (a0 & A0 & (_ & _ & SA & _)). exists a0. split; [exact A0|]. split; [exact I|]. rewrite <- SA. split; [|exact D]. intros c C _. destruct (picks_from _ _ _ P12 c C) as (c' & C' & (_ & _ & SC & _) & CC). rewrite <- SC. exact (H c' C' CC).
    - destruct (Q4 Z) as (a & A & CA & H & D). destruct (picks_to _ _ _ P12 a A CA) as (a0 & A0 & (_ & _ & SA & _)). exists a0. split; [exact A0|]. split; [exact I|]. rewrite <- SA. split; [|exact D]. intros c C _. destruct (picks_from _ _ _ P12 c C) as (c' & C' & (_ & _ & SC & _) & CC). rewrite <- SC. exact (H c' C' CC). }
  destruct P123 as (ix & IX & M & N). exists ix, r3. split; [|split; [exact IX|split; [exact M|exact N]]]. unfold subset_network. rewrite E1. cbn [bind]. rewrite E2. cbn [bind option_step]. exact E3.
Qed.
Print Assumptions C106_subset.
Example C106_subset_case : (example_nets <> [] /\ segment_sorted example_nets /\ links_ok example_nets) /\
  subset_network (Some (2, -1)%Z) None false (Some [6; 2; 3]%Z) (Some (0, -1)%Z) example_nets = Some [Row 2 1 0 1 (-1) [10]; Row 2 1 1 (-1) 0 [11]; Row 6 1 0 3 (-1) [30]; Row 6 2 3 (-1) 2 [31]]%Z.
Proof. split; [split; [discriminate|split; [apply sorted_checked; vm_compute; reflexivity|apply links_checked; vm_compute; reflexivity]]|vm_compute; reflexivity]. Qed.

(** The option which removes the dead ends makes the command fail, whatever the file; the one which removes the trash has no effect. *)
Theorem C106_dead_end_refuted : forall rows length_ d trash ids period, subset_network length_ (Some d) trash ids period rows = None.
Proof.
  intros rows length_ d trash ids period. unfold subset_network. destruct (option_step ids _ rows) as [r1|]; cbn [bind]; [|reflexivity]. destruct (option_step length_ _ r1) as [r2|]; cbn [bind]; [|reflexivity]. cbn [option_step]. destruct (remove_dead_end 0 (fst d) (snd d) None r2); reflexivity.
Qed.
Print Assumptions C106_dead_end_refuted.
Theorem C106_trash_refuted : exists rows, rows <> [] /\ segment_sorted rows /\ links_ok rows /\ subset_network None None true None None rows = Some rows /\ remove_trash rows <> Some rows /\ exists r, In r rows /\ track r = 0.
Proof.
  exists [Row 0 0 0 (-1) (-1) [7]; Row 1 1 0 2 (-1) [10]; Row 1 1 1 (-1) 1 [11]]%Z. split; [discriminate|]. split; [apply sorted_checked; vm_compute; reflexivity|]. split; [apply links_checked; vm_compute; reflexivity|]. split; [reflexivity|]. split; [vm_compute; discriminate|]. eexists. split; [left; reflexivity|reflexivity].
Qed.
Print Assumptions C106_trash_refuted.
