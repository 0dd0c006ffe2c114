(** Property C78: the network made from the result of split_network. *)
From Coq Require Import List Arith ZArith QArith Bool Lia Lqa Permutation.
From Verif Require Import Base Spec Qaux TrackObs_spec NetEvt_more Net_model Net_spec Net_props Split_model Split_spec Split_proofs Split_more Split_net Split_props.
Import ListNotations.
Local Close Scope Q_scope.
Local Open Scope nat_scope.

(** The links of a dataset split in segments, in terms of its rows.  [tracks]:
    group, [steps]: date, [seg]: number of the segment in the group. *)
Definition chained (window : Z) (tracks : list nat) (steps : list Z) (seg : list nat) (prev next : list (option nat)) : Prop :=
  (forall i j, nth_error next i = Some (Some j) -> exists g ti tj, g <> 0 /\ nth_error tracks i = Some g /\ nth_error tracks j = Some g /\
     nth_error steps i = Some ti /\ nth_error steps j = Some tj /\ (ti < tj <= ti + window)%Z) /\
  (forall i j, nth_error prev i = Some (Some j) -> exists g ti tj, g <> 0 /\ nth_error tracks i = Some g /\ nth_error tracks j = Some g /\
     nth_error steps i = Some ti /\ nth_error steps j = Some tj /\ (ti - window <= tj < ti)%Z) /\
  (forall a b g t, a < b -> g <> 0 -> nth_error tracks a = Some g -> nth_error tracks b = Some g -> nth_error seg a = Some t -> nth_error seg b = Some t ->
     (forall ta tb, nth_error steps a = Some ta -> nth_error steps b = Some tb -> (ta < tb)%Z) /\
     ((forall q, a < q < b -> nth_error seg q <> Some t) -> nth_error prev b = Some (Some a) /\ nth_error next a = Some (Some b))) /\
  (forall a b, nth_error prev b = Some (Some a) -> nth_error next a = Some (Some b) -> exists t, nth_error seg a = Some t /\ nth_error seg b = Some t).

Lemma slice_shift : forall {A} (l : list A) a b k, a <= k < b -> nth_error (slice l a b) (k - a) = nth_error l k.
Proof. intros A l a b k R. rewrite nth_slice. destruct (Nat.ltb_spec (k - a) (b - a)); [|lia]. f_equal. lia. Qed.

Theorem C78_links : forall meet overlap rnd window tracks time dt s times,
  length time = length tracks -> nsorted tracks -> timestep_of time = Some dt ->
  (forall i j a b g, i < j -> nth_error tracks i = Some g -> nth_error tracks j = Some g -> nth_error time i = Some a -> nth_error time j = Some b -> (a <= b)%Q) ->
  (forall i j, (0 <= overlap i j)%Q) -> rounding rnd ->
  split_network meet overlap rnd window tracks time = Some (times, s) ->
  chained window tracks (map (fun t => trunc (t / dt)) time) (i_track s) (i_prev s) (i_next s).
Proof.
  intros meet overlap rnd window tracks time dt s times LT NS TS SO NN RN E.
  destruct (C29_split_network meet overlap rnd window tracks time dt LT NS TS SO NN RN) as (s' & E' & L1 & L2 & L3 & Z & G). rewrite E in E'. injection E' as -> <-. set (steps := map (fun t => trunc (t / dt)) time) in *.
  assert (LS : length steps = length tracks) by (unfold steps; rewrite map_length; auto).
  assert (WH : forall i, i < length tracks -> nth_error tracks i = Some 0 \/ exists g a b prev next, g <> 0 /\ a <= i < b /\ b <= length tracks /\ (forall k, a <= k < b <-> nth_error tracks k = Some g) /\
     segmented (slice steps a b) (fun i j => overlap_cost meet overlap (a + i) (a + j)) rnd window (slice (i_track s) a b) prev next /\
     slice (i_prev s) a b = map (option_map (fun k => k + a)) prev /\ slice (i_next s) a b = map (option_map (fun k => k + a)) next).
  { intros i L. destruct (nth_error_lt_Some tracks i L) as [g GI]. destruct (Nat.eq_dec g 0) as [->|GN]; [auto|]. right. destruct (group_interval tracks i g NS GI) as (a & b & R & BL & RR).
    destruct (G g a b GN ltac:(lia) RR) as (pv & nx & SG & P1 & P2). exists g, a, b, pv, nx. auto 10. }
  assert (UNS : forall (l : list (option nat)) a x i j, map (option_map (fun k => k + a)) l = x -> nth_error x i = Some (Some j) -> exists j', j = j' + a /\ nth_error l i = Some (Some j')).
  { intros l a x i j <- N. rewrite nth_error_map in N. destruct (nth_error l i) as [[q|]|]; simpl in N; try discriminate. injection N as <-. eauto. }
  assert (SH : forall (l : list (option nat)) a x i j, map (option_map (fun k => k + a)) l = x -> nth_error l i = Some (Some j) -> nth_error x i = Some (Some (j + a))).
  { intros l a x i j <- N. rewrite nth_error_map, N. auto. }
  assert (SL : forall {A} (l : list A) a b k x, length l = length tracks -> b <= length tracks -> nth_error (slice l a b) k = Some x -> nth_error l (k + a) = Some x /\ a <= k + a < b).
  { intros A l a b k x LL BL N. rewrite nth_slice in N. destruct (Nat.ltb_spec k (b - a)); [|discriminate]. split; [rewrite <- N; f_equal; lia|lia]. }
  unfold chained. split; [|split; [|split]].
  - intros i j N. assert (L : i < length tracks) by (rewrite <- L3; eapply nth_error_Some_lt; eauto). destruct (WH i L) as [Z0|(g & a & b & pv & nx & GN & R & BL & RR & SG & P1 & P2)]; [destruct (Z i Z0) as (_ & _ & X); congruence|].
    rewrite <- (slice_shift _ a b i R) in N. destruct (UNS _ _ _ _ _ (eq_sym P2) N) as (j' & -> & N'). destruct SG as (_ & _ & _ & NX & _). apply NX in N' as (ti & tj & A & B & C & _).
    apply SL in A as [A _]; [|auto|auto]. apply SL in B as [B JR]; [|auto|auto]. replace (i - a + a) with i in A by lia. exists g, ti, tj. split; [auto|]. split; [apply RR; auto|]. split; [apply RR; auto|]. auto.
  - intros i j N. assert (L : i < length tracks) by (rewrite <- L2; eapply nth_error_Some_lt; eauto). destruct (WH i L) as [Z0|(g & a & b & pv & nx & GN & R & BL & RR & SG & P1 & P2)]; [destruct (Z i Z0) as (_ & X & _); congruence|].
    rewrite <- (slice_shift _ a b i R) in N. destruct (UNS _ _ _ _ _ (eq_sym P1) N) as (j' & -> & N'). destruct SG as (_ & _ & _ & NX & PF & PO & _).
    assert (X : exists ti tj, nth_error (slice steps a b) (i - a) = Some ti /\ nth_error (slice steps a b) j' = Some tj /\ (ti - window <= tj < ti)%Z).
    { destruct (in_dec (fun x y : option nat => ltac:(decide equality; apply Nat.eq_dec) : {x = y} + {x <> y}) (Some (i - a)) nx) as [I|I].
      - apply In_nth_error in I as (k & K). destruct (PF _ _ K) as (p & P & NP & _). rewrite N' in P. injection P as <-. apply NX in NP as (ti & tj & A & B & C & _). exists tj, ti. split; [auto|]. split; [auto|lia].
      - apply PO in N' as (ti & tj & A & B & C & _); [eauto|]. intros k K. apply I. eapply nth_error_In; eauto. }
    destruct X as (ti & tj & A & B & C). apply SL in A as [A _]; [|auto|auto]. apply SL in B as [B JR]; [|auto|auto]. replace (i - a + a) with i in A by lia. exists g, ti, tj. split; [auto|]. split; [apply RR; auto|]. split; [apply RR; auto|]. auto.
  - intros u v g t UV GN GU GV TU TV. assert (L : u < length tracks) by (eapply nth_error_Some_lt; eauto). destruct (WH u L) as [Z0|(g' & a & b & pv & nx & GN' & R & BL & RR & SG & P1 & P2)]; [congruence|].
    assert (g' = g) by (apply RR in R; congruence). subst g'. assert (RV : a <= v < b) by (apply RR; auto).
    split.
    + intros ta tb A B. eapply (segmented_times _ _ _ _ _ _ _ SG (v - a) (u - a) t); [lia|rewrite slice_shift; auto|rewrite slice_shift; auto|rewrite slice_shift; auto|rewrite slice_shift; auto].
    + intros NB. destruct SG as (_ & _ & _ & _ & _ & _ & SEG & _). destruct (proj1 (SEG (u - a) (v - a) ltac:(lia))) as [A B].
      { exists t. rewrite !slice_shift by auto. split; [auto|]. split; [auto|]. intros q Q X. apply SL in X as [X _]; [|auto|auto]. apply (NB (q + a)); [lia|auto]. }
      apply (SH _ _ _ _ _ (eq_sym P1)) in A. apply (SH _ _ _ _ _ (eq_sym P2)) in B. rewrite slice_shift in A, B by auto. replace (u - a + a) with u in A by lia. replace (v - a + a) with v in B by lia. auto.
  - intros u v P N. assert (L : u < length tracks) by (rewrite <- L3; eapply nth_error_Some_lt; eauto). destruct (WH u L) as [Z0|(g & a & b & pv & nx & GN & R & BL & RR & SG & P1 & P2)]; [destruct (Z u Z0) as (_ & _ & X); congruence|].
    rewrite <- (slice_shift _ a b u R) in N. destruct (UNS _ _ _ _ _ (eq_sym P2) N) as (v' & -> & N'). pose proof SG as (LL & LP & LN & NX & _ & _ & SEG & _).
    pose proof (proj1 (NX _ _) N') as (ti & tj & A & B & C & _). pose proof (SL _ _ _ _ _ _ LS BL A) as [A' _]. pose proof (SL _ _ _ _ _ _ LS BL B) as [B' RV]. replace (u - a + a) with u in A' by lia.
    assert (UV : u - a < v'). { destruct (Nat.lt_ge_cases (u - a) v') as [H|H]; [auto|]. exfalso. assert (SOR : forall x y tx ty, x <= y -> nth_error (slice steps a b) x = Some tx -> nth_error (slice steps a b) y = Some ty -> (tx <= ty)%Z).
      { intros x y tx ty XY X Y. apply SL in X as [X X2]; [|auto|auto]. apply SL in Y as [Y Y2]; [|auto|auto]. destruct (Nat.eq_dec x y) as [->|NE]; [rewrite X in Y; injection Y as <-; lia|].
        unfold steps in X, Y. rewrite nth_error_map in X, Y. destruct (nth_error time (x + a)) as [qx|] eqn:QX; [|discriminate]. destruct (nth_error time (y + a)) as [qy|] eqn:QY; [|discriminate]. simpl in X, Y. injection X as <-. injection Y as <-.
        apply trunc_mono. apply Qmult_le_compat_r; [|apply Qinv_le_0_compat; apply timestep_pos in TS; lra]. eapply (SO (x + a) (y + a)); [lia|apply RR; auto|apply RR; auto|auto|auto]. }
      specialize (SOR v' (u - a) tj ti H B A). lia. }
    rewrite <- (slice_shift _ a b (v' + a) RV) in P. destruct (UNS _ _ _ _ _ (eq_sym P1) P) as (u' & EU & P'). replace (v' + a - a) with v' in P' by lia. assert (u' = u - a) by lia. subst u'.
    destruct (proj2 (SEG (u - a) v' UV)) as (t & T1 & T2 & _); [auto|]. exists t. rewrite slice_shift in T1 by auto. apply SL in T2 as [T2 _]; [|auto|auto]. auto.
Qed.
Print Assumptions C78_links.

(** Numbers of the links as stored: -1 for none. *)
Definition stored (o : option nat) : Z := match o with None => (-1)%Z | Some j => Z.of_nat j end.
(** [index_order] sorts the rows by group, then segment, then date. *)
Definition row_order (index_order tracks seg : list nat) (steps : list Z) : Prop :=
  forall k l i j gi gj si sj ti tj, k < l -> nth_error index_order k = Some i -> nth_error index_order l = Some j ->
    nth_error tracks i = Some gi -> nth_error tracks j = Some gj -> nth_error seg i = Some si -> nth_error seg j = Some sj -> nth_error steps i = Some ti -> nth_error steps j = Some tj ->
    gi < gj \/ gi = gj /\ (si < sj \/ si = sj /\ (ti <= tj)%Z).
(** A network whose links follow its segments. *)
Definition well_formed (rows : list nrow) : Prop :=
  links_ok rows /\ segment_sorted rows /\
  (forall p q r, nth_error rows p = Some r -> nxt r = Z.of_nat q -> exists r', nth_error rows q = Some r' /\ track r <> 0 /\ track r' = track r /\ (time r < time r')%Z) /\
  (forall p q r, nth_error rows p = Some r -> prv r = Z.of_nat q -> exists r', nth_error rows q = Some r' /\ track r <> 0 /\ track r' = track r /\ (time r' < time r)%Z) /\
  (forall p r r', nth_error rows p = Some r -> nth_error rows (S p) = Some r' -> track r <> 0 -> track r' = track r -> segment r' = segment r ->
     nxt r = Z.of_nat (S p) /\ prv r' = Z.of_nat p /\ (time r < time r')%Z) /\
  (forall p q r r', nth_error rows p = Some r -> nth_error rows q = Some r' -> nxt r = Z.of_nat q -> prv r' = Z.of_nat p -> q = S p /\ segment r' = segment r).

Theorem C78_network : forall meet overlap rnd window tracks dates dt s times data index_order,
  length dates = length tracks -> nsorted tracks -> timestep_of dates = Some dt ->
  (forall i j a b g, i < j -> nth_error tracks i = Some g -> nth_error tracks j = Some g -> nth_error dates i = Some a -> nth_error dates j = Some b -> (a <= b)%Q) ->
  (forall i j, (0 <= overlap i j)%Q) -> rounding rnd ->
  split_network meet overlap rnd window tracks dates = Some (times, s) ->
  data <> [] -> map (fun d => fst (fst d)) data = tracks ->
  (forall i j di dj a b, nth_error data i = Some di -> nth_error data j = Some dj -> nth_error dates i = Some a -> nth_error dates j = Some b -> ((a < b)%Q <-> (snd (fst di) < snd (fst dj))%Z)) ->
  Permutation index_order (seq 0 (length data)) ->
  row_order index_order tracks (i_track s) (map (fun t => trunc (t / dt)) dates) ->
  exists rows, from_split_network index_order data (i_track s) (map stored (i_next s)) (map stored (i_prev s)) = Some rows /\ well_formed rows.
Proof.
  intros meet overlap rnd window tracks dates dt s times data ix LT NS TS SO NN RN E DN DT DD P OR.
  destruct (C78_links meet overlap rnd window tracks dates dt s times LT NS TS SO NN RN E) as (HN & HP & HS & HM).
  destruct (C29_split_network meet overlap rnd window tracks dates dt LT NS TS SO NN RN) as (s' & E' & L1 & L2 & L3 & _). rewrite E in E'. injection E' as _ <-. set (steps := map (fun t => trunc (t / dt)) dates) in *.
  assert (LS : length steps = length tracks) by (unfold steps; rewrite map_length; auto).
  assert (LD : length data = length tracks) by (rewrite <- DT, map_length; auto).
  assert (LK : forall z, In z (map stored (i_next s)) \/ In z (map stored (i_prev s)) -> link_ok (length data) z).
  { intros z I. assert (X : exists o i, z = stored o /\ (nth_error (i_next s) i = Some o \/ nth_error (i_prev s) i = Some o)).
    { destruct I as [I|I]; apply in_map_iff in I as (o & <- & I); apply In_nth_error in I as (i & I); eauto. }
    destruct X as (o & i & -> & X). destruct o as [j|]; [|left; auto]. right. simpl. rewrite LD. assert (J : j < length tracks). { destruct X as [X|X]; [apply HN in X as (? & ? & ? & _ & _ & X & _)|apply HP in X as (? & ? & ? & _ & _ & X & _)]; eapply nth_error_Some_lt; eauto. } lia. }
  destruct (C37_from_split_network ix data (i_track s) (map stored (i_next s)) (map stored (i_prev s))) as (rows & F & LR & RW); auto; try (rewrite ?map_length; congruence).
  exists rows. split; [exact F|].
  assert (LIX : length ix = length data) by (rewrite (Permutation_length P), seq_length; auto).
  assert (ND : NoDup ix) by (eapply Permutation_NoDup; [apply Permutation_sym; eauto|apply seq_NoDup]).
  assert (UNI : forall k l i, nth_error ix k = Some i -> nth_error ix l = Some i -> k = l).
  { intros k l i A B. apply (proj1 (NoDup_nth_error ix) ND); [eapply nth_error_Some_lt; eauto|congruence]. }
  assert (POS : forall i, i < length tracks -> exists k, nth_error ix k = Some i /\ k < length rows).
  { intros i L. assert (I : In i ix) by (apply (Permutation_in _ (Permutation_sym P)); apply in_seq; lia). apply In_nth_error in I as (k & K). exists k. split; [auto|]. apply nth_error_Some_lt in K. lia. }
  (* one row *)
  assert (ROW : forall p r, nth_error rows p = Some r -> exists i st q n pv, nth_error ix p = Some i /\ i < length tracks /\ nth_error tracks i = Some (track r) /\ nth_error (i_track s) i = Some (segment r) /\
     nth_error steps i = Some st /\ nth_error dates i = Some q /\ (exists d, nth_error data i = Some d /\ snd (fst d) = time r) /\
     nth_error (i_next s) i = Some n /\ nth_error (i_prev s) i = Some pv /\ link_moved ix (stored n) (nxt r) /\ link_moved ix (stored pv) (prv r)).
  { intros p r N. assert (PL : p < length ix) by (apply nth_error_Some_lt in N; lia). destruct (nth_error_lt_Some ix p PL) as [i I]. destruct (RW p i I) as (r0 & d & sg & n & pv & A & B & C & D1 & D2 & D3 & D4 & D5 & D6).
    rewrite N in A. injection A as <-. rewrite nth_error_map in D1, D2. destruct (nth_error (i_next s) i) as [n'|] eqn:E1; [|discriminate]. destruct (nth_error (i_prev s) i) as [p'|] eqn:E2; [|discriminate]. simpl in D1, D2. injection D1 as <-. injection D2 as <-.
    assert (IL : i < length tracks) by (rewrite <- L3; eapply nth_error_Some_lt; eauto).
    destruct (nth_error_lt_Some steps i ltac:(lia)) as [st ST]. destruct (nth_error_lt_Some dates i ltac:(lia)) as [q Q]. exists i, st, q, n', p'.
    split; [auto|]. split; [auto|]. split; [rewrite <- DT, nth_error_map, B, D3; auto|]. split; [congruence|]. split; [auto|]. split; [auto|]. split; [exists d; split; [auto|rewrite D3; auto]|]. auto. }
  (* order of dates *)
  assert (TIM : forall i j ti tj a b di dj, nth_error steps i = Some ti -> nth_error steps j = Some tj -> nth_error dates i = Some a -> nth_error dates j = Some b -> nth_error data i = Some di -> nth_error data j = Some dj -> (ti < tj)%Z -> (snd (fst di) < snd (fst dj))%Z).
  { intros i j ti tj a b di dj A B C D F1 F2 L. apply (DD i j di dj a b); auto. unfold steps in A, B. rewrite nth_error_map in A, B. rewrite C in A. rewrite D in B. simpl in A, B. injection A as <-. injection B as <-.
    apply Qnot_le_lt. intros LE. assert (trunc (b / dt) <= trunc (a / dt))%Z; [|lia]. apply trunc_mono. apply Qmult_le_compat_r; [auto|]. apply Qinv_le_0_compat. apply timestep_pos in TS. lra. }
  (* a link of a row *)
  assert (LNK : forall o z q, link_moved ix (stored o) z -> z = Z.of_nat q -> exists j, o = Some j /\ nth_error ix q = Some j).
  { intros o z q M ->. destruct M as [(k & j & K & X & Y)|[X _]]; [|lia]. apply Nat2Z.inj in Y. subst k. destruct o as [j'|]; simpl in X; [|lia]. apply Nat2Z.inj in X. subst j'. eauto. }
  assert (LNK2 : forall j z q, link_moved ix (stored (Some j)) z -> nth_error ix q = Some j -> z = Z.of_nat q).
  { intros j z q M K. destruct M as [(k & j' & K' & X & Y)|[_ X]]; [|exfalso; apply (X j); [eapply nth_error_In; eauto|auto]]. simpl in X. apply Nat2Z.inj in X. subst j'. rewrite Y. f_equal. eapply UNI; eauto. }
  assert (LINKS : links_ok rows).
  { intros r I. apply In_nth_error in I as (p & N). destruct (ROW p r N) as (i & st & q & n & pv & _ & _ & _ & _ & _ & _ & _ & _ & _ & M1 & M2).
    assert (X : forall o z, link_moved ix o z -> link_ok (length rows) z). { intros o z [(k & j & K & _ & ->)|[-> _]]; [right; apply nth_error_Some_lt in K; lia|left; auto]. } split; eauto. }
  assert (NXT : forall p q r, nth_error rows p = Some r -> nxt r = Z.of_nat q -> exists r', nth_error rows q = Some r' /\ track r <> 0 /\ track r' = track r /\ (time r < time r')%Z).
  { intros p q r N X. destruct (ROW p r N) as (i & st & qd & n & pv & A1 & A2 & A3 & A4 & A5 & A6 & (d & A7 & A8) & A9 & A10 & M1 & M2). destruct (LNK _ _ _ M1 X) as (j & -> & J).
    assert (QL : q < length rows) by (apply nth_error_Some_lt in J; lia). destruct (nth_error_lt_Some rows q QL) as [r' R']. exists r'. split; [auto|].
    destruct (ROW q r' R') as (j' & st' & qd' & n' & pv' & B1 & B2 & B3 & B4 & B5 & B6 & (d' & B7 & B8) & _). rewrite J in B1. injection B1 as <-.
    destruct (HN _ _ A9) as (g & ti & tj & GN & G1 & G2 & T1 & T2 & T3). rewrite A3 in G1. injection G1 as <-. rewrite B3 in G2. injection G2 as G2. split; [auto|]. split; [auto|]. rewrite <- A8, <- B8. apply (TIM i j ti tj qd qd'); auto. lia. }
  assert (PRV : forall p q r, nth_error rows p = Some r -> prv r = Z.of_nat q -> exists r', nth_error rows q = Some r' /\ track r <> 0 /\ track r' = track r /\ (time r' < time r)%Z).
  { intros p q r N X. destruct (ROW p r N) as (i & st & qd & n & pv & A1 & A2 & A3 & A4 & A5 & A6 & (d & A7 & A8) & A9 & A10 & M1 & M2). destruct (LNK _ _ _ M2 X) as (j & -> & J).
    assert (QL : q < length rows) by (apply nth_error_Some_lt in J; lia). destruct (nth_error_lt_Some rows q QL) as [r' R']. exists r'. split; [auto|].
    destruct (ROW q r' R') as (j' & st' & qd' & n' & pv' & B1 & B2 & B3 & B4 & B5 & B6 & (d' & B7 & B8) & _). rewrite J in B1. injection B1 as <-.
    destruct (HP _ _ A10) as (g & ti & tj & GN & G1 & G2 & T1 & T2 & T3). rewrite A3 in G1. injection G1 as <-. rewrite B3 in G2. injection G2 as G2. split; [auto|]. split; [auto|]. rewrite <- A8, <- B8. apply (TIM j i tj ti qd' qd); auto. lia. }
  (* rows of one segment are in the order of the dataset *)
  assert (INO : forall p q r r' i j, p < q -> nth_error rows p = Some r -> nth_error rows q = Some r' -> nth_error ix p = Some i -> nth_error ix q = Some j -> track r <> 0 -> track r' = track r -> segment r' = segment r -> i < j).
  { intros p q r r' i j PQ R R' I J GN GE SE. destruct (ROW p r R) as (i0 & st & qd & n & pv & A1 & A2 & A3 & A4 & A5 & A6 & _). rewrite I in A1. injection A1 as <-. destruct (ROW q r' R') as (j0 & st' & qd' & n' & pv' & B1 & B2 & B3 & B4 & B5 & B6 & _). rewrite J in B1. injection B1 as <-.
    destruct (Nat.lt_trichotomy i j) as [L|[L|L]]; [auto| |]; exfalso.
    - subst j. assert (p = q) by (eapply UNI; eauto). lia.
    - rewrite GE in B3. rewrite SE in B4. destruct (HS j i (track r) (segment r) L GN B3 A3 B4 A4) as [X _]. specialize (X _ _ B5 A5). destruct (OR p q i j _ _ _ _ _ _ PQ I J A3 B3 A4 B4 A5 B5); lia. }
  assert (ADJ : forall p r r', nth_error rows p = Some r -> nth_error rows (S p) = Some r' -> track r <> 0 -> track r' = track r -> segment r' = segment r ->
     nxt r = Z.of_nat (S p) /\ prv r' = Z.of_nat p /\ (time r < time r')%Z).
  { intros p r r' R R' GN GE SE. destruct (ROW p r R) as (i & st & qd & n & pv & A1 & A2 & A3 & A4 & A5 & A6 & (d & A7 & A8) & A9 & A10 & M1 & M2). destruct (ROW (S p) r' R') as (j & st' & qd' & n' & pv' & B1 & B2 & B3 & B4 & B5 & B6 & (d' & B7 & B8) & B9 & B10 & M1' & M2').
    assert (IJ : i < j) by (eapply (INO p (S p) r r'); eauto). rewrite GE in B3. rewrite SE in B4. destruct (HS i j (track r) (segment r) IJ GN A3 B3 A4 B4) as [X Y].
    assert (NB : forall q, i < q < j -> nth_error (i_track s) q <> Some (segment r)).
    { intros q Q SQ. destruct (POS q ltac:(lia)) as (k & K & KL). destruct (nth_error_lt_Some rows k KL) as [rk RK]. destruct (ROW k rk RK) as (q0 & st2 & qd2 & n2 & pv2 & C1 & C2 & C3 & C4 & C5 & _). rewrite K in C1. injection C1 as <-.
      rewrite SQ in C4. injection C4 as C4. assert (TQ : nth_error tracks q = Some (track r)).
      { pose proof (NS i q _ _ ltac:(lia) A3 C3). pose proof (NS q j _ _ ltac:(lia) C3 B3). rewrite C3. f_equal. lia. }
      rewrite TQ in C3. injection C3 as C3.
      destruct (Nat.lt_trichotomy k p) as [L|[L|L]].
      - assert (q < i); [|lia]. eapply (INO k p rk r); eauto; congruence.
      - subst k. assert (q = i) by congruence. lia.
      - destruct (Nat.eq_dec k (S p)) as [->|NE]; [assert (q = j) by congruence; lia|]. assert (j < q); [|lia]. eapply (INO (S p) k r' rk); eauto; try congruence. lia. }
    destruct (Y NB) as [Y1 Y2]. rewrite A9 in Y2. injection Y2 as ->. rewrite B10 in Y1. injection Y1 as ->. split; [eapply LNK2; eauto|]. split; [eapply LNK2; eauto|]. rewrite <- A8, <- B8. apply (TIM i j st st' qd qd'); auto. }
  split; [exact LINKS|]. split; [|split; [exact NXT|split; [exact PRV|split; [exact ADJ|]]]].
  - intros p q a b PQ R R'. destruct (ROW p a R) as (i & st & qd & n & pv & A1 & A2 & A3 & A4 & A5 & A6 & _). destruct (ROW q b R') as (j & st' & qd' & n' & pv' & B1 & B2 & B3 & B4 & B5 & B6 & _).
    destruct (OR p q i j _ _ _ _ _ _ PQ A1 B1 A3 B3 A4 B4 A5 B5); lia.
  - intros p q r r' R R' X Y. destruct (ROW p r R) as (i & st & qd & n & pv & A1 & A2 & A3 & A4 & A5 & A6 & (d & A7 & A8) & A9 & A10 & M1 & M2). destruct (ROW q r' R') as (j & st' & qd' & n' & pv' & B1 & B2 & B3 & B4 & B5 & B6 & (d' & B7 & B8) & B9 & B10 & M1' & M2').
    destruct (LNK _ _ _ M1 X) as (j' & -> & J). rewrite B1 in J. injection J as <-. destruct (LNK _ _ _ M2' Y) as (i' & -> & I). rewrite A1 in I. injection I as <-.
    destruct (HM i j B10 A9) as (t & T1 & T2). rewrite A4 in T1. injection T1 as <-. rewrite B4 in T2. injection T2 as SE.
    destruct (NXT p q r R X) as (r2 & R2 & GN & GE & TT). rewrite R' in R2. injection R2 as <-.
    assert (PQ : p < q). { destruct (Nat.lt_trichotomy p q) as [L|[L|L]]; [auto| |]; exfalso; [subst q; rewrite R in R'; injection R' as <-; lia|]. destruct (HN _ _ A9) as (g & ti & tj & _ & _ & _ & T1 & T2 & T3). rewrite A5 in T1. injection T1 as <-. rewrite B5 in T2. injection T2 as <-.
      destruct (OR q p j i _ _ _ _ _ _ L B1 A1 B3 A3 B4 A4 B5 A5) as [?|[? [?|[? ?]]]]; lia. }
    split; [|auto]. destruct (Nat.eq_dec q (S p)) as [|NE]; [auto|exfalso].
    (* the row after p is in the same segment and linked to p *)
    assert (QL : q < length rows) by (eapply nth_error_Some_lt; eauto). destruct (nth_error_lt_Some rows (S p) ltac:(lia)) as [r2 R2].
    destruct (ROW (S p) r2 R2) as (i2 & st2 & qd2 & n2 & pv2 & C1 & C2 & C3 & C4 & C5 & C6 & _).
    pose proof (OR p (S p) i i2 _ _ _ _ _ _ ltac:(lia) A1 C1 A3 C3 A4 C4 A5 C5). pose proof (OR (S p) q i2 j _ _ _ _ _ _ ltac:(lia) C1 B1 C3 B3 C4 B4 C5 B5).
    destruct (ADJ p r r2 R R2 GN ltac:(lia) ltac:(lia)) as [X2 _]. lia.
Qed.
Print Assumptions C78_network.
(** Two observations on the first date: the second one merges in the segment of
    the first one; another network follows. *)
Definition ex_overlap (i j : nat) : Q := match i with 0 => 1 # 3 | 2 => 1 # 2 | _ => 1 # 4 end.
Example C78_example :
  let tracks := [3; 3; 3; 3; 3; 5] in let dates := [10; 10; 11; 12; 13; 11]%Q in let ix := [0; 2; 3; 4; 1; 5] in
  let data := [(3, 10, []); (3, 10, []); (3, 11, []); (3, 12, []); (3, 13, []); (5, 11, [])]%Z in
  let s := match split_network (fun _ _ => true) ex_overlap (fun x => x) 2 tracks dates with Some (_, s) => s | None => ids_init 0 end in
  timestep_of dates = Some (2 # 2)%Q /\ i_track s = [1; 2; 1; 1; 1; 1] /\ row_order ix tracks (i_track s) (map (fun t => trunc (t / (2 # 2))) dates) /\
  from_split_network ix (map (fun d => let '(a, b, c) := d in (Z.to_nat a, b, c)) data) (i_track s) (map stored (i_next s)) (map stored (i_prev s)) =
    Some [Row 3 1 10 1 (-1) []; Row 3 1 11 2 0 []; Row 3 1 12 3 1 []; Row 3 1 13 (-1) 2 []; Row 3 2 10 1 (-1) []; Row 5 1 11 (-1) (-1) []]%Z.
Proof.
  cbv zeta. split; [vm_compute; reflexivity|]. split; [vm_compute; reflexivity|]. split; [|vm_compute; reflexivity].
  intros k l i j gi gj si sj ti tj L A B C D E F G H. assert (KL : k < 6 /\ l < 6) by (apply nth_error_Some_lt in A; apply nth_error_Some_lt in B; simpl in A, B; lia).
  do 6 (destruct k as [|k]; [injection A as <-; do 6 (destruct l as [|l]; [injection B as <-; vm_compute in C, D, E, F, G, H; injection C as <-; injection D as <-; injection E as <-; injection F as <-; injection G as <-; injection H as <-; lia|]); lia|]). lia.
Qed.
