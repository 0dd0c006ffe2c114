(** More proofs on the events and the selections of a network. *)
From Coq Require Import List Arith ZArith Bool Lia Permutation.
From Verif Require Import Base Sort Generic_model Generic_proofs Spec Corr_model Corr_proofs Corr_more Solver_proofs TrackObs_more Obs_spec Obs_model NetGroup_model NetGroup_more
  Net_model Net_spec Net_sort Net_links Net_reach NetSeg_model NetSeg_spec NetSeg_proofs NetSeg_dead NetEvt_model NetEvt_spec NetEvt_proofs.
Import ListNotations.
Local Open Scope nat_scope.

(** ** Ends of the segments *)
Theorem ends_spec : forall rows, rows <> [] -> segment_sorted rows ->
  exists seg first last, index_segment_track rows = Some (seg, first, last, 0%Z) /\ length last = length first /\ 0 < length first /\
    incr first /\ incr last /\ (forall a, In a first <-> a < length rows /\ first_row rows a) /\
    (forall b, In b last <-> 0 < b <= length rows /\ last_row rows (b - 1)) /\
    nth_error first 0 = Some 0 /\ (forall b, nth_error last 0 = Some b -> forall k, k < b <-> same_segment rows 0 k).
Proof.
  intros rows NE SS. destruct (index_spec rows NE SS) as (seg & first & last & EI & ES & SF & LL & SL & FULL & PL & P).
  pose proof SF as (LS & SO & SAME). pose proof SL as (S1 & S2 & S3).
  exists seg, first, last. split; [auto|]. split; [auto|]. split; [auto|].
  assert (AT : forall i a b, nth_error first i = Some a -> nth_error last i = Some b ->
     a < b /\ b <= length rows /\ (forall k, a <= k < b <-> nth_error seg k = Some i) /\ In (a, b, i) (triples first last)).
  { intros i a b A B. assert (T : In (a, b, i) (triples first last)) by (apply In_triples; auto).
    destruct (slice_rows rows seg _ LS SL a b i T) as (AB & BL & _). destruct (S1 a b i T). auto. }
  assert (INC : forall l, (forall i j x y, i < j -> nth_error l i = Some x -> nth_error l j = Some y -> x < y) -> incr l).
  { induction l as [|x l IH]; intros H; constructor.
    - intros y Y. apply In_nth_error in Y as [k K]. apply (H 0 (S k) x y); auto. lia.
    - apply IH. intros i j a b L A B. apply (H (S i) (S j) a b); auto. lia. }
  assert (FI : forall i j x y, i < j -> nth_error first i = Some x -> nth_error first j = Some y -> x < y).
  { intros i j x y L X Y. destruct (nth_error_lt_Some last i) as [b B]; [apply nth_error_Some_lt in X; lia|]. destruct (nth_error_lt_Some last j) as [b' B']; [apply nth_error_Some_lt in Y; lia|].
    destruct (AT i x b X B) as (AB & _ & RW & _). destruct (AT j y b' Y B') as (AB' & _ & RW' & _).
    assert (HX : nth_error seg x = Some i) by (apply RW; lia). assert (HY : nth_error seg y = Some j) by (apply RW'; lia).
    destruct (lt_eq_lt_dec x y) as [[?|E]|G]; [auto|subst; rewrite HX in HY; apply Some_inj in HY; lia|].
    pose proof (SO y x j i G HY HX). lia. }
  assert (LI : forall i j x y, i < j -> nth_error last i = Some x -> nth_error last j = Some y -> x < y).
  { intros i j x y L X Y. destruct (nth_error_lt_Some first i) as [a A]; [apply nth_error_Some_lt in X; lia|]. destruct (nth_error_lt_Some first j) as [a' A']; [apply nth_error_Some_lt in Y; lia|].
    destruct (AT i a x A X) as (AB & _ & RW & _). destruct (AT j a' y A' Y) as (AB' & _ & RW' & _).
    assert (HX : nth_error seg (x - 1) = Some i) by (apply RW; lia). assert (HY : nth_error seg (y - 1) = Some j) by (apply RW'; lia).
    destruct (lt_eq_lt_dec x y) as [[?|E]|G]; [auto|subst; rewrite HX in HY; apply Some_inj in HY; lia|].
    pose proof (SO (y - 1) (x - 1) j i ltac:(lia) HY HX). lia. }
  split; [apply INC; auto|]. split; [apply INC; auto|]. split; [|split; [|split]].
  - intros a. split.
    + intros H. apply In_nth_error in H as [s Hs]. destruct (nth_error_lt_Some last s) as [b B]; [apply nth_error_Some_lt in Hs; lia|].
      destruct (AT s a b Hs B) as (AB & BL & RW & T). split; [lia|]. assert (HA : nth_error seg a = Some s) by (apply RW; lia).
      apply (first_iff rows seg _ LS SL SAME a s HA). eauto.
    + intros [L F]. destruct (nth_error_lt_Some seg a) as [s HA]; [lia|]. pose proof (proj1 (first_iff rows seg _ LS SL SAME a s HA) F) as [b T].
      apply In_triples in T as [T _]; auto. eapply nth_error_In; eauto.
  - intros b. split.
    + intros H. apply In_nth_error in H as [s Hs]. destruct (nth_error_lt_Some first s) as [a A]; [apply nth_error_Some_lt in Hs; lia|].
      destruct (AT s a b A Hs) as (AB & BL & RW & T). split; [lia|]. assert (HB : nth_error seg (b - 1) = Some s) by (apply RW; lia).
      apply (last_iff rows seg _ LS SL SAME (b - 1) s HB). exists a. replace (S (b - 1)) with b by lia. auto.
    + intros [L F]. destruct (nth_error_lt_Some seg (b - 1)) as [s HB]; [lia|]. pose proof (proj1 (last_iff rows seg _ LS SL SAME (b - 1) s HB) F) as [a T].
      replace (S (b - 1)) with b in T by lia. apply In_triples in T as [_ T]; auto. eapply nth_error_In; eauto.
  - destruct (nth_error_lt_Some first 0 P) as [a A]. destruct (nth_error_lt_Some last 0) as [b B]; [lia|]. destruct (AT 0 a b A B) as (AB & BL & RW & _).
    destruct (nth_error_lt_Some seg 0) as [s0 H0]; [lia|]. assert (HA : nth_error seg a = Some 0) by (apply RW; lia).
    destruct (Nat.eq_dec a 0) as [->|N]; [auto|]. assert (s0 <= 0) by (apply (SO 0 a s0 0); auto; lia). assert (s0 = 0) by lia. subst s0. apply RW in H0. lia.
  - intros b B k. destruct (nth_error_lt_Some first 0 P) as [a A]. destruct (AT 0 a b A B) as (AB & BL & RW & _).
    destruct (nth_error_lt_Some seg 0) as [s0 H0]; [lia|]. assert (HA : nth_error seg a = Some 0) by (apply RW; lia).
    assert (s0 = 0). { destruct (Nat.eq_dec a 0) as [->|N]; [congruence|]. assert (s0 <= 0) by (apply (SO 0 a s0 0); auto; lia). lia. }
    subst s0. assert (a = 0) by (apply RW in H0; lia). subst a. rewrite <- (SAME 0 k 0 H0), <- RW. lia.
Qed.

(** ** Merging and splitting events *)
Definition triplet_facts (rows : list nrow) (src_dst : nat -> nat -> Prop) (other : nrow -> Z) (a b c : list Z) : Prop :=
  length b = length a /\ length c = length a /\
  (forall p z, nth_error a p = Some z -> (0 <= z < Z.of_nat (length rows))%Z) /\
  (forall s j, src_dst s j <-> exists p, nth_error c p = Some (Z.of_nat s) /\ nth_error a p = Some (Z.of_nat j)) /\
  (forall p q z, nth_error c p = Some z -> nth_error c q = Some z -> p = q) /\
  (forall p z, nth_error c p = Some z -> (0 <= z < Z.of_nat (length rows))%Z) /\
  (forall p j r, nth_error a p = Some (Z.of_nat j) -> nth_error rows j = Some r -> nth_error b p = Some (other r)) /\
  (forall p q i j ri rj, p < q -> nth_error a p = Some (Z.of_nat i) -> nth_error a q = Some (Z.of_nat j) -> nth_error rows i = Some ri -> nth_error rows j = Some rj -> (time ri <= time rj)%Z).

Lemma col_nth : forall {A} (f : nrow -> A) rows k v, nth_error (map f rows) k = Some v <-> exists r, nth_error rows k = Some r /\ f r = v.
Proof.
  intros A f rows k v. rewrite nth_error_map. destruct (nth_error rows k) as [r|]; simpl; split.
  - intros H. apply Some_inj in H. eauto.
  - intros (q & Q & <-). apply Some_inj in Q. subst. auto.
  - discriminate.
  - intros (q & Q & _). discriminate.
Qed.
Lemma nodup_of_nat : forall l, NoDup l -> NoDup (map Z.of_nat l).
Proof. intros l H. apply FinFun.Injective_map_NoDup; auto. intros a b. apply Nat2Z.inj. Qed.

Theorem merging_spec : forall argsort rows, sorts argsort -> rows <> [] -> segment_sorted rows -> links_ok rows ->
  exists a b c, merging_event_triplet argsort rows = Some (a, b, c) /\ triplet_facts rows (merges_into rows) prv a b c.
Proof.
  intros argsort rows SO NE SS LK. destruct (ends_spec rows NE SS) as (seg & first & last & EI & LL & P & FI & LI & FR & LR & _).
  set (src := map (fun b => (Z.of_nat b - 1)%Z) last).
  assert (SRC : forall s, In (Z.of_nat s) src <-> s < length rows /\ last_row rows s).
  { intros s. unfold src. rewrite in_map_iff. split.
    - intros (b & E & H). apply LR in H as [B R]. replace (b - 1) with s in R by lia. split; [lia|auto].
    - intros [L R]. exists (S s). split; [lia|]. apply LR. replace (S s - 1) with s by lia. split; [lia|auto]. }
  assert (SB : forall z, In z src -> (0 <= z < Z.of_nat (length rows))%Z).
  { intros z H. unfold src in H. apply in_map_iff in H as (b & <- & H). apply LR in H as [B _]. lia. }
  assert (NS : NoDup src). { unfold src. apply FinFun.Injective_map_NoDup; [|apply incr_NoDup; auto]. intros x y E. lia. }
  destruct (triplet_spec argsort src (map nxt rows) (map prv rows) (map time rows) (length rows) SO) as (a & b & c & E & LB & LC & AB & CH & UN & CS & BO & OR);
    try (rewrite map_length; auto); auto.
  { intros z H. apply in_map_iff in H as (r & <- & H). apply LK. auto. }
  exists a, b, c. split.
  { unfold merging_event_triplet. rewrite EI. cbn [bind]. exact E. }
  split; [auto|]. split; [auto|]. split; [auto|]. split; [|split; [auto|split; [|split]]].
  - intros s j. rewrite <- CH, SRC, col_nth. split.
    + intros (r & H & L & N). split; [split; [eapply nth_error_Some_lt; eauto|auto]|eauto].
    + intros [[L R] (r & H & N)]. exists r. auto.
  - intros p z H. apply SB. eapply CS; eauto.
  - intros p j r H R. rewrite (BO p j H). rewrite nth_error_map, R. auto.
  - intros p q i j ri rj L A B RI RJ. apply (OR p q i j); auto; apply col_nth; eauto.
Qed.
Theorem splitting_spec : forall argsort rows, sorts argsort -> rows <> [] -> segment_sorted rows -> links_ok rows ->
  exists a b c, splitting_event_triplet argsort rows = Some (a, b, c) /\ triplet_facts rows (fun j i => splits_from rows i j) nxt a b c.
Proof.
  intros argsort rows SO NE SS LK. destruct (ends_spec rows NE SS) as (seg & first & last & EI & LL & P & FI & LI & FR & LR & _).
  set (src := map Z.of_nat first).
  assert (SRC : forall s, In (Z.of_nat s) src <-> s < length rows /\ first_row rows s).
  { intros s. unfold src. rewrite in_map_iff. rewrite <- FR. split; [intros (b & E & H); apply Nat2Z.inj in E; subst; auto|eauto]. }
  assert (SB : forall z, In z src -> (0 <= z < Z.of_nat (length rows))%Z).
  { intros z H. unfold src in H. apply in_map_iff in H as (b & <- & H). apply FR in H as [B _]. lia. }
  assert (NS : NoDup src) by (apply nodup_of_nat, incr_NoDup; auto).
  destruct (triplet_spec argsort src (map prv rows) (map nxt rows) (map time rows) (length rows) SO) as (a & b & c & E & LB & LC & AB & CH & UN & CS & BO & OR);
    try (rewrite map_length; auto); auto.
  { intros z H. apply in_map_iff in H as (r & <- & H). apply LK. auto. }
  exists a, b, c. split.
  { unfold splitting_event_triplet. rewrite EI. cbn [bind]. exact E. }
  split; [auto|]. split; [auto|]. split; [auto|]. split; [|split; [auto|split; [|split]]].
  - intros s j. rewrite <- CH, SRC, col_nth. split.
    + intros (r & H & L & N). split; [split; [eapply nth_error_Some_lt; eauto|auto]|eauto].
    + intros [[L R] (r & H & N)]. exists r. auto.
  - intros p z H. apply SB. eapply CS; eauto.
  - intros p j r H R. rewrite (BO p j H). rewrite nth_error_map, R. auto.
  - intros p q i j ri rj L A B RI RJ. apply (OR p q i j); auto; apply col_nth; eauto.
Qed.

Lemma triplet_targets : forall rows rel other a b c, triplet_facts rows rel other a b c ->
  incr (usort (map Z.to_nat a)) /\ forall j, In j (usort (map Z.to_nat a)) <-> exists s, rel s j.
Proof.
  intros rows rel other a b c (LB & LC & AB & CH & UN & CB & BO & OR). split; [apply incr_usort|]. intros j. rewrite In_usort, in_map_iff. split.
  - intros (z & <- & H). apply In_nth_error in H as [p Hp]. pose proof (AB p z Hp). destruct (nth_error_lt_Some c p) as [s Hs]; [apply nth_error_Some_lt in Hp; lia|].
    pose proof (CB p s Hs). exists (Z.to_nat s). apply CH. exists p. rewrite !Z2Nat.id by lia. auto.
  - intros (s & H). apply CH in H as (p & _ & A). exists (Z.of_nat j). rewrite Nat2Z.id. split; [auto|eapply nth_error_In; eauto].
Qed.

(** ** Observations close to an event *)
Section Close.
Context (argsort : list Z -> list nat) (rows : list nrow) (dt : Z).
Hypothesis SO : sorts argsort.
Hypothesis NE : rows <> [].
Hypothesis SS : segment_sorted rows.
Hypothesis LK : links_ok rows.
Hypothesis AN : no_loop (map nxt rows).
Hypothesis AP : no_loop (map prv rows).
Let n := length rows.
Notation P := (map prv rows).
Notation N := (map nxt rows).
Notation T := (map time rows).

(** Row [k] is close to an event: [x] before on the main path, as an index,
    [s] the end of the other segment and [j] the row of the event. *)
Lemma follow_rows : forall col indexs m, (col = N \/ col = P) -> length m = n -> (forall z, In z indexs -> link_ok n z) ->
  exists m', mask_follow_obs m col T indexs dt = Some m' /\ length m' = n /\
    forall k, nth_error m' k = Some true <-> nth_error m k = Some true \/ exists z, In z indexs /\ close_to col T dt (row_of n z) k.
Proof.
  intros col indexs m C LM OK. apply (follow_spec col T dt n); auto.
  - destruct C as [->| ->]; apply map_length.
  - apply map_length.
  - intros z H. destruct C as [->| ->]; apply in_map_iff in H as (r & <- & H); apply LK; auto.
  - destruct C as [->| ->]; auto.
  - unfold n. destruct rows; [congruence|simpl; lia].
Qed.
Lemma three_follows : forall rel other a b c m col1 col2, triplet_facts rows rel other a b c -> (forall r, In r rows -> link_ok n (other r)) ->
  (col1 = N \/ col1 = P) -> (col2 = N \/ col2 = P) -> length m = n ->
  exists m1 m2 m3, mask_follow_obs m col1 T b dt = Some m1 /\ mask_follow_obs m1 col1 T c dt = Some m2 /\ mask_follow_obs m2 col2 T a dt = Some m3 /\ length m3 = n /\
    forall k, nth_error m3 k = Some true <-> nth_error m k = Some true \/
      exists s j r, rel s j /\ nth_error rows j = Some r /\
        (close_to col1 T dt (row_of n (other r)) k \/ close_to col1 T dt s k \/ close_to col2 T dt j k).
Proof.
  intros rel other a b c m col1 col2 (LB & LC & AB & CH & UN & CB & BO & OR) OK C1 C2 LM.
  assert (OKA : forall z, In z a -> link_ok n z) by (intros z H; apply In_nth_error in H as [p H]; right; apply (AB p z H)).
  assert (OKC : forall z, In z c -> link_ok n z) by (intros z H; apply In_nth_error in H as [p H]; right; apply (CB p z H)).
  assert (RN : forall s, row_of n (Z.of_nat s) = s) by (intros s; unfold row_of; destruct (Z.ltb_spec (Z.of_nat s) 0); [lia|apply Nat2Z.id]).
  assert (TRI : forall p, p < length a -> exists s j r, nth_error c p = Some (Z.of_nat s) /\ nth_error a p = Some (Z.of_nat j) /\ nth_error rows j = Some r /\ nth_error b p = Some (other r) /\ rel s j).
  { intros p L. destruct (nth_error_lt_Some a p L) as [z A]. destruct (nth_error_lt_Some c p) as [s C]; [lia|]. pose proof (AB p z A). pose proof (CB p s C).
    destruct (nth_error_lt_Some rows (Z.to_nat z)) as [r R]; [lia|]. exists (Z.to_nat s), (Z.to_nat z), r. rewrite !Z2Nat.id by lia. split; [auto|]. split; [auto|]. split; [auto|].
    split; [apply (BO p (Z.to_nat z)); auto; rewrite Z2Nat.id by lia; auto|]. apply CH. exists p. rewrite !Z2Nat.id by lia. auto. }
  assert (OKB : forall z, In z b -> link_ok n z).
  { intros z H. apply In_nth_error in H as [p H]. destruct (TRI p) as (s & j & r & _ & _ & R & B & _); [apply nth_error_Some_lt in H; lia|].
    rewrite H in B. apply Some_inj in B. subst z. apply OK. eapply nth_error_In; eauto. }
  destruct (follow_rows col1 b m C1 LM OKB) as (m1 & E1 & L1 & N1).
  destruct (follow_rows col1 c m1 C1 L1 OKC) as (m2 & E2 & L2 & N2).
  destruct (follow_rows col2 a m2 C2 L2 OKA) as (m3 & E3 & L3 & N3).
  exists m1, m2, m3. split; [auto|]. split; [auto|]. split; [auto|]. split; [auto|]. intros k. rewrite N3, N2, N1. split.
  - intros [[[H|(z & Z & H)]|(z & Z & H)]|(z & Z & H)]; [auto| | |]; right; apply In_nth_error in Z as [p Hp];
      (destruct (TRI p) as (s & j & r & C & A & R & B & RL); [apply nth_error_Some_lt in Hp; lia|]); exists s, j, r; (split; [auto|]); (split; [auto|]).
    + rewrite B in Hp. apply Some_inj in Hp. subst z. auto.
    + rewrite C in Hp. apply Some_inj in Hp. subst z. rewrite RN in H. auto.
    + rewrite A in Hp. apply Some_inj in Hp. subst z. rewrite RN in H. auto.
  - intros [H|(s & j & r & RL & R & H)]; [auto|]. apply CH in RL as (p & C & A). pose proof (BO p j r A R) as B. destruct H as [H|[H|H]].
    + left. left. right. exists (other r). split; [eapply nth_error_In; eauto|auto].
    + left. right. exists (Z.of_nat s). split; [eapply nth_error_In; eauto|rewrite RN; auto].
    + right. exists (Z.of_nat j). split; [eapply nth_error_In; eauto|rewrite RN; auto].
Qed.
Theorem close_events_spec : forall merging spliting,
  exists m, mask_obs_close_event argsort merging spliting dt rows = Some m /\ length m = n /\
    forall k, nth_error m k = Some true <->
      (merging = true /\ exists i j r, merges_into rows i j /\ nth_error rows j = Some r /\
         (close_to P T dt (row_of n (prv r)) k \/ close_to P T dt i k \/ close_to N T dt j k)) \/
      (spliting = true /\ exists i j r, splits_from rows i j /\ nth_error rows i = Some r /\
         (close_to N T dt (row_of n (nxt r)) k \/ close_to N T dt j k \/ close_to P T dt i k)).
Proof.
  intros merging spliting. unfold mask_obs_close_event.
  assert (M1 : exists m1, (if merging then
    let! (i_target, ip1, ip2) := merging_event_triplet argsort rows in
    let! m := mask_follow_obs (repeat false (length rows)) P T ip1 dt in
    let! m := mask_follow_obs m P T ip2 dt in
    mask_follow_obs m N T i_target dt else Some (repeat false (length rows))) = Some m1 /\ length m1 = n /\
    forall k, nth_error m1 k = Some true <->
      (merging = true /\ exists i j r, merges_into rows i j /\ nth_error rows j = Some r /\
         (close_to P T dt (row_of n (prv r)) k \/ close_to P T dt i k \/ close_to N T dt j k))).
  { assert (Z : forall k, ~ nth_error (repeat false (length rows)) k = Some true). { intros k H. rewrite nth_error_repeat_lt in H. destruct (k <? length rows); discriminate. }
    destruct merging.
    - destruct (merging_spec argsort rows SO NE SS LK) as (a & b & c & E & TF). rewrite E. cbn [bind].
      destruct (three_follows _ _ a b c (repeat false (length rows)) P N TF) as (m1 & m2 & m3 & E1 & E2 & E3 & L3 & N3); auto.
      { intros r H. apply LK. auto. } { apply repeat_length. }
      rewrite E1. cbn [bind]. rewrite E2. cbn [bind]. rewrite E3. exists m3. split; [auto|]. split; [auto|]. intros k. rewrite N3. split.
      + intros [H|H]; [exfalso; eapply Z; eauto|auto].
      + intros [_ H]. auto.
    - eexists. split; [reflexivity|]. split; [apply repeat_length|]. intros k. split; [intros H; exfalso; eapply Z; eauto|]. intros [H _]. discriminate. }
  destruct M1 as (m1 & E1 & L1 & N1). cbv zeta. rewrite E1. cbn [bind]. destruct spliting.
  - destruct (splitting_spec argsort rows SO NE SS LK) as (a & b & c & E & TF). rewrite E. cbn [bind].
    destruct (three_follows _ _ a b c m1 N P TF) as (m2 & m3 & m4 & E2 & E3 & E4 & L4 & N4); auto.
    { intros r H. apply LK. auto. }
    rewrite E2. cbn [bind]. rewrite E3. cbn [bind]. rewrite E4. exists m4. split; [auto|]. split; [auto|]. intros k. rewrite N4, N1. split.
    + intros [H|(s & j & r & RL & R & H)]; [auto|]. right. split; [auto|]. exists j, s, r. auto.
    + intros [H|[_ (i & j & r & RL & R & H)]]; [auto|]. right. exists j, i, r. auto.
  - exists m1. split; [auto|]. split; [auto|]. intros k. rewrite N1. split; [auto|]. intros [H|[H _]]; [auto|discriminate].
Qed.
End Close.

(** ** Births and deaths *)
Definition lonely_start (rows : list nrow) : Prop :=
  forall k r, same_segment rows 0 k -> nth_error rows k = Some r -> prv r = (-1)%Z /\ nxt r = (-1)%Z.
Lemma nth_slice : forall {A} (l : list A) a b k, nth_error (slice l a b) k = if k <? b - a then nth_error l (a + k) else None.
Proof.
  intros A l a b k. unfold slice. destruct (Nat.ltb_spec k (b - a)) as [L|L].
  - rewrite nth_firstn_in by auto. apply nth_skipn_add.
  - apply nth_error_None. rewrite firstn_length. lia.
Qed.
Lemma first_is_trash_spec : forall rows, rows <> [] -> segment_sorted rows ->
  exists b, first_is_trash rows = Some b /\ (b = true <-> lonely_start rows).
Proof.
  intros rows NE SS. destruct (ends_spec rows NE SS) as (seg & first & last & EI & LL & P & FI & LI & FR & LR & F0 & L0).
  destruct (nth_error_lt_Some last 0) as [b B]; [lia|]. unfold first_is_trash. rewrite EI. cbn [bind]. rewrite F0, B. cbn [bind].
  eexists. split; [reflexivity|]. rewrite andb_true_iff, !forallb_forall. unfold lonely_start.
  assert (IN : forall r, In r (slice rows 0 b) <-> exists k, same_segment rows 0 k /\ nth_error rows k = Some r).
  { intros r. split.
    - intros H. apply In_nth_error in H as [k K]. rewrite nth_slice in K. destruct (Nat.ltb_spec k (b - 0)); [|discriminate]. exists k. split; [|auto]. apply (L0 b B). lia.
    - intros (k & S & K). apply nth_error_In with k. rewrite nth_slice. apply (L0 b B) in S. destruct (Nat.ltb_spec k (b - 0)); [auto|lia]. }
  split.
  - intros [H1 H2] k r S K. split; apply Z.eqb_eq; [apply H1|apply H2]; apply IN; eauto.
  - intros H. split; intros r R; apply IN in R as (k & S & K); apply Z.eqb_eq; apply (H k r S K).
Qed.
Lemma incr_select : forall m l, incr l -> incr (select m l).
Proof.
  intros m l. revert m. induction l as [|a l IH]; intros [|b m] H; try constructor. inversion H; subst. destruct b; simpl; auto.
  constructor; auto. intros x X. apply H2. clear -X. revert m X. induction l as [|y l IHl]; intros [|b m] X; simpl in X; try contradiction.
  destruct b; simpl in *; [destruct X as [->|X]; eauto|eauto].
Qed.
Lemma incr_tl : forall l, incr l -> incr (tl l).
Proof. intros [|a l] H; [constructor|]. inversion H; auto. Qed.
Lemma In_tl_incr : forall l x0 x, incr l -> nth_error l 0 = Some x0 -> (In x (tl l) <-> In x l /\ x <> x0).
Proof.
  intros [|a l] x0 x H E; [discriminate|]. simpl in E. apply Some_inj in E. subst a. inversion H; subst. simpl. split.
  - intros X. split; [auto|]. specialize (H2 x X). lia.
  - intros [[->|X] N]; [contradiction|auto].
Qed.
Lemma incr_head : forall l x, incr l -> In x l -> (forall y, In y l -> x <= y) -> nth_error l 0 = Some x.
Proof.
  intros [|a l] x H I M; [destruct I|]. inversion H; subst. simpl. destruct I as [->|I]; [auto|]. specialize (H2 x I). specialize (M a (or_introl eq_refl)). lia.
Qed.

Theorem birth_spec : forall rows, rows <> [] -> segment_sorted rows ->
  exists ix, birth_event rows = Some ix /\ incr ix /\
    forall i, In i ix <-> (exists r, nth_error rows i = Some r /\ first_row rows i /\ prv r = (-1)%Z) /\ ~ (lonely_start rows /\ i = 0).
Proof.
  intros rows NE SS. destruct (ends_spec rows NE SS) as (seg & first & last & EI & LL & P & FI & LI & FR & LR & F0 & L0).
  destruct (first_is_trash_spec rows NE SS) as (tr & ET & TS).
  unfold birth_event. rewrite EI. cbn [bind].
  destruct (gather_total (map prv rows) first) as [p G]. { intros i H. rewrite map_length. apply FR in H. tauto. }
  rewrite G. cbn [bind]. rewrite ET. cbn [bind]. apply gather_Some in G as [LG GN].
  set (m := map (fun z => (z =? -1)%Z) p). set (ix := select m first).
  assert (LM : length m = length first) by (unfold m; rewrite map_length; auto).
  assert (IX : forall i, In i ix <-> exists r, nth_error rows i = Some r /\ first_row rows i /\ prv r = (-1)%Z).
  { intros i. unfold ix. rewrite In_select. split.
    - intros (k & M & K). destruct (GN k i K) as (z & Z1 & Z2). unfold m in M. rewrite nth_error_map, Z2 in M. simpl in M. apply Some_inj, Z.eqb_eq in M. subst z.
      apply col_nth in Z1 as (r & R & E). exists r. split; [auto|]. split; [|auto]. apply nth_error_In, FR in K. tauto.
    - intros (r & R & F & E). assert (IF : In i first) by (apply FR; split; [eapply nth_error_Some_lt; eauto|auto]). apply In_nth_error in IF as [k K].
      exists k. split; [|auto]. destruct (GN k i K) as (z & Z1 & Z2). unfold m. rewrite nth_error_map, Z2. simpl. f_equal. apply Z.eqb_eq.
      apply col_nth in Z1 as (r' & R' & E'). rewrite R in R'. apply Some_inj in R'. subst. auto. }
  assert (INC : incr ix) by (apply incr_select; auto).
  destruct tr.
  - assert (LS : lonely_start rows) by (apply TS; auto).
    assert (H0 : In 0 ix). { apply IX. destruct rows as [|r rows]; [congruence|]. exists r. split; [auto|]. split; [intros k _; lia|]. apply (LS 0 r); [|auto]. exists r, r. auto. }
    exists (tl ix). split; [auto|]. split; [apply incr_tl; auto|]. intros i. rewrite (In_tl_incr ix 0 i INC), IX; [tauto|]. apply incr_head; auto. intros; lia.
  - exists ix. split; [auto|]. split; [auto|]. intros i. rewrite IX. assert (~ lonely_start rows) by (intros X; apply TS in X; discriminate). tauto.
Qed.
Theorem death_spec : forall rows, rows <> [] -> segment_sorted rows -> links_ok rows ->
  exists ix, death_event rows = Some ix /\ incr ix /\
    forall i, In i ix <-> (exists r, nth_error rows i = Some r /\ last_row rows i /\ nxt r = (-1)%Z) /\ ~ (lonely_start rows /\ same_segment rows 0 i).
Proof.
  intros rows NE SS LK. destruct (ends_spec rows NE SS) as (seg & first & last & EI & LL & P & FI & LI & FR & LR & F0 & L0).
  destruct (first_is_trash_spec rows NE SS) as (tr & ET & TS).
  unfold death_event. rewrite EI. cbn [bind].
  destruct (take_all (map nxt rows) (map (fun b => (Z.of_nat b - 1)%Z) last) (fun z v => nth_error (map nxt rows) (Z.to_nat z) = Some v)) as (p & G & LG & GN).
  { intros z H. apply in_map_iff in H as (b & <- & H). apply LR in H as [B _]. destruct (nth_error_lt_Some (map nxt rows) (b - 1)) as [v V]; [rewrite map_length; lia|].
    exists v. rewrite (pyget_nat (map nxt rows) _ (b - 1)) by (try rewrite map_length; lia). replace (Z.to_nat (Z.of_nat b - 1)) with (b - 1) by lia. auto. }
  rewrite G. cbn [bind]. rewrite ET. cbn [bind]. rewrite map_length in LG.
  set (m := map (fun z => (z =? -1)%Z) p). set (ix := select m last).
  assert (IX : forall b, In b ix <-> 0 < b /\ exists r, nth_error rows (b - 1) = Some r /\ last_row rows (b - 1) /\ nxt r = (-1)%Z).
  { intros b. unfold ix. rewrite In_select. split.
    - intros (k & M & K). pose proof (nth_error_In _ _ K) as KI. apply LR in KI as [B R].
      destruct (GN k (Z.of_nat b - 1)%Z) as (z & Z1 & Z2). { rewrite nth_error_map, K. auto. }
      unfold m in M. rewrite nth_error_map, Z1 in M. simpl in M. apply Some_inj, Z.eqb_eq in M. subst z.
      replace (Z.to_nat (Z.of_nat b - 1)) with (b - 1) in Z2 by lia. apply col_nth in Z2 as (r & H & E). split; [lia|]. exists r. auto.
    - intros (B & r & R & F & E). assert (IF : In b last) by (apply LR; split; [apply nth_error_Some_lt in R; lia|auto]). apply In_nth_error in IF as [k K].
      exists k. split; [|auto]. destruct (GN k (Z.of_nat b - 1)%Z) as (z & Z1 & Z2). { rewrite nth_error_map, K. auto. }
      unfold m. rewrite nth_error_map, Z1. simpl. f_equal. apply Z.eqb_eq.
      replace (Z.to_nat (Z.of_nat b - 1)) with (b - 1) in Z2 by lia. apply col_nth in Z2 as (r' & R' & E'). rewrite R in R'. apply Some_inj in R'. subst. auto. }
  assert (INC : incr ix) by (apply incr_select; auto).
  assert (PRED : forall l, incr l -> (forall b, In b l -> 0 < b) -> incr (map pred l)).
  { induction l as [|a l IH]; intros H B; simpl; constructor; inversion H; subst.
    - intros x X. apply in_map_iff in X as (y & <- & Y). specialize (H2 y Y). assert (0 < a) by (apply B; left; auto). lia.
    - apply IH; auto. intros; apply B; right; auto. }
  assert (INC2 : incr (map pred ix)) by (apply PRED; auto; intros b H; apply IX in H; tauto).
  assert (IX2 : forall i, In i (map pred ix) <-> exists r, nth_error rows i = Some r /\ last_row rows i /\ nxt r = (-1)%Z).
  { intros i. rewrite in_map_iff. split.
    - intros (b & <- & H). apply IX in H as (B & r & R). replace (pred b) with (b - 1) by lia. eauto.
    - intros (r & R). exists (S i). split; [auto|]. apply IX. replace (S i - 1) with i by lia. split; [lia|eauto]. }
  destruct tr.
  - assert (LS : lonely_start rows) by (apply TS; auto).
    destruct (nth_error_lt_Some last 0) as [b B]; [lia|]. pose proof (nth_error_In _ _ B) as BI. apply LR in BI as [BB BR].
    assert (SB : same_segment rows 0 (b - 1)) by (apply (L0 b B); lia).
    assert (HB : In (b - 1) (map pred ix)).
    { apply IX2. destruct (nth_error_lt_Some rows (b - 1)) as [r R]; [lia|]. exists r. split; [auto|]. split; [auto|]. apply (LS (b - 1) r); auto. }
    assert (SEG : forall i, same_segment rows 0 i -> last_row rows i -> i = b - 1).
    { intros i S L. assert (i < b) by (apply (L0 b B); auto).
      assert (S' : same_segment rows i (b - 1)) by (eapply same_trans; [apply same_sym; eauto|auto]). specialize (L (b - 1) S'). lia. }
    exists (tl (map pred ix)). split; [auto|]. split; [apply incr_tl; auto|]. intros i.
    rewrite (In_tl_incr (map pred ix) (b - 1) i INC2).
    + rewrite IX2. split.
      * intros [(r & R & L & N) D]. split; [eauto|]. intros [_ S]. apply D, SEG; auto.
      * intros [(r & R & L & N) D]. split; [eauto|]. intros ->. apply D. auto.
    + apply incr_head; auto. intros y Y. apply IX2 in Y as (r & R & L & N). destruct (le_lt_dec (b - 1) y) as [?|G']; [auto|].
      assert (S : same_segment rows 0 y) by (apply (L0 b B); lia). rewrite (SEG y S L). lia.
  - exists (map pred ix). split; [auto|]. split; [auto|]. intros i. rewrite IX2. assert (~ lonely_start rows) by (intros X; apply TS in X; discriminate). tauto.
Qed.
