(** Checks of the hypotheses of the properties on small networks, for the examples. *)
From Coq Require Import List Arith ZArith QArith Bool Lia.
From Verif Require Import Base Qaux Net_model Net_spec NetFix_spec.
Import ListNotations.
Local Close Scope Q_scope.
Local Open Scope nat_scope.

Section Check.
Context (rows : list nrow).
Notation n := (length rows).
Definition all (P : nat -> nrow -> bool) : bool := forallb (fun x => P (fst x) (snd x)) (combine (seq 0 n) rows).
Definition some (P : nat -> nrow -> bool) : bool := existsb (fun x => P (fst x) (snd x)) (combine (seq 0 n) rows).
Lemma in_comb : forall i r, In (i, r) (combine (seq 0 n) rows) <-> nth_error rows i = Some r.
Proof.
  assert (G : forall (l : list nrow) a i r, In (i, r) (combine (seq a (length l)) l) <-> a <= i /\ nth_error l (i - a) = Some r).
  { induction l as [|x l IH]; intros a i r; simpl.
    - split; [contradiction|]. intros [_ H]. destruct (i - a); discriminate.
    - rewrite IH. split.
      + intros [H|[H1 H2]]; [injection H as -> ->; rewrite Nat.sub_diag; auto|]. split; [lia|]. replace (i - a) with (S (i - S a)) by lia. auto.
      + intros [H1 H2]. destruct (Nat.eq_dec a i) as [->|N]; [rewrite Nat.sub_diag in H2; simpl in H2; apply Some_inj in H2; subst; auto|].
        right. split; [lia|]. replace (i - a) with (S (i - S a)) in H2 by lia. auto. }
  intros i r. rewrite G, Nat.sub_0_r. intuition lia.
Qed.
Lemma all_iff : forall P, all P = true <-> forall i r, nth_error rows i = Some r -> P i r = true.
Proof.
  intros P. unfold all. rewrite forallb_forall. split.
  - intros H i r R. apply (H (i, r)). apply in_comb. auto.
  - intros H [i r] I. apply in_comb in I. apply H. auto.
Qed.
Lemma some_iff : forall P, some P = true <-> exists i r, nth_error rows i = Some r /\ P i r = true.
Proof.
  intros P. unfold some. rewrite existsb_exists. split.
  - intros ([i r] & I & H). apply in_comb in I. eauto.
  - intros (i & r & R & H). exists (i, r). split; [apply in_comb; auto|auto].
Qed.
Definition same_b (a b : nrow) : bool := (track a =? track b) && (segment a =? segment b).
Lemma same_b_iff : forall i j a b, nth_error rows i = Some a -> nth_error rows j = Some b -> (same_b a b = true <-> same_segment rows i j).
Proof.
  intros i j a b A B. unfold same_b. rewrite andb_true_iff, !Nat.eqb_eq. split.
  - intros [X Y]. exists a, b. auto.
  - intros (a' & b' & A' & B' & X & Y). rewrite A in A'. rewrite B in B'. apply Some_inj in A', B'. subst. auto.
Qed.
Definition first_b (i : nat) (r : nrow) : bool := all (fun k q => implb (same_b r q) (i <=? k)).
Definition last_b (i : nat) (r : nrow) : bool := all (fun k q => implb (same_b r q) (k <=? i)).
Lemma implb_iff : forall a b, implb a b = true <-> (a = true -> b = true).
Proof. intros [] []; simpl; intuition. Qed.
Lemma first_b_iff : forall i r, nth_error rows i = Some r -> (first_b i r = true <-> first_row rows i).
Proof.
  intros i r R. unfold first_b. rewrite all_iff. split.
  - intros H k K. pose proof K as (a & b & A & B & _). specialize (H k b B). rewrite implb_iff in H. apply Nat.leb_le, H. apply (same_b_iff i k); auto.
  - intros H k q Q. apply implb_iff. intros X. apply Nat.leb_le, H. apply (same_b_iff i k r q); auto.
Qed.
Lemma last_b_iff : forall i r, nth_error rows i = Some r -> (last_b i r = true <-> last_row rows i).
Proof.
  intros i r R. unfold last_b. rewrite all_iff. split.
  - intros H k K. pose proof K as (a & b & A & B & _). specialize (H k b B). rewrite implb_iff in H. apply Nat.leb_le, H. apply (same_b_iff i k); auto.
  - intros H k q Q. apply implb_iff. intros X. apply Nat.leb_le, H. apply (same_b_iff i k r q); auto.
Qed.
Definition is_link (z : Z) (j : nat) : bool := (z =? Z.of_nat j)%Z.
Definition inside_b : bool := all (fun i r => all (fun j q => implb (is_link (nxt r) j || is_link (prv r) j) (track r =? track q))).
Lemma inside_checked : inside_b = true -> inside_networks rows.
Proof.
  intros H i r j q R Q L. unfold inside_b in H. rewrite all_iff in H. specialize (H i r R). rewrite all_iff in H. specialize (H j q Q). rewrite implb_iff in H.
  apply Nat.eqb_eq, H. apply orb_true_iff. unfold is_link. rewrite !Z.eqb_eq. auto.
Qed.
Definition rise_in : bool := all (fun i a => all (fun j b => implb ((i <? j) && same_b a b) (time a <? time b)%Z)).
Lemma rise_in_checked : rise_in = true -> forall i j a b, i < j -> same_segment rows i j -> nth_error rows i = Some a -> nth_error rows j = Some b -> (time a < time b)%Z.
Proof.
  intros H i j a b L S' A B. unfold rise_in in H. rewrite all_iff in H. specialize (H i a A). rewrite all_iff in H. specialize (H j b B). rewrite implb_iff in H.
  apply Z.ltb_lt, H. rewrite (proj2 (same_b_iff i j a b A B) S'). rewrite (proj2 (Nat.ltb_lt i j) L). reflexivity.
Qed.
Definition rise_split : bool := all (fun i a => all (fun j b => implb (is_link (prv b) i && first_b j b) (time a <? time b)%Z)).
Lemma rise_checked : rise_in = true -> rise_split = true -> times_rise rows.
Proof.
  intros H K. split; [apply rise_in_checked; auto|]. intros i j a b A B F P. unfold rise_split in K. rewrite all_iff in K. specialize (K i a A). rewrite all_iff in K. specialize (K j b B). rewrite implb_iff in K.
  apply Z.ltb_lt, K. unfold is_link. rewrite (proj2 (Z.eqb_eq _ _) P). apply (first_b_iff j b B). auto.
Qed.
Definition rise_merge : bool := all (fun i a => all (fun j b => implb (is_link (nxt a) j && last_b i a) (time a <? time b)%Z)).
Lemma merge_checked : rise_in = true -> rise_merge = true -> times_merge rows.
Proof.
  intros H K. split; [apply rise_in_checked; auto|]. intros i j a b A B F P. unfold rise_merge in K. rewrite all_iff in K. specialize (K i a A). rewrite all_iff in K. specialize (K j b B). rewrite implb_iff in K.
  apply Z.ltb_lt, K. unfold is_link. rewrite (proj2 (Z.eqb_eq _ _) P). apply (last_b_iff i a A). auto.
Qed.
Definition splits_b : bool := all (fun m rm => all (fun s rs => implb (is_link (prv rs) m && first_b s rs)
  (all (fun e re => implb (same_b rm re && last_b e re && (nxt re =? -1)%Z) ((nxt rm =? Z.of_nat (S m))%Z && match nth_error rows (S m) with Some r => same_b rm r | None => false end))))).
Lemma splits_checked : splits_b = true -> splits_inside rows.
Proof.
  intros H m s rm rs e re RM RS F P S' L RE N. unfold splits_b in H. rewrite all_iff in H. specialize (H m rm RM). rewrite all_iff in H. specialize (H s rs RS). rewrite implb_iff in H.
  assert (X : is_link (prv rs) m && first_b s rs = true). { unfold is_link. rewrite (proj2 (Z.eqb_eq _ _) P). apply (first_b_iff s rs RS). auto. }
  specialize (H X). rewrite all_iff in H. specialize (H e re RE). rewrite implb_iff in H.
  assert (Y : same_b rm re && last_b e re && (nxt re =? -1)%Z = true). { rewrite (proj2 (same_b_iff m e rm re RM RE) S'), (proj2 (last_b_iff e re RE) L). cbn [andb]. apply Z.eqb_eq. auto. }
  specialize (H Y). apply andb_true_iff in H as [H1 H2]. apply Z.eqb_eq in H1. split; [auto|]. destruct (nth_error rows (S m)) as [r|] eqn:E; [|discriminate]. apply (same_b_iff m (S m) rm r); auto.
Qed.
Context (dmax : Z).
Definition close_b (e : nat) (re : nrow) (k : nat) (rn : nrow) : bool :=
  last_b e re && is_link (nxt re) k && some (fun f rf => same_b rn rf && first_b f rf && some (fun p rp => is_link (prv rf) p && same_b rp re && (time rn - time rp <? dmax)%Z)).
Lemma close_b_iff : forall e re k rn, nth_error rows e = Some re -> nth_error rows k = Some rn -> (close_b e re k rn = true <-> close_event rows dmax e k).
Proof.
  intros e re k rn RE RN. unfold close_b. rewrite !andb_true_iff, some_iff, (last_b_iff e re RE). unfold is_link. rewrite Z.eqb_eq. split.
  - intros [[L N] (f & rf & RF & X)]. rewrite !andb_true_iff, some_iff in X. destruct X as [[S1 F] (p & rp & RP & Y)]. rewrite !andb_true_iff, Z.eqb_eq, Z.ltb_lt in Y. destruct Y as [[P S2] T].
    exists re, rn, f, rf, p, rp. rewrite (same_b_iff k f rn rf RN RF) in S1. rewrite (first_b_iff f rf RF) in F. rewrite (same_b_iff p e rp re RP RE) in S2. auto 15.
  - intros (re' & rn' & f & rf & p & rp & A1 & A2 & A3 & A4 & A5 & A6 & A7 & A8 & A9 & A10 & A11). rewrite RE in A1. rewrite RN in A4. apply Some_inj in A1, A4. subst re' rn'.
    split; [auto|]. exists f, rf. split; [auto|]. rewrite !andb_true_iff, some_iff. split; [split; [apply (same_b_iff k f); auto|apply first_b_iff; auto]|].
    exists p, rp. split; [auto|]. rewrite !andb_true_iff, Z.eqb_eq, Z.ltb_lt. split; [split; [auto|apply (same_b_iff p e); auto]|auto].
Qed.
Definition apart_b : bool := all (fun e re => all (fun k rn => implb (close_b e re k rn)
  (all (fun j r => implb (same_b rn r && last_b j r) (nxt r =? -1)%Z) &&
   all (fun e' r' => implb (last_b e' r') (all (fun k' rn' => implb (is_link (nxt r') k' && same_b rn rn' && (k <=? k')) (e' =? e))))))).
Lemma apart_checked : apart_b = true -> apart rows dmax.
Proof.
  intros H. unfold apart_b in H. rewrite all_iff in H.
  assert (G : forall e k, close_event rows dmax e k -> exists re rn, nth_error rows e = Some re /\ nth_error rows k = Some rn /\
    all (fun j r => implb (same_b rn r && last_b j r) (nxt r =? -1)%Z) = true /\
    all (fun e' r' => implb (last_b e' r') (all (fun k' rn' => implb (is_link (nxt r') k' && same_b rn rn' && (k <=? k')) (e' =? e)))) = true).
  { intros e k C. pose proof C as (re & rn & _ & _ & _ & _ & RE & _ & _ & RN & _). specialize (H e re RE). rewrite all_iff in H. specialize (H k rn RN). rewrite implb_iff in H.
    apply (close_b_iff e re k rn RE RN) in C. specialize (H C). apply andb_true_iff in H. exists re, rn. intuition. }
  split.
  - intros e k j r C S' L R. destruct (G e k C) as (re & rn & RE & RN & A & _). rewrite all_iff in A. specialize (A j r R). rewrite implb_iff in A. apply Z.eqb_eq, A.
    rewrite (proj2 (same_b_iff k j rn r RN R) S'), (proj2 (last_b_iff j r R) L). reflexivity.
  - intros e k e' r' k' C R' L N S' LE. destruct (G e k C) as (re & rn & RE & RN & _ & A). rewrite all_iff in A. specialize (A e' r' R'). rewrite implb_iff in A.
    specialize (A (proj2 (last_b_iff e' r' R') L)). rewrite all_iff in A. pose proof S' as (x & rn' & _ & RN' & _). specialize (A k' rn' RN'). rewrite implb_iff in A. apply Nat.eqb_eq, A.
    unfold is_link. rewrite (proj2 (Z.eqb_eq _ _) N), (proj2 (same_b_iff k k' rn rn' RN RN') S'). apply Nat.leb_le. auto.
Qed.

Context (a b : Z) (delta : Q) (cost : nrow -> Q).
Definition asked_b (m : nat) (rm : nrow) (s : nat) (rs : nrow) : bool :=
  first_b s rs && is_link (prv rs) m &&
  match nth_error rows (S m) with Some rn => Qlt_bool delta (cost rs - cost rn) | None => false end &&
  some (fun e re => same_b rm re && last_b e re && (nxt re =? -1)%Z && (time re - time rm <=? a)%Z) &&
  some (fun f rf => same_b rs rf && last_b f rf && (b <=? time rf - time rs)%Z).
Lemma asked_b_iff : forall m rm s rs, nth_error rows m = Some rm -> nth_error rows s = Some rs -> (asked_b m rm s rs = true <-> to_swap a b delta cost rows m s).
Proof.
  intros m rm s rs RM RS. unfold asked_b. rewrite !andb_true_iff, !some_iff, (first_b_iff s rs RS). unfold is_link. rewrite Z.eqb_eq. split.
  - intros [[[[F P] D] (e & re & RE & X)] (f & rf & RF & Y)]. destruct (nth_error rows (S m)) as [rn|] eqn:RN; [|discriminate]. apply Qlt_bool_iff in D.
    rewrite !andb_true_iff, Z.eqb_eq, Z.leb_le in X. rewrite !andb_true_iff, Z.leb_le in Y. destruct X as [[[X1 X2] X3] X4]. destruct Y as [[Y1 Y2] Y3].
    rewrite (same_b_iff m e rm re RM RE) in X1. rewrite (same_b_iff s f rs rf RS RF) in Y1. rewrite (last_b_iff e re RE) in X2. rewrite (last_b_iff f rf RF) in Y2.
    exists rm, rn, rs, e, re, f, rf. auto 20.
  - intros (rm' & rn & rs' & e & re & f & rf & A1 & A2 & A3 & A4 & A5 & A6 & A7 & A8 & A9 & A10 & A11 & A12 & A13 & A14 & A15).
    rewrite RM in A1. rewrite RS in A3. apply Some_inj in A1, A3. subst rm' rs'. rewrite A2. apply Qlt_bool_iff in A15. split; [split; [auto|]|].
    + exists e, re. split; [auto|]. rewrite !andb_true_iff, Z.eqb_eq, Z.leb_le. rewrite (same_b_iff m e rm re RM A8), (last_b_iff e re A8). auto.
    + exists f, rf. split; [auto|]. rewrite !andb_true_iff, Z.leb_le. rewrite (same_b_iff s f rs rf RS A11), (last_b_iff f rf A11). auto.
Qed.
Definition pairs_b (P : nat -> nrow -> nat -> nrow -> nat -> nrow -> nat -> nrow -> bool) : bool :=
  all (fun m rm => all (fun s rs => implb (asked_b m rm s rs) (all (fun m' rm' => all (fun s' rs' => implb (asked_b m' rm' s' rs') (P m rm s rs m' rm' s' rs')))))).
Lemma pairs_checked : forall P, pairs_b P = true -> forall m s m' s', to_swap a b delta cost rows m s -> to_swap a b delta cost rows m' s' ->
  exists rm rs rm' rs', nth_error rows m = Some rm /\ nth_error rows s = Some rs /\ nth_error rows m' = Some rm' /\ nth_error rows s' = Some rs' /\ P m rm s rs m' rm' s' rs' = true.
Proof.
  intros P H m s m' s' A B. pose proof A as (rm & _ & rs & _ & _ & _ & _ & RM & _ & RS & _). pose proof B as (rm' & _ & rs' & _ & _ & _ & _ & RM' & _ & RS' & _).
  exists rm, rs, rm', rs'. split; [auto|]. split; [auto|]. split; [auto|]. split; [auto|].
  unfold pairs_b in H. rewrite all_iff in H. specialize (H m rm RM). rewrite all_iff in H. specialize (H s rs RS). rewrite implb_iff in H. rewrite <- (asked_b_iff m rm s rs RM RS) in A. specialize (H A).
  rewrite all_iff in H. specialize (H m' rm' RM'). rewrite all_iff in H. specialize (H s' rs' RS'). rewrite implb_iff in H. rewrite <- (asked_b_iff m' rm' s' rs' RM' RS') in B. apply H. auto.
Qed.
Definition one_b : bool := pairs_b (fun m _ s _ m' _ s' _ => implb (m =? m') (s =? s')).
Lemma one_checked : one_b = true -> forall m s s', to_swap a b delta cost rows m s -> to_swap a b delta cost rows m s' -> s = s'.
Proof.
  intros H m s s' A B. destruct (pairs_checked _ H m s m s' A B) as (_ & _ & _ & _ & _ & _ & _ & _ & X). rewrite Nat.eqb_refl in X. apply Nat.eqb_eq. auto.
Qed.
Definition alone_b : bool := pairs_b (fun m rm s rs m' rm' s' rs' => implb (same_b rm rm' || same_b rm rs' || same_b rs rm' || same_b rs rs') ((m =? m') && (s =? s'))).
Lemma alone_checked : alone_b = true -> forall m s m' s', to_swap a b delta cost rows m s -> to_swap a b delta cost rows m' s' ->
  (same_segment rows m m' \/ same_segment rows m s' \/ same_segment rows s m' \/ same_segment rows s s') -> m = m' /\ s = s'.
Proof.
  intros H m s m' s' A B D. destruct (pairs_checked _ H m s m' s' A B) as (rm & rs & rm' & rs' & RM & RS & RM' & RS' & X). rewrite implb_iff, andb_true_iff, !Nat.eqb_eq in X. apply X.
  rewrite !orb_true_iff, (same_b_iff m m' rm rm' RM RM'), (same_b_iff m s' rm rs' RM RS'), (same_b_iff s m' rs rm' RS RM'), (same_b_iff s s' rs rs' RS RS'). tauto.
Qed.
End Check.
