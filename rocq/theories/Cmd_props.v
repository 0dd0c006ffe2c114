(** Property C119: the command of tracking. *)
From Coq Require Import List Arith ZArith Bool QArith Permutation Lia.
From Verif Require Import Base Qaux Spec Corr_model Corr_spec Corr_proofs Corr_merge Corr_more Corr_props Cmd_model.
Import ListNotations.
Local Close Scope Q_scope.
Local Open Scope nat_scope.

(** ** Choice of the files *)
(** In the order of dates, then of names. *)
Definition in_order {Obs} (l : list (file Obs)) : Prop :=
  forall i j a b, i < j -> nth_error l i = Some a -> nth_error l j = Some b -> (f_date a < f_date b)%Z \/ (f_date a = f_date b /\ (f_name a <= f_name b)%Z).
(** The dates are regularly spaced. *)
Definition regular {Obs} (l : list (file Obs)) : Prop :=
  exists step, forall i a b, nth_error l i = Some a -> nth_error l (S i) = Some b -> (f_date b = f_date a + step)%Z.

Section Files.
Context {Obs : Type}.
Implicit Types (l files : list (file Obs)) (a b : file Obs).
Definition le_file a b : Prop := (f_date a < f_date b)%Z \/ (f_date a = f_date b /\ (f_name a <= f_name b)%Z).
Lemma before_iff : forall a b, before a b = true <-> le_file a b.
Proof. intros a b. unfold before, le_file. rewrite orb_true_iff, andb_true_iff, Z.ltb_lt, Z.eqb_eq, Z.leb_le. tauto. Qed.
Lemma le_total : forall a b, before a b = false -> le_file b a.
Proof. intros a b H. assert (N : ~ le_file a b) by (intros C; apply before_iff in C; congruence). unfold le_file in *. lia. Qed.
Lemma le_trans : forall a b (c : file Obs), le_file a b -> le_file b c -> le_file a c.
Proof. unfold le_file. lia. Qed.
Fixpoint ssorted l : Prop := match l with [] => True | a :: l' => (forall b, In b l' -> le_file a b) /\ ssorted l' end.
Lemma ssorted_order : forall l, ssorted l -> in_order l.
Proof.
  induction l as [|x l IH]; intros H i j a b L A B; [destruct i; discriminate A|]. destruct H as [H1 H2]. destruct j as [|j]; [lia|]. cbn in B. destruct i as [|i]; cbn in A.
  - apply Some_inj in A. subst x. apply (H1 b). eapply nth_error_In; eauto.
  - apply (IH H2 i j a b); [lia|exact A|exact B].
Qed.
Lemma finsert_perm : forall a l, Permutation (a :: l) (finsert a l).
Proof. intros a. induction l as [|b l IH]; [apply Permutation_refl|]. cbn [finsert]. destruct (before a b); [apply Permutation_refl|]. eapply Permutation_trans; [apply perm_swap|]. apply perm_skip, IH. Qed.
Lemma finsert_sorted : forall a l, ssorted l -> ssorted (finsert a l).
Proof.
  intros a. induction l as [|b l IH]; intros H; [split; [intros b []|exact I]|]. cbn [finsert]. destruct (before a b) eqn:E.
  - apply before_iff in E. split; [|exact H]. intros c [<-|C]; [exact E|]. destruct H as [H _]. eapply le_trans; [exact E|apply H, C].
  - destruct H as [H1 H2]. split; [|apply IH, H2]. intros c C. apply (Permutation_in _ (Permutation_sym (finsert_perm a l))) in C as [<-|C]; [apply le_total, E|apply H1, C].
Qed.
Lemma fsort_spec : forall l, Permutation l (fsort l) /\ ssorted (fsort l).
Proof.
  induction l as [|a l [P S1]]; [split; [constructor|exact I]|]. cbn [fsort fold_right]. fold (fsort l). split; [|apply finsert_sorted, S1].
  eapply Permutation_trans; [apply perm_skip, P|apply finsert_perm].
Qed.
Lemma nth_diffs : forall l i a b, nth_error l i = Some a -> nth_error l (S i) = Some b -> nth_error (diffs l) i = Some (f_date b - f_date a)%Z.
Proof.
  induction l as [|x l IH]; intros i a b A B; [destruct i; discriminate A|]. destruct l as [|y l]; [destruct i as [|[|i]]; discriminate B|]. destruct i as [|i].
  - cbn in A, B. apply Some_inj in A, B. subst. reflexivity.
  - change (nth_error (diffs (y :: l)) i = Some (f_date b - f_date a)%Z). apply IH; assumption.
Qed.
Lemma length_diffs : forall l, length (diffs l) = length l - 1.
Proof. induction l as [|x l IH]; [reflexivity|]. destruct l as [|y l]; [reflexivity|]. change (length (diffs (x :: y :: l))) with (S (length (diffs (y :: l)))). rewrite IH. cbn [length]. lia. Qed.
Lemma one_step_spec : forall l, one_step l = true <-> regular l.
Proof.
  intros l. unfold one_step. split.
  - intros H. destruct (diffs l) as [|s r] eqn:D.
    + exists 0%Z. intros i a b A B. pose proof (nth_diffs l i a b A B) as N. rewrite D in N. destruct i; discriminate N.
    + exists s. intros i a b A B. pose proof (nth_diffs l i a b A B) as N. rewrite D in N. destruct i as [|i]; cbn in N; [apply Some_inj in N; lia|].
      rewrite forallb_forall in H. apply nth_error_In in N. apply H in N. apply Z.eqb_eq in N. lia.
  - intros (s & H). assert (G : forall i x, nth_error (diffs l) i = Some x -> x = s).
    { intros i x N. pose proof (nth_error_Some_lt _ _ _ N) as L. rewrite length_diffs in L. destruct (nth_error_lt_Some l i ltac:(lia)) as (a & A). destruct (nth_error_lt_Some l (S i) ltac:(lia)) as (b & B).
      rewrite (nth_diffs l i a b A B) in N. apply Some_inj in N. rewrite (H i a b A B) in N. lia. }
    destruct (diffs l) as [|x r] eqn:D; [reflexivity|]. apply forallb_forall. intros y Y. apply In_nth_error in Y as (i & Y). apply Z.eqb_eq. rewrite (G 0 x eq_refl), (G (S i) y Y). reflexivity.
Qed.
Lemma stride_nth : forall {A} k (l : list A), 1 <= k -> forall w i, nth_error (stride_from k w l) i = nth_error l (w + i * k).
Proof.
  intros A k l K. induction l as [|a l IH]; intros w i; [cbn [stride_from]; destruct i, (w + _ * k); reflexivity|]. cbn [stride_from]. destruct w as [|w].
  - destruct i as [|i]; [reflexivity|]. cbn [nth_error]. rewrite IH. replace (0 + S i * k) with (S (k - 1 + i * k)) by (destruct k; cbn in *; lia). reflexivity.
  - rewrite IH. reflexivity.
Qed.
End Files.

(** The files are taken in the order of dates; one out of [sub] is kept, then
    those of the period.  The command fails exactly when the dates are not
    regularly spaced, when [sub] is null, or when a bound is given without the
    other or without any file. *)
Theorem C119_files : forall {Obs} sub start stop (files : list (file Obs)), exists sorted,
  Permutation files sorted /\ in_order sorted /\
  (browse sub start stop files = None <-> ~ regular sorted \/ sub = 0 \/ (start <> None \/ stop <> None) /\ (files = [] \/ start = None \/ stop = None)) /\
  forall l, browse sub start stop files = Some l -> exists strided,
    (forall i, nth_error strided i = nth_error sorted (i * sub)) /\
    l = match start, stop with Some a, Some b => filter (fun f => ((a <=? f_date f) && (f_date f <=? b))%Z) strided | _, _ => strided end.
Proof.
  intros Obs sub start stop files. exists (fsort files). destruct (fsort_spec files) as [P S0]. split; [exact P|]. split; [apply ssorted_order, S0|].
  unfold browse. set (s := fsort files) in *. assert (NE : files = [] <-> length s = 0). { rewrite <- (Permutation_length P). destruct files; cbn; split; intros; try reflexivity; try discriminate; lia. }
  assert (SN : forall l', (if sub =? 1 then Some s else if sub =? 0 then None else Some (stride_from sub 0 s)) = Some l' -> (forall i, nth_error l' i = nth_error s (i * sub)) /\ (length l' = 0 <-> length s = 0)).
  { intros l' H. assert (G : forall i, nth_error l' i = nth_error s (i * sub)).
    { destruct (Nat.eqb_spec sub 1) as [->|N1]; [apply Some_inj in H; subst l'; intros i; rewrite Nat.mul_1_r; reflexivity|]. destruct (Nat.eqb_spec sub 0) as [|N0]; [discriminate H|]. apply Some_inj in H. subst l'. intros i. apply stride_nth. lia. }
    split; [exact G|]. specialize (G 0). destruct l', s; cbn in *; split; intros; try reflexivity; try discriminate. }
  clearbody s. destruct (one_step s) eqn:O; cbn [negb].
  - apply one_step_spec in O. destruct (Nat.eqb_spec sub 1) as [->|N1]; [|destruct (Nat.eqb_spec sub 0) as [->|N0]].
    + cbn [bind]. destruct (SN s) as [G GL]; [reflexivity|]. split.
      * destruct start as [a|], stop as [b|]; cbn [bind]; try (destruct (Nat.eqb_spec (length s) 0) as [Z|Z]; [apply NE in Z|pose proof (fun e => Z (proj1 NE e)) as Z']); (split; [intros H|intros [H|[H|H]]]); try discriminate; try tauto; try reflexivity; try (right; right; split; [try (left; discriminate); right; discriminate|tauto]); try (exfalso; clear -H Z Z'; tauto).
        -- exfalso. destruct H as [_ [H|[H|H]]]; [exact (Z' H)|discriminate H|discriminate H].
      * intros l H. exists s. split; [exact G|]. destruct start as [a|], stop as [b|]; cbn [bind] in H; try (destruct (length s =? 0); [discriminate H|]); cbn [bind] in H; try discriminate H; apply Some_inj in H; subst l; reflexivity.
    + cbn [bind]. split; [split; [intros _; right; left; reflexivity|reflexivity]|discriminate].
    + cbn [bind]. destruct (SN (stride_from sub 0 s)) as [G GL]; [reflexivity|]. set (t := stride_from sub 0 s) in *. clearbody t.
      assert (NE' : files = [] <-> length t = 0) by (rewrite NE; symmetry; exact GL). split.
      * destruct start as [a|], stop as [b|]; cbn [bind]; try (destruct (Nat.eqb_spec (length t) 0) as [Z|Z]; [apply NE' in Z|pose proof (fun e => Z (proj1 NE' e)) as Z']); (split; [intros H|intros [H|[H|H]]]); try discriminate; try tauto; try reflexivity; try (right; right; split; [try (left; discriminate); right; discriminate|tauto]); try (exfalso; clear -H Z Z'; tauto).
        -- exfalso. destruct H as [_ [H|[H|H]]]; [exact (Z' H)|discriminate H|discriminate H].
      * intros l H. exists t. split; [exact G|]. destruct start as [a|], stop as [b|]; cbn [bind] in H; try (destruct (length t =? 0); [discriminate H|]); cbn [bind] in H; try discriminate H; apply Some_inj in H; subst l; reflexivity.
  - split; [|discriminate]. split; [|reflexivity]. intros _. left. intros R. apply one_step_spec in R. congruence.
Qed.
Print Assumptions C119_files.
Example C119_files_case :
  let fl := [mkfile 5 30 [1]; mkfile 4 10 [2]; mkfile 7 20 [3]; mkfile 1 40 [4]]%Z in
  option_map (map (@f_name Z)) (browse 1 None None fl) = Some [4; 7; 5; 1]%Z /\
  option_map (map (@f_name Z)) (browse 2 (Some 10) (Some 25) fl)%Z = Some [4]%Z /\
  browse 1 (Some 10%Z) None fl = None /\ browse 1 None None (mkfile 9 20 [5] :: fl)%Z = None.
Proof. vm_compute. auto. Qed.

(** ** The three datasets *)
(** Observations held by rows. *)
Definition held (rows : list row) : list (nat * nat) := concat (map (fun r => match r_obs r with Some p => [p] | None => [] end) rows).
(** All the observations (rank of the file, row in the file). *)
Definition all_obs {Obs} (ds : list (list Obs)) : list (nat * nat) := concat (map (fun p => map (pair (fst p)) (seq 0 (length (snd p)))) (combine (seq 0 (length ds)) ds)).

Lemma In_held : forall rows p, In p (held rows) <-> exists i r, nth_error rows i = Some r /\ r_obs r = Some p.
Proof.
  intros rows p. unfold held. rewrite in_concat. split.
  - intros (l & L & I). apply in_map_iff in L as (r & <- & R). apply In_nth_error in R as (i & R). exists i, r. split; [exact R|]. destruct (r_obs r); [destruct I as [->|[]]; reflexivity|destruct I].
  - intros (i & r & R & E). exists [p]. split; [|left; reflexivity]. apply in_map_iff. exists r. rewrite E. split; [reflexivity|eapply nth_error_In; eauto].
Qed.
Lemma held_NoDup : forall rows, (forall i i' r r' p, nth_error rows i = Some r -> nth_error rows i' = Some r' -> r_obs r = Some p -> r_obs r' = Some p -> i = i') -> NoDup (held rows).
Proof.
  induction rows as [|r rows IH]; intros H; [constructor|].
  change (held (r :: rows)) with ((match r_obs r with Some p => [p] | None => [] end) ++ held rows).
  assert (T : NoDup (held rows)). { apply IH. intros i i' a b p A B C D. specialize (H (S i) (S i') a b p A B C D). lia. }
  destruct (r_obs r) as [p|] eqn:E; [|exact T]. cbn [app]. constructor; [|exact T]. intros C. apply In_held in C as (i & b & B & Q). specialize (H 0 (S i) r b p eq_refl B E Q). discriminate H.
Qed.
Lemma nth_files : forall {A} (l : list A) n i x, nth_error (combine (seq n (length l)) l) i = Some x -> exists a, nth_error l i = Some a /\ x = (n + i, a).
Proof.
  intros A. induction l as [|a l IH]; intros n i x H; [destruct i; discriminate H|]. cbn [length seq combine] in H. destruct i as [|i]; cbn in H.
  - apply Some_inj in H. subst x. exists a. rewrite Nat.add_0_r. auto.
  - destruct (IH (S n) i x H) as (b & B & ->). exists b. split; [exact B|]. f_equal. lia.
Qed.
Lemma In_files : forall {A} (l : list A) n x, In x (combine (seq n (length l)) l) <-> exists i a, nth_error l i = Some a /\ x = (n + i, a).
Proof.
  intros A. induction l as [|a l IH]; intros n x; cbn [length seq combine]; [split; [intros []|intros (i & b & B & _); destruct i; discriminate B]|]. cbn [In]. rewrite IH. split.
  - intros [<-|(i & b & B & ->)]; [exists 0, a; rewrite Nat.add_0_r; auto|]. exists (S i), b. split; [exact B|]. f_equal. lia.
  - intros ([|i] & b & B & ->); [left; cbn in B; apply Some_inj in B; subst; rewrite Nat.add_0_r; reflexivity|]. right. exists i, b. split; [exact B|]. f_equal. lia.
Qed.
(** Lists built file by file have no repeated observation. *)
Lemma by_file_NoDup : forall {A} (g : nat * A -> list nat) (l : list A) n, (forall x, In x (combine (seq n (length l)) l) -> NoDup (g x)) ->
  NoDup (concat (map (fun p => map (pair (fst p)) (g p)) (combine (seq n (length l)) l))).
Proof.
  intros A g. induction l as [|a l IH]; intros n H; [constructor|]. cbn [length seq combine map concat fst]. apply Corr_proofs.NoDup_app_intro.
  - apply FinFun.Injective_map_NoDup; [intros x y E; injection E; auto|]. apply H. left. reflexivity.
  - apply IH. intros x I. apply H. right. exact I.
  - intros q Q1 Q2. apply in_map_iff in Q1 as (x & <- & _). apply in_concat in Q2 as (l' & L & I). apply in_map_iff in L as (y & <- & Y). apply in_map_iff in I as (z & E & _). apply In_files in Y as (i & b & _ & ->). cbn [fst] in E. injection E as E _. lia.
Qed.
Lemma In_all_obs : forall {Obs} (ds : list (list Obs)) i x, In (i, x) (all_obs ds) <-> exists obs, nth_error ds i = Some obs /\ x < length obs.
Proof.
  intros Obs ds i x. unfold all_obs. rewrite in_concat. split.
  - intros (l & L & I). apply in_map_iff in L as (p & <- & P). apply In_files in P as (j & obs & J & ->). cbn [fst snd] in I. apply in_map_iff in I as (y & E & Y). injection E as <- <-. apply in_seq in Y. exists obs. split; [exact J|lia].
  - intros (obs & J & L). exists (map (pair i) (seq 0 (length obs))). split; [apply in_map_iff; exists (i, obs); split; [reflexivity|apply In_files; exists i, obs; auto]|]. apply in_map_iff. exists x. split; [reflexivity|apply in_seq; lia].
Qed.

(** An observation is used by the links. *)
Definition used (H : list (list corr)) (i x : nat) : Prop :=
  (exists c, link_at H i c /\ c_virtual c = false /\ c_in c = x) \/ (exists t c, S t = i /\ link_at H t c /\ c_out c = x).

Section Run.
Context {Obs V : Type} (as_obs : V -> Obs) (extrapolate : Obs -> Obs -> V) (prolong : V -> V)
  (associate : list Obs -> list Obs -> option (list (nat * nat * Q))) (nbv : nat).
Hypotheses (HA : one_to_one associate) (LN : nbv <= 127).

Lemma run_facts : forall d ds, exists (st : @state Obs V) nb rows,
  track as_obs extrapolate prolong associate nbv (d :: ds) = Some st /\
  let H := rev (s_links st) in
  nb_obs_by_tracks (0 <? nbv) (s_id st) H = Some nb /\ merge (0 <? nbv) nb H = Some rows /\ length nb = s_id st /\
  (forall id n, nth_error nb id = Some n <-> exists f l, first_link H id f /\ last_link H id l /\ n = l + 1 - f + 1) /\
  (forall id n k, nth_error nb id = Some n -> k < n -> exists r, nth_error rows (block nb id + k) = Some r /\ r_n r = k) /\
  (forall id n k id' n' k' r r' p, nth_error nb id = Some n -> k < n -> nth_error nb id' = Some n' -> k' < n' ->
     nth_error rows (block nb id + k) = Some r -> nth_error rows (block nb id' + k') = Some r' -> r_obs r = Some p -> r_obs r' = Some p -> id = id' /\ k = k') /\
  (forall i x, used H i x <-> exists id n k r, nth_error nb id = Some n /\ k < n /\ nth_error rows (block nb id + k) = Some r /\ r_obs r = Some (i, x)) /\
  (forall i x, used H i x -> exists obs, nth_error (d :: ds) i = Some obs /\ x < length obs).
Proof.
  intros d ds.
  destruct (C03_track_numbers as_obs extrapolate prolong associate nbv HA d ds) as (st & E & LH & STEPS & IDS & CHAIN & NEWID & DENSE).
  destruct (C04_virtual_memory as_obs extrapolate prolong associate nbv HA LN d ds) as (st4 & E4 & VM & _). rewrite E in E4. apply Some_inj in E4. subst st4.
  destruct (C05_length_is_time_span as_obs extrapolate prolong associate nbv HA LN d ds) as (st5 & E5 & nb & rows & EN & ER & LEN & PLACE). rewrite E in E5. apply Some_inj in E5. subst st5.
  destruct (C06_merge_rows as_obs extrapolate prolong associate nbv HA LN d ds) as (st6 & E6 & nb6 & rows6 & EN6 & ER6 & LNB & LR & COV & ROWS). rewrite E in E6. apply Some_inj in E6. subst st6.
  cbv zeta in *. rewrite EN in EN6. apply Some_inj in EN6. subst nb6. rewrite ER in ER6. apply Some_inj in ER6. subst rows6.
  exists st, nb, rows. split; [exact E|]. set (H := rev (s_links st)) in *.
  assert (FL : forall id, id < length nb -> exists f l, first_link H id f /\ last_link H id l /\ f <= l).
  { intros id L. rewrite LNB in L. apply DENSE in L as (t & T). destruct (seen_first_last (s_links st) id t T) as (f & l & F1 & L1). exists f, l. split; [exact F1|]. split; [exact L1|]. apply (proj2 F1), (proj1 L1). }
  assert (UIN : forall t c c', link_at H t c -> link_at H t c' -> c_in c = c_in c' -> c_id c = c_id c').
  { intros t c c' (s & S1 & C) (s' & S2 & C') Q. rewrite S1 in S2. apply Some_inj in S2. subst s'. destruct (STEPS t s S1) as (real & next & extra & _ & _ & AS & _). destruct (HA (real ++ extra) next) as (links & A & N1 & N2 & _). rewrite AS in A. apply Some_inj in A. subst links.
    rewrite map_map in N1. cbn [fst] in N1. clear - N1 C C' Q. induction s as [|a s IH]; [destruct C|]. cbn [map] in N1. inversion N1 as [|? ? NI ND]; subst. destruct C as [->|C], C' as [->|C']; [reflexivity| | |auto].
    - exfalso. apply NI. rewrite Q. apply in_map. exact C'.
    - exfalso. apply NI. rewrite <- Q. apply in_map. exact C. }
  assert (UOUT : forall t c c', link_at H t c -> link_at H t c' -> c_out c = c_out c' -> c_id c = c_id c').
  { intros t c c' (s & S1 & C) (s' & S2 & C') Q. rewrite S1 in S2. apply Some_inj in S2. subst s'. destruct (STEPS t s S1) as (real & next & extra & _ & _ & AS & _). destruct (HA (real ++ extra) next) as (links & A & N1 & N2 & _). rewrite AS in A. apply Some_inj in A. subst links.
    rewrite map_map in N2. cbn [fst snd] in N2. clear - N2 C C' Q. induction s as [|a s IH]; [destruct C|]. cbn [map] in N2. inversion N2 as [|? ? NI ND]; subst. destruct C as [->|C], C' as [->|C']; [reflexivity| | |auto].
    - exfalso. apply NI. rewrite Q. apply in_map. exact C'.
    - exfalso. apply NI. rewrite <- Q. apply in_map. exact C. }
  split; [exact EN|]. split; [exact ER|]. split; [exact LNB|]. split; [|split; [|split; [|split]]].
  - intros id n. split; [intros N; destruct (FL id ltac:(eapply nth_error_Some_lt; eauto)) as (f & l & F1 & L1 & LE); exists f, l; rewrite (LEN id f l F1 L1) in N; apply Some_inj in N; auto|intros (f & l & F1 & L1 & ->); apply LEN; assumption].
  - intros id n k N K. destruct (FL id ltac:(eapply nth_error_Some_lt; eauto)) as (f & l & F1 & _). destruct (ROWS id n k f N K F1) as (r & R & _ & RN & _). exists r. auto.
  - intros id n k id' n' k' r r' p N K N' K' R R' O O'. destruct (FL id ltac:(eapply nth_error_Some_lt; eauto)) as (f & l & F1 & _). destruct (FL id' ltac:(eapply nth_error_Some_lt; eauto)) as (f' & l' & F1' & _).
    destruct (ROWS id n k f N K F1) as (r1 & R1 & _ & _ & OB & _). rewrite R in R1. apply Some_inj in R1. subst r1. destruct (ROWS id' n' k' f' N' K' F1') as (r1 & R1 & _ & _ & OB' & _). rewrite R' in R1. apply Some_inj in R1. subst r1.
    destruct p as [date x]. apply OB in O as [D1 O]. apply OB' in O' as [D1' O'].
    assert (SAME : id = id').
    { destruct O as [(c & LK & <- & Z & X)|(t & c & LK & <- & T & X)], O' as [(c' & LK' & <- & Z' & X')|(t' & c' & LK' & <- & T' & X')].
      - apply (UIN date c c' LK LK'). lia.
      - apply (CHAIN t' c c'); [exact LK'|replace (S t') with date by lia; exact LK|lia].
      - symmetry. apply (CHAIN t c' c); [exact LK|replace (S t) with date by lia; exact LK'|lia].
      - assert (t = t') by lia. subst t'. apply (UOUT t c c' LK LK'). lia. }
    split; [exact SAME|]. subst id'. assert (f = f'). { destruct F1 as [A1 A2], F1' as [B1 B2]. pose proof (A2 _ B1). pose proof (B2 _ A1). lia. } lia.
  - intros i x. split.
    + assert (OUT : forall t c, link_at H t c -> S t = i -> c_out c = x -> exists id n k r, nth_error nb id = Some n /\ k < n /\ nth_error rows (block nb id + k) = Some r /\ r_obs r = Some (i, x)).
      { intros t c LK T X. assert (SE : seen H t (c_id c)) by (exists c; auto). destruct (seen_first_last (s_links st) (c_id c) t SE) as (f & l & F1 & L1). destruct (PLACE f t c LK F1) as (r & R & _ & O & _).
        exists (c_id c), (l + 1 - f + 1), (t + 1 - f), r. split; [apply LEN; assumption|]. pose proof (proj2 L1 t SE). pose proof (proj2 F1 t SE). split; [lia|]. split; [exact R|]. rewrite O. f_equal. f_equal; lia. }
      intros [(c & LK & VF & X)|(t & c & T & LK & X)]; [|eapply OUT; eauto].
      assert (SE : seen H i (c_id c)) by (exists c; auto). destruct (seen_first_last (s_links st) (c_id c) i SE) as (f & l & F1 & L1). destruct (Nat.eq_dec f i) as [->|NF].
      * destruct (PLACE i i c LK F1) as (_ & _ & _ & _ & FI). destruct (FI eq_refl) as (r & R & _ & O). exists (c_id c), (l + 1 - i + 1), 0, r. split; [apply LEN; assumption|]. split; [lia|]. rewrite Nat.add_0_r. split; [exact R|]. rewrite O, X. reflexivity.
      * assert (FI : f < i) by (pose proof (proj2 F1 i SE); lia).
        destruct (i) as [|j]; [lia|]. destruct (nth_error_lt_Some H j) as (s & S1). { destruct LK as (s' & S2 & _). apply nth_error_Some_lt in S2. lia. }
        destruct (existsb (fun c' => c_out c' =? c_in c) s) eqn:EX.
        -- apply existsb_exists in EX as (c' & C' & Q). apply Nat.eqb_eq in Q. eapply (OUT j c'); [exists s; auto|reflexivity|lia].
        -- exfalso. apply (NEWID (S j) c LK VF) with (t' := f); [|exact FI|exact (proj1 F1)]. intros t' c' T' (s' & S2 & C') Q. assert (t' = j) by lia. subst t'. rewrite S1 in S2. apply Some_inj in S2. subst s'.
           assert (existsb (fun c' => c_out c' =? c_in c) s = true) by (apply existsb_exists; exists c'; split; [exact C'|apply Nat.eqb_eq; exact Q]). congruence.
    + intros (id & n & k & r & N & K & R & O). destruct (FL id ltac:(eapply nth_error_Some_lt; eauto)) as (f & l & F1 & _). destruct (ROWS id n k f N K F1) as (r1 & R1 & _ & _ & OB & _). rewrite R in R1. apply Some_inj in R1. subst r1. destruct (proj1 (OB i x) O) as (DD & [(c & LK & I & Z & X)|(t & c & LK & I & T & X)]).
      * left. exists c. split; [exact LK|]. split; [|exact X]. destruct (c_virtual c) eqn:VC; [|reflexivity]. exfalso. destruct (VM i c LK VC) as (v & V1 & _ & V2 & V3 & _). rewrite I in V3. pose proof (proj2 F1 _ V3). lia.
      * right. exists t, c. split; [lia|]. auto.
  - intros i x [(c & (s & S1 & C) & VF & X)|(t & c & T & (s & S1 & C) & X)].
    + destruct (STEPS i s S1) as (real & next & extra & RE & _ & _ & _ & VI). exists real. split; [exact RE|]. pose proof (VI c C) as VC. destruct (Nat.lt_ge_cases x (length real)) as [|G]; [assumption|]. exfalso. rewrite <- X in G. apply VC in G. congruence.
    + destruct (STEPS t s S1) as (real & next & extra & _ & NE & AS & _). exists next. rewrite <- T. split; [exact NE|]. destruct (HA (real ++ extra) next) as (links & A & _ & _ & IB). rewrite AS in A. apply Some_inj in A. subst links.
      subst x. apply (IB (c_in c) (c_out c) (c_cost c)). apply in_map_iff. exists c. auto.
Qed.

(** Rows laid track after track, [nb] the lengths. *)
Definition laid (nb : list nat) (rows : list row) : Prop :=
  length rows = sum_list nb /\
  forall id n k, nth_error nb id = Some n -> k < n -> exists r, nth_error rows (block nb id + k) = Some r /\ r_track r = id /\ r_n r = k.

Lemma part_perm : forall {A} (f : A -> bool) l, Permutation (filter f l ++ filter (fun x => negb (f x)) l) l.
Proof.
  intros A f. induction l as [|a l IH]; [constructor|]. cbn [filter]. destruct (f a); cbn [negb app].
  - apply perm_skip, IH.
  - eapply Permutation_trans; [apply Permutation_sym, Permutation_middle|]. apply perm_skip, IH.
Qed.
Lemma map_nth_all : forall (l : list nat), map (fun i => nth i l 0) (seq 0 (length l)) = l.
Proof.
  intros l. apply nth_error_ext. intros i. rewrite nth_error_map, nth_error_seq. destruct (Nat.ltb_spec i (length l)) as [L|L]; cbn [option_map].
  - rewrite Nat.add_0_l. destruct (nth_error_lt_Some l i L) as (x & X). rewrite X. f_equal. apply nth_error_nth. exact X.
  - symmetry. apply nth_error_None. exact L.
Qed.

Lemma step_pvirt : forall st d (st' : @state Obs V), step as_obs extrapolate prolong associate nbv st d = Some st' -> s_pvirt st' = s_pvirt st \/ s_pvirt st' = s_virt st.
Proof.
  intros st d st' H. unfold step, swap in H. cbn [s_links s_id s_prev2 s_prev s_cur s_virt s_pvirt s_flg] in H.
  apply bind_inv in H as (real & _ & H). apply bind_inv in H as (prev & _ & H). apply bind_inv in H as (links & _ & H). apply bind_inv in H as ([[corrs cur] is_first] & _ & H). destruct is_first.
  - apply Some_inj in H. subst st'. left. reflexivity.
  - apply bind_inv in H as (st3 & Er & H). apply Some_inj in H. subst st'. destruct (recense_fields extrapolate prolong nbv _ _ Er) as (_ & _ & _ & _ & F). cbn [s_pvirt s_virt] in *. destruct (virtual nbv); [right; apply F|left; apply F].
Qed.
Lemma save_ok : forall ds (st : @state Obs V), track as_obs extrapolate prolong associate nbv ds = Some st -> (save st = None <-> 0 < nbv /\ length ds = 3).
Proof.
  intros ds st T. pose proof (rinv_track as_obs extrapolate prolong associate nbv ds st T) as (L & _ & R). unfold save. destruct (length (s_links st)) as [|k] eqn:K.
  - destruct R as (_ & Vt & _). rewrite Vt. split; [discriminate|]. lia.
  - destruct R as (p & _ & R). unfold virtual in R. destruct (Nat.ltb_spec 0 nbv) as [NV|NV]; cbn [andb] in R.
    + destruct k as [|[|k]]; cbn [Nat.leb] in R.
      * destruct R as (_ & Vt & _). rewrite Vt. split; [discriminate|]. lia.
      * destruct R as (_ & (v & Vt) & _). rewrite Vt. assert (PV : s_pvirt st = None).
        { destruct ds as [|a [|b [|c [|]]]]; cbn in L; try lia. cbn [track steps] in T. apply bind_inv in T as (s1 & T1 & T). apply bind_inv in T as (s2 & T2 & T). apply Some_inj in T. subst s2.
          assert (T0 : track as_obs extrapolate prolong associate nbv [a; b] = Some s1) by (cbn [track steps]; rewrite T1; reflexivity).
          destruct (rinv_track as_obs extrapolate prolong associate nbv _ _ T0) as (L0 & _ & R0). cbn [length] in L0. replace (length (s_links s1)) with 1 in R0 by lia. rewrite andb_false_r in R0. destruct R0 as (_ & _ & _ & V0 & P0 & _).
          destruct (step_pvirt _ _ _ T2) as [->| ->]; assumption. }
        rewrite PV. split; [intros _; split; [exact NV|lia]|reflexivity].
      * destruct R as (_ & (v & Vt) & R). rewrite Vt. destruct (R ltac:(lia)) as (pv & r & PV & _). rewrite PV. split; [discriminate|]. lia.
    + destruct R as (_ & Vt & _). rewrite Vt. split; [discriminate|]. lia.
Qed.
Lemma keep_rows : forall (nb : list nat) (rows : list row) (p : nat -> bool) nb' rows',
  let keep := filter p (seq 0 (length nb)) in
  nb' = map (fun id => nth id nb 0) keep ->
  (forall id n k, nth_error nb id = Some n -> k < n -> exists r, nth_error rows (block nb id + k) = Some r /\ r_n r = k) ->
  (forall id n k id' n' k' r r' p, nth_error nb id = Some n -> k < n -> nth_error nb id' = Some n' -> k' < n' ->
     nth_error rows (block nb id + k) = Some r -> nth_error rows (block nb id' + k') = Some r' -> r_obs r = Some p -> r_obs r' = Some p -> id = id' /\ k = k') ->
  length rows' = sum_list nb' ->
  (forall j id k len, nth_error keep j = Some id -> nth_error nb id = Some len -> k < len ->
     exists r, nth_error rows (block nb id + k) = Some r /\ nth_error rows' (block nb' j + k) = Some (mkrow j (r_n r) (r_obs r) (r_cost r))) ->
  laid nb' rows' /\ NoDup (held rows') /\
  (forall q, In q (held rows') <-> exists id n k r, p id = true /\ nth_error nb id = Some n /\ k < n /\ nth_error rows (block nb id + k) = Some r /\ r_obs r = Some q) /\
  (forall n, In n nb' <-> exists id, p id = true /\ nth_error nb id = Some n).
Proof.
  intros nb rows p nb' rows' keep EN A B LR C. 
  assert (KN : forall j n, nth_error nb' j = Some n -> exists id, nth_error keep j = Some id /\ nth_error nb id = Some n /\ p id = true).
  { intros j n N. rewrite EN, nth_error_map in N. destruct (nth_error keep j) as [id|] eqn:K; [|discriminate N]. exists id. split; [reflexivity|]. cbn [option_map] in N. apply Some_inj in N.
    apply nth_error_In, filter_In in K as [K P]. apply in_seq in K. split; [|exact P]. destruct (nth_error_lt_Some nb id ltac:(lia)) as (m & M). rewrite (nth_error_nth _ _ 0 M) in N. congruence. }
  assert (KI : forall id n, p id = true -> nth_error nb id = Some n -> exists j, nth_error keep j = Some id /\ nth_error nb' j = Some n).
  { intros id n P N. assert (I : In id keep) by (apply filter_In; split; [apply in_seq; apply nth_error_Some_lt in N; lia|exact P]). apply In_nth_error in I as (j & J). exists j. split; [exact J|]. rewrite EN, nth_error_map, J. cbn [option_map]. f_equal. apply nth_error_nth. exact N. }
  assert (ROW : forall i r', nth_error rows' i = Some r' -> exists j id n k r, nth_error nb' j = Some n /\ i = block nb' j + k /\ nth_error keep j = Some id /\ nth_error nb id = Some n /\ k < n /\ p id = true /\ nth_error rows (block nb id + k) = Some r /\ r_obs r' = r_obs r).
  { intros i r' R. destruct (block_cover nb' i) as (j & k & n & N & K & ->); [rewrite <- LR; eapply nth_error_Some_lt; eauto|]. destruct (KN j n N) as (id & J & NI & P). destruct (C j id k n J NI K) as (r & R1 & R2). rewrite R in R2. apply Some_inj in R2. exists j, id, n, k, r. subst r'. repeat (split; [assumption || reflexivity|]). reflexivity. }
  split; [|split; [|split]].
  - split; [exact LR|]. intros j n k N K. destruct (KN j n N) as (id & J & NI & P). destruct (C j id k n J NI K) as (r & R1 & R2). exists (mkrow j (r_n r) (r_obs r) (r_cost r)). split; [exact R2|]. split; [reflexivity|]. cbn [r_n]. destruct (A id n k NI K) as (r0 & R0 & RN). rewrite R1 in R0. apply Some_inj in R0. subst r0. exact RN.
  - apply held_NoDup. intros i i' r r' q R R' Q Q'. destruct (ROW i r R) as (j & id & n & k & r0 & _ & E1 & J & NI & K & _ & R0 & O). destruct (ROW i' r' R') as (j' & id' & n' & k' & r0' & _ & E1' & J' & NI' & K' & _ & R0' & O').
    rewrite O in Q. rewrite O' in Q'. destruct (B id n k id' n' k' r0 r0' q NI K NI' K' R0 R0' Q Q') as [-> ->]. assert (j = j'). { apply (proj1 (NoDup_nth_error keep) ltac:(apply NoDup_filter, seq_NoDup) j j'); [eapply nth_error_Some_lt; eauto|congruence]. } subst. reflexivity.
  - intros q. rewrite In_held. split.
    + intros (i & r & R & Q). destruct (ROW i r R) as (j & id & n & k & r0 & _ & E1 & J & NI & K & P & R0 & O). exists id, n, k, r0. rewrite <- O. auto.
    + intros (id & n & k & r & P & NI & K & R & Q). destruct (KI id n P NI) as (j & J & _). destruct (C j id k n J NI K) as (r0 & R0 & R2). rewrite R in R0. apply Some_inj in R0. subst r0. eexists. eexists. split; [exact R2|exact Q].
  - intros n. split.
    + intros I. apply In_nth_error in I as (j & J). destruct (KN j n J) as (id & _ & NI & P). eauto.
    + intros (id & P & NI). destruct (KI id n P NI) as (j & _ & J). eapply nth_error_In; eauto.
Qed.

Lemma all_unused_spec : forall d ds (st : @state Obs V), ds <> [] -> track as_obs extrapolate prolong associate nbv (d :: ds) = Some st ->
  exists un, all_unused (rev (s_links st)) (d :: ds) = Some un /\ NoDup un /\ forall i x, In (i, x) un <-> In (i, x) (all_obs (d :: ds)) /\ ~ used (rev (s_links st)) i x.
Proof.
  intros d ds st NE E. destruct (C07_unused_is_complement as_obs extrapolate prolong associate nbv HA d ds NE) as (st7 & E7 & U). rewrite E in E7. apply Some_inj in E7. subst st7. cbv zeta in U. set (H := rev (s_links st)) in *. set (D := d :: ds) in *.
  set (g := fun p : nat * list Obs => match unused_at H (length D) (fst p) (length (snd p)) with Some u => u | None => [] end).
  assert (SQ : sequence (map (fun p : nat * list Obs => option_map (map (pair (fst p))) (unused_at H (length D) (fst p) (length (snd p)))) (combine (seq 0 (length D)) D)) = Some (map (fun p => map (pair (fst p)) (g p)) (combine (seq 0 (length D)) D))).
  { assert (G : forall p, In p (combine (seq 0 (length D)) D) -> unused_at H (length D) (fst p) (length (snd p)) = Some (g p)).
    { intros p P. apply In_files in P as (i & obs & I & ->). cbn [fst snd]. unfold g. cbn [fst snd]. rewrite Nat.add_0_l. destruct (U i obs I) as (u & EU & _). rewrite EU. reflexivity. }
    induction (combine (seq 0 (length D)) D) as [|p l IH]; [reflexivity|]. cbn [map sequence]. rewrite (G p (or_introl eq_refl)). cbn [option_map bind]. rewrite IH by (intros q Q; apply G; right; exact Q). reflexivity. }
  unfold all_unused. rewrite SQ. cbn [bind]. eexists. split; [reflexivity|]. split.
  - apply by_file_NoDup. intros p P. apply In_files in P as (i & obs & I & ->). unfold g. cbn [fst snd]. rewrite Nat.add_0_l. destruct (U i obs I) as (u & EU & IN & _). rewrite EU. apply NoDup_nth_error. intros a b La Eab. destruct (nth_error_lt_Some u a La) as (x & X). rewrite X in Eab. symmetry in Eab. destruct (Nat.lt_trichotomy a b) as [Lt|[->|Lt]]; [|reflexivity|].
    + pose proof (IN a b x x Lt X Eab). lia.
    + pose proof (IN b a x x Lt Eab X). lia.
  - intros i x. rewrite In_all_obs, in_concat. split.
    + intros (l & L & I). apply in_map_iff in L as (p & <- & P). apply In_files in P as (j & obs & J & ->). cbn [fst] in I. rewrite Nat.add_0_l in I. apply in_map_iff in I as (y & EE & Y). injection EE as -> ->. unfold g in Y. cbn [fst snd] in Y. destruct (U i obs J) as (u & EU & _ & C). rewrite EU in Y. apply C in Y as (Lx & N1 & N2). split; [exists obs; auto|]. intros [(c & LK & VF & X)|(t & c & T & LK & X)]; [eapply N1; eauto|eapply N2; eauto].
    + intros ((obs & J & L) & NU). destruct (U i obs J) as (u & EU & _ & C). exists (map (pair i) u). split.
      * apply in_map_iff. exists (i, obs). unfold g. cbn [fst snd]. rewrite EU. split; [reflexivity|]. apply In_files. exists i, obs. auto.
      * apply in_map, C. split; [exact L|]. split; intros; intros X; apply NU; [left|right]; eauto 6.
Qed.
End Run.

(** The command reads the files in the order of dates, without the last [blank]
    ones, and fails when the dates are not regular, when fewer than [nmin] files
    are left, when none is left, or when exactly three are left and virtual eddies
    are used (C09).  Otherwise the links are saved.  The three datasets are written
    if and only if some track is shorter than [nmin]: then every observation of the
    files read is in exactly one of them, once; the untracked dataset holds the
    observations out of any link; the tracks, laid one after the other, are in the
    long dataset if they have at least [nmin] rows and in the short one otherwise. *)
Theorem C119_outputs : forall {Obs V} as_obs extrapolate prolong associate nbv nmin blank (files : list (file Obs)),
  one_to_one associate -> nbv <= 127 ->
  let run only := @command Obs V as_obs extrapolate prolong associate nbv nmin blank only files in
  exists sorted, Permutation files sorted /\ in_order sorted /\
  let kept := firstn (length sorted - blank) sorted in
  let ds := map (@f_obs Obs) kept in
  (~ regular sorted \/ length kept < nmin \/ length kept = 0 \/ (0 < nbv /\ length kept = 3) -> forall only, run only = None) /\
  (regular sorted -> nmin <= length kept -> 1 <= length kept -> nbv = 0 \/ length kept <> 3 ->
   exists (st : @state Obs V) nb, track as_obs extrapolate prolong associate nbv ds = Some st /\
     let H := rev (s_links st) in
     run true = Some (H, None) /\
     (forall id n, nth_error nb id = Some n <-> exists f l, first_link H id f /\ last_link H id l /\ n = l + 1 - f + 1) /\
     ((forall n, In n nb -> nmin <= n) -> run false = None) /\
     ((exists n, In n nb /\ n < nmin) -> exists out nl ns, run false = Some (H, Some out) /\
        Permutation (o_untracked out ++ held (o_long out) ++ held (o_short out)) (all_obs ds) /\
        (forall i x, In (i, x) (o_untracked out) <-> In (i, x) (all_obs ds) /\ ~ used H i x) /\
        laid nl (o_long out) /\ laid ns (o_short out) /\ Permutation (nl ++ ns) nb /\
        (forall n, In n nl -> nmin <= n) /\ (forall n, In n ns -> n < nmin))).
Proof.
  intros Obs V as_obs ex pr associate nbv nmin blank files HA LN run. exists (fsort files). destruct (fsort_spec files) as [P S0]. split; [exact P|]. split; [apply ssorted_order, S0|]. cbv zeta. set (sorted := fsort files) in *. set (kept := firstn (length sorted - blank) sorted).
  assert (BR : browse 1 None None files = if one_step sorted then Some sorted else None). { unfold browse. fold sorted. destruct (one_step sorted); reflexivity. }
  assert (EK : (if 0 <? blank then kept else sorted) = kept). { unfold kept. destruct (Nat.ltb_spec 0 blank); [reflexivity|]. replace (length sorted - blank) with (length sorted) by lia. symmetry. apply firstn_all. }
  assert (RUN : forall only, regular sorted -> run only = if length kept <? nmin then None else
     let! c := track as_obs ex pr associate nbv (map (@f_obs Obs) kept) in let! _ := save c in
     let links := rev (s_links c) in
     if only : bool then Some (links, None) else
      let! nb := nb_obs_by_tracks (0 <? nbv) (s_id c) links in
      if length nb =? 0 then None
      else
        let! untracked := all_unused links (map (@f_obs Obs) kept) in
        let! (nb_s, links_s) := shorter_than nmin nb links in
        let! short := merge (0 <? nbv) nb_s links_s in
        let! long :=
          if existsb (fun n => nmin <=? n) nb then
            let! (nb_l, links_l) := longer_than nmin nb links in
            merge (0 <? nbv) nb_l links_l
          else Some [] in
        Some (links, Some (mkoutputs untracked long short))).
  { intros only R. apply one_step_spec in R. unfold run, command. rewrite BR, R. cbn [bind]. fold kept. rewrite EK. reflexivity. }
  assert (LK : length (map (@f_obs Obs) kept) = length kept) by apply map_length.
  split.
  - intros F only. destruct (one_step sorted) eqn:O; [|unfold run, command; rewrite BR; reflexivity]. apply one_step_spec in O. rewrite (RUN only O). destruct (Nat.ltb_spec (length kept) nmin) as [L|L]; [reflexivity|].
    destruct F as [F|[F|[F|(F1 & F2)]]]; [exfalso; exact (F O)|lia| |].
    + destruct kept; [reflexivity|discriminate F].
    + destruct (track as_obs ex pr associate nbv (map (@f_obs Obs) kept)) as [st|] eqn:T; [|reflexivity]. cbn [bind]. rewrite (proj2 (save_ok as_obs ex pr associate nbv LN _ _ T)) by (split; [exact F1|lia]). reflexivity.
  - intros R L1 L2 L3. destruct (map (@f_obs Obs) kept) as [|d ds] eqn:D; [cbn in LK; lia|].
    destruct (run_facts as_obs ex pr associate nbv HA LN d ds) as (st & nb & rows & E & EN & ER & LNB & LEN & ROW & INJ & COV & USE).
    destruct (C08_selection_keeps_tracks as_obs ex pr associate nbv HA LN d ds nmin) as (st8 & E8 & nb8 & rows8 & EN8 & ER8 & SEL). rewrite E in E8. apply Some_inj in E8. subst st8. cbv zeta in *. rewrite EN in EN8. apply Some_inj in EN8. subst nb8. rewrite ER in ER8. apply Some_inj in ER8. subst rows8.
    exists st, nb. split; [exact E|]. set (H := rev (s_links st)) in *.
    assert (SV : exists f, save st = Some f). { destruct (save st) as [f|] eqn:SV; [eauto|]. apply (save_ok as_obs ex pr associate nbv LN _ _ E) in SV. lia. } destruct SV as (f & SV).
    assert (R1 : forall only, run only = if only : bool then Some (H, None) else
      if length nb =? 0 then None
      else
        let! untracked := all_unused H (d :: ds) in
        let! (nb_s, links_s) := shorter_than nmin nb H in
        let! short := merge (0 <? nbv) nb_s links_s in
        let! long :=
          if existsb (fun n => nmin <=? n) nb then
            let! (nb_l, links_l) := longer_than nmin nb H in
            merge (0 <? nbv) nb_l links_l
          else Some [] in
        Some (H, Some (mkoutputs untracked long short))).
    { intros only. rewrite (RUN only R). destruct (Nat.ltb_spec (length kept) nmin) as [C|_]; [lia|]. rewrite E. cbn [bind]. rewrite SV. cbn [bind]. fold H. rewrite EN. reflexivity. }
    clear RUN. clearbody run. split; [apply R1|]. split; [exact LEN|].
    destruct (C08_selections_partition nmin nb H) as (_ & _ & _ & CS & CN). cbv zeta in CS, CN.
    set (short := filter (fun id => nth id nb 0 <? nmin) (seq 0 (length nb))) in *. set (long := filter (fun id => nmin <=? nth id nb 0) (seq 0 (length nb))) in *.
    assert (INs : forall id, In id short <-> exists n, nth_error nb id = Some n /\ n < nmin).
    { intros id. unfold short. rewrite filter_In, in_seq, Nat.ltb_lt. split.
      - intros [A B]. destruct (nth_error_lt_Some nb id ltac:(lia)) as (n & N). exists n. rewrite (nth_error_nth _ _ 0 N) in B. auto.
      - intros (n & N & B). rewrite (nth_error_nth _ _ 0 N). apply nth_error_Some_lt in N. lia. }
    split.
    + intros A. rewrite (R1 false). destruct (length nb =? 0); [reflexivity|]. rewrite CN; [destruct (all_unused H (d :: ds)); reflexivity|].
      destruct short as [|id l] eqn:ES; [reflexivity|]. destruct (proj1 (INs id) (or_introl eq_refl)) as (n & N & B). apply nth_error_In in N. specialize (A n N). lia.
    + intros (n0 & N0 & B0). assert (NS : short <> []). { apply In_nth_error in N0 as (id & N0). pose proof (proj2 (INs id) (ex_intro _ n0 (conj N0 B0))) as X. intros C. rewrite C in X. destruct X. }
      assert (DS : ds <> []). { intros C. apply In_nth_error in N0 as (id & N0). apply LEN in N0 as (fi & la & (F1 & _) & _). destruct F1 as (c & (s & S1 & _) & _). destruct (C03_track_numbers as_obs ex pr associate nbv HA d ds) as (st3 & E3 & LH & _). rewrite E in E3. apply Some_inj in E3. subst st3. fold H in LH. apply nth_error_Some_lt in S1. rewrite C in LH. cbn in LH. lia. }
      destruct (all_unused_spec as_obs ex pr associate nbv HA LN d ds st DS E) as (un & EU & UD & UI). fold H in EU, UI.
      destruct (CS NS) as (Hs & ESH & _).
      destruct (SEL short _ _ (or_intror (conj eq_refl ESH))) as (rs & _ & MS & LS & RS).
      destruct (keep_rows nbv LN nb rows (fun id => nth id nb 0 <? nmin) _ rs eq_refl ROW INJ LS RS) as (LA1 & ND1 & IN1 & NB1). fold short in LA1, NB1.
      assert (LONG : exists rl, (if existsb (fun n => nmin <=? n) nb then let! (nb_l, links_l) := longer_than nmin nb H in merge (0 <? nbv) nb_l links_l else Some []) = Some rl /\
         laid (map (fun id => nth id nb 0) long) rl /\ NoDup (held rl) /\
         (forall q, In q (held rl) <-> exists id n k r, (nmin <=? nth id nb 0) = true /\ nth_error nb id = Some n /\ k < n /\ nth_error rows (block nb id + k) = Some r /\ r_obs r = Some q) /\
         (forall n, In n (map (fun id => nth id nb 0) long) <-> exists id, (nmin <=? nth id nb 0) = true /\ nth_error nb id = Some n)).
      { destruct (existsb (fun n => nmin <=? n) nb) eqn:EX.
        - assert (NL : long <> []). { apply existsb_exists in EX as (n & N & B). apply In_nth_error in N as (id & N). assert (X : In id long). { apply filter_In. split; [apply in_seq; apply nth_error_Some_lt in N; lia|]. rewrite (nth_error_nth _ _ 0 N). exact B. } intros C. rewrite C in X. destruct X. }
          destruct (C08_selections_partition nmin nb H) as (_ & CL & _). cbv zeta in CL. fold long in CL. destruct (CL NL) as (Hl & ELH & _).
          destruct (SEL long _ _ (or_introl (conj eq_refl (conj NL ELH)))) as (rl & _ & ML & LL & RL). rewrite ELH. cbn [bind]. exists rl. split; [exact ML|]. exact (keep_rows nbv LN nb rows (fun id => nmin <=? nth id nb 0) _ rl eq_refl ROW INJ LL RL).
        - assert (NO : forall id n, nth_error nb id = Some n -> (nmin <=? nth id nb 0) = true -> False). { intros id n N C. rewrite (nth_error_nth _ _ 0 N) in C. apply nth_error_In in N. assert (existsb (fun n => nmin <=? n) nb = true) by (apply existsb_exists; eauto). congruence. }
          assert (EL : long = []). { destruct long as [|id l] eqn:EL; [reflexivity|]. exfalso. assert (X : In id long) by (rewrite EL; left; reflexivity). unfold long in X. apply filter_In in X as [X Y]. apply in_seq in X. destruct (nth_error_lt_Some nb id ltac:(lia)) as (n & N). eapply NO; eauto. }
          exists []. rewrite EL. split; [reflexivity|]. split; [split; [reflexivity|intros [|j] n k C; discriminate C]|]. split; [constructor|]. split.
          + intros q. split; [intros []|]. intros (id & n & k & r & B & N & _). exfalso. eapply NO; eauto.
          + intros n. split; [intros []|]. intros (id & B & N). exfalso. eapply NO; eauto. }
      destruct LONG as (rl & ELL & LA2 & ND2 & IN2 & NB2).
      exists (mkoutputs un rl rs), (map (fun id => nth id nb 0) long), (map (fun id => nth id nb 0) short). cbn [o_untracked o_long o_short].
      split; [|split; [|split; [exact UI|split; [exact LA2|split; [exact LA1|split; [|split]]]]]].
      * rewrite (R1 false). destruct (Nat.eqb_spec (length nb) 0) as [C|_]; [destruct nb; [destruct N0|discriminate C]|]. rewrite EU. cbn [bind]. rewrite ESH. cbn [bind]. rewrite MS. cbn [bind]. rewrite ELL. reflexivity.
      * assert (U2 : forall i x, In (i, x) (held rl) \/ In (i, x) (held rs) <-> used H i x).
        { intros i x. rewrite IN1, IN2, COV. split.
          - intros [(id & n & k & r & _ & A)|(id & n & k & r & _ & A)]; exists id, n, k, r; exact A.
          - intros (id & n & k & r & A). destruct (Nat.le_gt_cases nmin (nth id nb 0)) as [B|B]; [left|right]; exists id, n, k, r; (split; [|exact A]); [apply Nat.leb_le, B|apply Nat.ltb_lt, B]. }
        apply NoDup_Permutation.
        -- apply Corr_proofs.NoDup_app_intro; [exact UD| |].
           ++ apply Corr_proofs.NoDup_app_intro; [exact ND2|exact ND1|]. intros q Q1 Q2. apply IN2 in Q1 as (id & n & k & r & B & N & K & RR & O). apply IN1 in Q2 as (id' & n' & k' & r' & B' & N' & K' & RR' & O').
              destruct (INJ id n k id' n' k' r r' q N K N' K' RR RR' O O') as [-> _]. apply Nat.leb_le in B. apply Nat.ltb_lt in B'. lia.
           ++ intros [i x] Q1 Q2. apply UI in Q1 as [_ Q1]. apply Q1, U2. apply in_app_iff in Q2. exact Q2.
        -- apply by_file_NoDup. intros; apply seq_NoDup.
        -- intros [i x]. rewrite !in_app_iff, UI, U2. rewrite In_all_obs. split.
           ++ intros [[A _]|A]; [exact A|apply USE, A].
           ++ intros A. assert (DEC : used H i x \/ ~ used H i x). { assert (PD : forall p q : nat * nat, {p = q} + {p <> q}) by (decide equality; apply Nat.eq_dec). destruct (in_dec PD (i, x) (held rl ++ held rs)) as [I|I]; rewrite in_app_iff in I; [left|right; intros C; apply I]; apply U2; assumption. }
              destruct DEC as [|NU]; [right; assumption|left; split; assumption].
      * rewrite <- map_app. apply (Permutation_trans (l' := map (fun id => nth id nb 0) (seq 0 (length nb)))); [|rewrite map_nth_all; apply Permutation_refl]. apply Permutation_map. unfold long, short. erewrite (filter_ext (fun id => nth id nb 0 <? nmin)); [apply part_perm|]. intros id. cbn beta. rewrite Nat.ltb_antisym. reflexivity.
      * intros n N. apply NB2 in N as (id & B & N). rewrite (nth_error_nth _ _ 0 N) in B. apply Nat.leb_le, B.
      * intros n N. apply NB1 in N as (id & B & N). rewrite (nth_error_nth _ _ 0 N) in B. apply Nat.ltb_lt, B.
Qed.
Print Assumptions C119_outputs.

(** Eight files of a run with virtual eddies (the observations of [line_dates]),
    given out of order: the last one is left aside. *)
Definition line_files : list (file Q) :=
  rev (map (fun p => mkfile (Z.of_nat (fst p)) (86400 * Z.of_nat (fst p))%Z (snd p)) (combine (seq 0 8) (line_dates ++ [[1000%Q]]))).
Definition line_command (nmin blank : nat) (only : bool) (files : list (file Q)) :=
  command (fun v => fst v) (fun a b => (b + (b - a), b - a)%Q) (fun v => (fst v + snd v, snd v)%Q) (solver_associate near) 2 nmin blank only files.
Example C119_outputs_case :
  match line_command 4 1 false line_files with
  | Some (l, Some out) => (length l, o_untracked out, length (o_long out), length (o_short out)) = (6, [], 15, 2)
  | _ => False
  end /\
  option_map (fun r => (length (fst r), snd r)) (line_command 2 1 true line_files) = Some (6, None) /\
  line_command 2 1 false line_files = None /\ line_command 8 1 false line_files = None /\ line_command 2 5 true line_files = None.
Proof. split; [|split; [|split; [|split]]]; vm_compute; reflexivity. Qed.

(** With the files in order, regular and numerous enough, with links saved, the
    command still fails when no track is short: nothing but the links is written. *)
Theorem C119_no_short_track_refuted :
  match line_command 2 1 true line_files with
  | Some (links, None) => map (fun s => length s) links = [2; 2; 2; 2; 2; 2]
  | _ => False
  end /\ line_command 2 1 false line_files = None.
Proof. split; vm_compute; reflexivity. Qed.
Print Assumptions C119_no_short_track_refuted.
