(** Lemmas on the comparison of atlases of networks (Ncmp_model.v). *)
From Coq Require Import List Arith ZArith Bool QArith Lia Permutation Sorted.
From Verif Require Import Base Qaux Spec Generic_model Generic_proofs Corr_model Corr_proofs Obs_spec Obs_model Obs_proofs NetTab_model NetTab_proofs NetSeg_model NetSeg_dead NetGroup_model NetGroup_spec NetGroup_props NetCmp_model NetCmp_spec NetCmp_props Match_props Ident_model Ident_proofs Ident_props Ncmp_model.
Import ListNotations.
Local Close Scope Q_scope.
Local Open Scope nat_scope.

(** ** Specification *)
(** Rows of an atlas in the order of their network then of their segment. *)
Definition ordered (rows : list arow) : Prop := StronglySorted (fun a b => net a < net b \/ (net a = net b /\ seg a <= seg b)) rows.
(** Positions of a network, of a segment. *)
Definition net_pos (t : nat) (rows : list arow) : list pos := map snd (filter (fun r => net r =? t) rows).
Definition seg_pos (t g : nat) (rows : list arow) : list pos := map snd (filter (fun r => (net r =? t) && (seg r =? g)) rows).
(** Two networks, two segments of an atlas never have the same observations. *)
Definition nets_apart (rows : list arow) : Prop := forall t u, net_pos t rows <> [] -> same_content (net_pos t rows) (net_pos u rows) -> t = u.
Definition segs_apart (rows : list arow) : Prop := forall t g u h, seg_pos t g rows <> [] -> same_content (seg_pos t g rows) (seg_pos u h rows) -> t = u /\ g = h.

(** ** Lists *)
Lemma ordered_filter : forall P rows, ordered rows -> ordered (filter P rows).
Proof.
  intros P rows H. induction H as [|r rows S IH F]; [constructor|]. cbn [filter]. destruct (P r); [|exact IH]. constructor; [exact IH|].
  apply Forall_forall. intros x I. apply filter_In in I as [I _]. rewrite Forall_forall in F. apply F. exact I.
Qed.
Lemma sorted_nth : forall A (R : A -> A -> Prop) l, StronglySorted R l -> forall i j a b, i < j -> nth_error l i = Some a -> nth_error l j = Some b -> R a b.
Proof.
  intros A R l H. induction H as [|x l S IH F]; intros i j a b L I J; [destruct i; discriminate I|]. destruct j as [|j]; [lia|]. destruct i as [|i].
  - cbn in I. injection I as <-. rewrite Forall_forall in F. apply F. exact (nth_error_In l j J).
  - apply (IH i j a b); [lia|exact I|exact J].
Qed.
Lemma ordered_pairs : forall rows, ordered rows -> pairs_sorted (map seg rows) (map net rows).
Proof.
  intros rows O i j a b a' b' L A B A' B'. rewrite nth_error_map in A, B, A', B'.
  destruct (nth_error rows i) as [x|] eqn:X; [|discriminate A]. destruct (nth_error rows j) as [y|] eqn:Y; [|discriminate A']. cbn in *.
  injection A as <-. injection B as <-. injection A' as <-. injection B' as <-. apply (sorted_nth _ _ _ O i j x y L X Y).
Qed.
Lemma ordered_nets : forall rows, ordered rows -> by_label (nets rows).
Proof.
  intros rows O i j a b L A B. unfold labels, nets in A, B. rewrite map_map in A, B. cbn [fst] in A, B. rewrite nth_error_map in A, B.
  destruct (nth_error rows i) as [x|] eqn:X; [|discriminate A]. destruct (nth_error rows j) as [y|] eqn:Y; [|discriminate B]. cbn in *. injection A as <-. injection B as <-.
  pose proof (sorted_nth _ _ _ O i j x y L X Y). cbn in *. lia.
Qed.
Lemma positions_nets : forall t rows, positions t (nets rows) = net_pos t rows.
Proof.
  intros t rows. unfold positions, nets, net_pos. induction rows as [|r rows IH]; [reflexivity|]. cbn [map filter fst]. destruct (net r =? t); [cbn [map snd]; f_equal; exact IH|exact IH].
Qed.
Lemma labels_nets : forall rows t, In t (labels (nets rows)) <-> net_pos t rows <> [].
Proof.
  intros rows t. rewrite <- positions_nets. pose proof (size_pos t (nets rows)) as P. unfold size in P. rewrite <- P. destruct (positions t (nets rows)); cbn; split; intros H; [lia|congruence|discriminate|lia].
Qed.
Lemma filter_same : forall (us : list nat) (rows : list arow) u (P : arow -> bool), length us = length rows ->
  (forall j v r, nth_error us j = Some v -> nth_error rows j = Some r -> (v = u <-> P r = true)) ->
  map snd (filter (fun r => fst r =? u) (combine us (map snd rows))) = map snd (filter P rows).
Proof.
  induction us as [|v us IH]; intros [|r rows] u P L H; try discriminate L; [reflexivity|]. cbn [map combine filter fst].
  assert (E : (v =? u) = P r). { pose proof (H 0 v r eq_refl eq_refl) as [A B]. destruct (Nat.eqb_spec v u) as [->|N]; [rewrite (A eq_refl); reflexivity|]. destruct (P r); [exfalso; apply N, B; reflexivity|reflexivity]. }
  rewrite E. pose proof (IH rows u P ltac:(injection L; auto) (fun j w x X Y => H (S j) w x X Y)) as E'. destruct (P r); [cbn [map snd]; f_equal|]; exact E'.
Qed.

(** ** Segments *)
(** The labels of the segments: one for each segment, in the same order. *)
Definition label_of (rows : list arow) (s : list row) (u t g : nat) : Prop :=
  exists i r, nth_error rows i = Some r /\ net r = t /\ seg r = g /\ nth_error (labels s) i = Some u.
Lemma segs_spec : forall rows, rows <> [] -> ordered rows -> exists s, segs rows = Some s /\ by_label s /\ length (labels s) = length rows /\ nth_error (labels s) 0 = Some 0 /\
  (forall i j r x u v, nth_error rows i = Some r -> nth_error rows j = Some x -> nth_error (labels s) i = Some u -> nth_error (labels s) j = Some v -> (u = v <-> net r = net x /\ seg r = seg x)) /\
  (forall u t g, label_of rows s u t g -> positions u s = seg_pos t g rows).
Proof.
  intros rows NE O. destruct (C43_unique_ids (map seg rows) (map net rows)) as (us & E & L & Z0 & _ & K); [rewrite !map_length; reflexivity|destruct rows; [congruence|discriminate]|apply ordered_pairs; exact O|].
  rewrite map_length in L. unfold segs. rewrite E. cbn [bind]. eexists. split; [reflexivity|].
  assert (LB : labels (combine us (map snd rows)) = us). { unfold labels. clear -L. revert rows L. induction us as [|u us IH]; intros [|r rows] L; try discriminate L; [reflexivity|]. cbn. f_equal. apply IH. injection L; auto. }
  assert (KK : forall i j r x u v, nth_error rows i = Some r -> nth_error rows j = Some x -> nth_error us i = Some u -> nth_error us j = Some v -> (u = v <-> net r = net x /\ seg r = seg x) /\ (u < v <-> net r < net x \/ (net r = net x /\ seg r < seg x))).
  { intros i j r x u v I J U V. pose proof (K i j (seg r) (net r) (seg x) (net x) u v (map_nth_error _ _ _ I) (map_nth_error _ _ _ I) (map_nth_error _ _ _ J) (map_nth_error _ _ _ J) U V) as [A B]. split; [tauto|exact B]. }
  unfold label_of. rewrite LB. split; [|split; [exact L|split; [exact Z0|split]]].
  - intros i j a b LT A B. rewrite LB in A, B. destruct (nth_error_lt_Some rows i) as [r I]; [rewrite <- L; eapply nth_error_Some_lt; exact A|]. destruct (nth_error_lt_Some rows j) as [x J]; [rewrite <- L; eapply nth_error_Some_lt; exact B|].
    pose proof (sorted_nth _ _ _ O i j r x LT I J) as S. cbn in S. destruct (KK j i x r b a J I B A) as [_ M]. destruct (Nat.le_gt_cases a b) as [|G]; [assumption|]. apply M in G. lia.
  - intros i j r x u v I J U V. apply (KK i j r x u v I J U V).
  - intros u t g (i & r & I & <- & <- & U). unfold positions, seg_pos. apply filter_same; [exact L|]. intros j v x V X. rewrite andb_true_iff, !Nat.eqb_eq. apply (KK j i x r v u X I V U).
Qed.
Lemma seg_pos_some : forall t g rows, seg_pos t g rows <> [] <-> exists i r, nth_error rows i = Some r /\ net r = t /\ seg r = g.
Proof.
  intros t g rows. unfold seg_pos. split.
  - intros H. destruct (filter _ rows) as [|r l] eqn:F; [exfalso; apply H; reflexivity|]. assert (I : In r (filter (fun r => (net r =? t) && (seg r =? g)) rows)) by (rewrite F; left; reflexivity).
    apply filter_In in I as [I P]. rewrite andb_true_iff, !Nat.eqb_eq in P. apply In_nth_error in I as [i I]. exists i, r. tauto.
  - intros (i & r & I & N & G) E. apply map_eq_nil in E. assert (X : In r (filter (fun r => (net r =? t) && (seg r =? g)) rows)) by (apply filter_In; split; [exact (nth_error_In _ _ I)|rewrite andb_true_iff, !Nat.eqb_eq; tauto]). rewrite E in X. exact X.
Qed.
Lemma net_pos_some : forall t rows, net_pos t rows <> [] <-> exists r, In r rows /\ net r = t.
Proof.
  intros t rows. unfold net_pos. split.
  - intros H. destruct (filter _ rows) as [|r l] eqn:F; [exfalso; apply H; reflexivity|]. assert (I : In r (filter (fun r => net r =? t) rows)) by (rewrite F; left; reflexivity).
    apply filter_In in I as [I P]. rewrite Nat.eqb_eq in P. exists r. tauto.
  - intros (r & I & N) E. apply map_eq_nil in E. assert (X : In r (filter (fun r => net r =? t) rows)) by (apply filter_In; split; [exact I|rewrite Nat.eqb_eq; exact N]). rewrite E in X. exact X.
Qed.

(** ** Tables *)
Lemma size_at_spec : forall rows, rows <> [] -> by_label rows -> exists f l lo, index_of rows = Some (f, l, Z.of_nat lo) /\ tab_of (labels rows) (f, l, Z.of_nat lo) /\
  forall t, In t (labels rows) -> size_at (f, l, Z.of_nat lo) (Z.of_nat t - Z.of_nat lo) = Some (Z.of_nat (size t rows)).
Proof.
  intros rows NE S. destruct (sizes_spec rows NE S) as (f & l & lo & ns & E & T & Q & _ & LN & N). exists f, l, lo. split; [exact E|]. split; [exact T|]. intros t I.
  destruct T as (lo' & EL & LL & _ & _ & _ & RG & TB). apply Nat2Z.inj in EL. subst lo'. pose proof (RG t I) as R. destruct (TB (t - lo) ltac:(lia)) as (a & b & A & B & AB & _).
  pose proof (N (t - lo) ltac:(lia)) as NT. replace (lo + (t - lo)) with t in NT by lia. unfold size_at. rewrite !pyget_in by lia. replace (Z.to_nat (Z.of_nat t - Z.of_nat lo)) with (t - lo) by lia. rewrite A, B. cbn [bind].
  apply (f_equal (fun x => nth_error x (t - lo))) in Q. rewrite nth_error_map, NT in Q. unfold sizes in Q. rewrite nth_error_map in Q.
  assert (C : nth_error (combine f l) (t - lo) = Some (a, b)) by (apply nth_combine_iff; split; assumption). rewrite C in Q. cbn [option_map fst snd] in Q. injection Q as Q. rewrite Q. reflexivity.
Qed.
Lemma network_size_spec : forall ids rows, ordered rows -> (forall t, In t ids -> net_pos t rows <> []) -> rows <> [] -> network_size ids rows = Some (map (fun t => Z.of_nat (length (net_pos t rows))) ids).
Proof.
  intros ids rows O I NE. destruct (size_at_spec (nets rows)) as (f & l & lo & E & _ & H); [destruct rows; [congruence|discriminate]|apply ordered_nets; exact O|].
  unfold network_size. rewrite E. cbn [bind snd]. apply seq_some. intros t T. rewrite H by (apply labels_nets, I, T). unfold size. rewrite positions_nets. reflexivity.
Qed.
Lemma networks_spec : forall ids rows, ordered rows -> (forall t, In t ids -> net_pos t rows <> []) -> rows <> [] -> networks ids rows = Some (filter (fun r => mem (net r) ids) rows).
Proof.
  intros ids rows O I NE. destruct (size_at_spec (nets rows)) as (f & l & lo & E & T & _); [destruct rows; [congruence|discriminate]|apply ordered_nets; exact O|].
  unfold networks. rewrite E. cbn [bind]. destruct T as (lo' & EL & LL & _ & _ & _ & RG & TB). apply Nat2Z.inj in EL. subst lo'.
  assert (R : forall t, In t ids -> lo <= t < lo + length f) by (intros t H; apply RG, labels_nets, I, H).
  set (idx := map (fun t => t - lo) ids). assert (EI : ids = map (fun i => Z.to_nat (Z.of_nat i + Z.of_nat lo)) idx).
  { unfold idx. rewrite map_map. rewrite <- (map_id ids) at 1. apply map_ext_in. intros t H. pose proof (R t H). lia. }
  assert (B : forall i, In i idx -> i < length f) by (intros i H; apply in_map_iff in H as (t & <- & H); pose proof (R t H); lia).
  destruct (generate_mask_spec f l idx (repeat false (length rows)) LL B) as (m & EM & LM & H). rewrite repeat_length in LM, H.
  rewrite EI at 1. rewrite mask_shift, EM. cbn [bind]. f_equal. apply select_filter; [exact LM|]. intros k x X. pose proof (nth_error_Some_lt _ _ _ X) as K. rewrite (H k K).
  assert (NX : nth_error (labels (nets rows)) k = Some (net x)) by (unfold labels, nets; rewrite map_map, nth_error_map, X; reflexivity).
  rewrite mem_In. split.
  - intros [F|(i & a & b & HI & A & Hb & AB)]; [apply nth_error_In, repeat_spec in F; discriminate F|].
    destruct (TB i (B i HI)) as (a' & b' & A' & B' & _ & _ & J). rewrite A in A'. rewrite Hb in B'. apply Some_inj in A', B'. subst a' b'. apply J in AB. rewrite NX in AB. apply Some_inj in AB.
    apply in_map_iff in HI as (t & <- & HT). pose proof (R t HT). replace (net x) with t by lia. exact HT.
  - intros HT. right. pose proof (R _ HT) as RT. exists (net x - lo). destruct (TB (net x - lo) ltac:(lia)) as (a & b & A & Hb & _ & _ & J). exists a, b.
    split; [apply in_map_iff; exists (net x); auto|]. split; [exact A|]. split; [exact Hb|]. apply J. rewrite NX. f_equal. lia.
Qed.
Lemma zero_first : forall s f l lo, by_label s -> nth_error (labels s) 0 = Some 0 -> tab_of (labels s) (f, l, Z.of_nat lo) -> lo = 0.
Proof. intros s f l lo _ Z0 (lo' & EL & _ & _ & _ & _ & RG & _). apply Nat2Z.inj in EL. subst lo'. apply nth_error_In in Z0. apply RG in Z0. lia. Qed.
Lemma segment_size_spec : forall ids s, s <> [] -> by_label s -> nth_error (labels s) 0 = Some 0 -> (forall u, In u ids -> In u (labels s)) -> segment_size ids s = Some (map (fun u => Z.of_nat (size u s)) ids).
Proof.
  intros ids s NE B Z0 I. destruct (size_at_spec s NE B) as (f & l & lo & E & T & H). pose proof (zero_first s f l lo B Z0 T) as ->.
  unfold segment_size. rewrite E. cbn [bind]. apply seq_some. intros u U. rewrite <- H by (apply I; exact U). f_equal. lia.
Qed.
Lemma label_exists : forall rows s u, length (labels s) = length rows -> In u (labels s) -> exists t g, label_of rows s u t g.
Proof.
  intros rows s u L I. apply In_nth_error in I as [i I]. destruct (nth_error_lt_Some rows i) as [r R]; [rewrite <- L; eapply nth_error_Some_lt; exact I|].
  exists (net r), (seg r), i, r. auto.
Qed.
Lemma label_rows : forall rows s t g, length (labels s) = length rows -> seg_pos t g rows <> [] -> exists u, label_of rows s u t g.
Proof.
  intros rows s t g L H. apply seg_pos_some in H as (i & r & R & N & G). destruct (nth_error_lt_Some (labels s) i) as [u U]; [rewrite L; eapply nth_error_Some_lt; exact R|].
  exists u, i, r. auto.
Qed.
Lemma label_In : forall rows s u t g, label_of rows s u t g -> In u (labels s) /\ seg_pos t g rows <> [].
Proof. intros rows s u t g (i & r & I & N & G & U). split; [exact (nth_error_In _ _ U)|]. apply seg_pos_some. eauto. Qed.
Lemma segment_network_spec : forall rows s u t g, rows <> [] -> ordered rows -> segs rows = Some s -> label_of rows s u t g -> segment_network rows s u = Some t.
Proof.
  intros rows s u t g NE O ES LO. destruct (segs_spec rows NE O) as (s' & ES' & B & L & Z0 & K & _). rewrite ES in ES'. apply Some_inj in ES'. subst s'.
  assert (NS : s <> []) by (intros ->; cbn in L; destruct rows; [congruence|discriminate L]).
  destruct (size_at_spec s NS B) as (f & l & lo & E & T & _). pose proof (zero_first s f l lo B Z0 T) as ->. pose proof T as (lo' & EL & LL & _ & _ & _ & RG & TB). apply (Nat2Z.inj 0) in EL. subst lo'.
  unfold segment_network. rewrite E. cbn [bind]. pose proof (label_In _ _ _ _ _ LO) as [IU _]. pose proof (RG u IU) as RU. destruct (TB u ltac:(lia)) as (a & b & A & Hb & AB & BL & J). rewrite pyget_in by lia. rewrite Nat2Z.id, A. cbn [bind].
  destruct LO as (i & r & I & N & G & U). assert (AI : a <= i < b) by (apply J; exact U). assert (UA : nth_error (labels s) a = Some u) by (apply J; lia).
  destruct (nth_error_lt_Some rows a) as [x X]; [rewrite L in BL; lia|]. rewrite pyget_in by (rewrite map_length; apply nth_error_Some_lt in X; lia). replace (Z.to_nat (Z.of_nat a - Z.of_nat 0)) with a by lia.
  rewrite nth_error_map, X. cbn [option_map]. f_equal. rewrite <- N. apply (proj1 (K a i x r u u X I UA U)). reflexivity.
Qed.

(** ** Pairs found *)
Definition apart (rows : list row) : Prop := forall t u, In t (labels rows) -> In u (labels rows) -> same_content (positions t rows) (positions u rows) -> t = u.
Lemma NoDup_filter_fst : forall (P : nat * Z -> bool) r, NoDup (map fst r) -> NoDup (map fst (filter P r)).
Proof.
  intros P. induction r as [|[t z] r IH]; intros H; [constructor|]. cbn [map fst] in H. inversion H as [|? ? N D]. subst. cbn [filter]. destruct (P (t, z)); [|apply IH; exact D]. cbn [map fst]. constructor; [|apply IH; exact D].
  intros X. apply N. apply in_map_iff in X as (p & <- & X). apply filter_In in X as [X _]. apply in_map. exact X.
Qed.
Lemma fst_unique : forall (r : list (nat * Z)) t z z', NoDup (map fst r) -> In (t, z) r -> In (t, z') r -> z = z'.
Proof.
  induction r as [|[a b] r IH]; intros t z z' D I I'; [destruct I|]. cbn [map fst] in D. inversion D as [|? ? N D']. subst.
  destruct I as [I|I], I' as [I'|I']; [congruence| | |exact (IH t z z' D' I I')]; exfalso; apply N.
  - injection I as -> _. apply in_map_iff. exists (t, z'). auto.
  - injection I' as -> _. apply in_map_iff. exists (t, z). auto.
Qed.
Lemma content_sym : forall a b, same_content a b -> same_content b a.
Proof. intros a b. apply Permutation_sym. Qed.
Lemma content_trans : forall a b c, same_content a b -> same_content b c -> same_content a c.
Proof. intros a b c. apply Permutation_trans. Qed.
Lemma found_spec : forall sm self other r, identified sm self other r -> apart self -> apart other ->
  NoDup (map fst (filter is_found r)) /\
  (forall t, In t (map fst (filter is_found r)) <-> In t (labels self) /\ sm <= size t self /\ exists u, In u (labels other) /\ same_content (positions t self) (positions u other)) /\
  (forall u, In u (map (fun p => Z.to_nat (snd p)) (filter is_found r)) <-> In u (labels other) /\ exists t, In t (labels self) /\ sm <= size t self /\ same_content (positions t self) (positions u other)) /\
  (forall t, In t (map fst (filter (fun p => negb (is_found p)) r)) <-> compared sm self other t /\ ~ exists u, In u (labels other) /\ same_content (positions t self) (positions u other)).
Proof.
  intros sm self other r (D & C & F & J & X) A1 A2.
  assert (CO : forall t u, In t (labels self) -> sm <= size t self -> In u (labels other) -> same_content (positions t self) (positions u other) -> In (t, Z.of_nat u) r).
  { intros t u IT ST IU SC. assert (CT : compared sm self other t) by (split; [exact IT|]; split; [exact ST|]; exists u; split; [exact IU|]; rewrite (same_content_size _ _ _ _ SC); lia).
    apply C in CT. apply in_map_iff in CT as ([t' z] & E & I). cbn in E. subst t'. destruct (F t z I) as [->|(v & -> & IV & SV)].
    - destruct (X t u I IU SC) as (t' & I'). assert (Y : compared sm self other t') by (apply C; apply in_map_iff; exists (t', Z.of_nat u); auto). destruct Y as (IT' & _).
      destruct (F t' _ I') as [Y|(v & EV & _ & SV)]; [lia|]. apply Nat2Z.inj in EV. subst v. assert (t' = t) by (apply A1; [exact IT'|exact IT|]; exact (content_trans _ _ _ SV (content_sym _ _ SC))). subst t'. exact I'.
    - assert (v = u) by (apply A2; [exact IV|exact IU|]; exact (content_trans _ _ _ (content_sym _ _ SV) SC)). subst v. exact I. }
  assert (FO : forall t z, In (t, z) (filter is_found r) <-> exists u, z = Z.of_nat u /\ In t (labels self) /\ sm <= size t self /\ In u (labels other) /\ same_content (positions t self) (positions u other)).
  { intros t z. rewrite filter_In. unfold is_found. cbn [snd]. rewrite negb_true_iff, Z.eqb_neq. split.
    - intros [I N]. assert (Y : compared sm self other t) by (apply C; apply in_map_iff; exists (t, z); auto). destruct Y as (Y1 & Y2 & _). destruct (F t z I) as [Z|(u & -> & IU & SC)]; [contradiction|]. exists u. auto.
    - intros (u & -> & IT & ST & IU & SC). split; [exact (CO t u IT ST IU SC)|lia]. }
  split; [apply NoDup_filter_fst; exact D|]. split; [|split].
  - intros t. rewrite in_map_iff. split.
    + intros ([t' z] & E & I). cbn in E. subst t'. apply FO in I as (u & _ & IT & ST & IU & SC). eauto.
    + intros (IT & ST & u & IU & SC). exists (t, Z.of_nat u). split; [reflexivity|]. apply FO. exists u. auto.
  - intros u. rewrite in_map_iff. split.
    + intros ([t z] & E & I). cbn in E. apply FO in I as (v & -> & IT & ST & IU & SC). rewrite Nat2Z.id in E. subst v. eauto.
    + intros (IU & t & IT & ST & SC). exists (t, Z.of_nat u). split; [cbn; apply Nat2Z.id|]. apply FO. exists u. auto.
  - intros t. rewrite in_map_iff. split.
    + intros ([t' z] & E & I). cbn in E. subst t'. apply filter_In in I as [I Y]. unfold is_found in Y. cbn in Y. rewrite negb_involutive, Z.eqb_eq in Y. subst z.
      assert (CT : compared sm self other t) by (apply C; apply in_map_iff; exists (t, (-1)%Z); auto). split; [exact CT|]. intros (u & IU & SC). destruct CT as (IT & ST & _).
      pose proof (fst_unique r t _ _ D I (CO t u IT ST IU SC)). lia.
    + intros [CT N]. pose proof CT as (IT & ST & _). apply C in CT. apply in_map_iff in CT as ([t' z] & E & I). cbn in E. subst t'. exists (t, z). split; [reflexivity|]. apply filter_In. split; [exact I|].
      unfold is_found. cbn. rewrite negb_involutive, Z.eqb_eq. destruct (F t z I) as [Z|(u & _ & IU & SC)]; [exact Z|]. exfalso. apply N. eauto.
Qed.
Lemma identify_some : forall argsort psort sm self other r, sorts argsort -> sorts_pos psort -> 0 < sm -> by_label self -> by_label other -> identify_in argsort psort (Z.of_nat sm) self other = Some r ->
  self <> [] /\ other <> [] /\ identified sm self other r.
Proof.
  intros argsort psort sm self other r AS PS SP S1 S2 E.
  assert (N1 : self <> []) by (intros ->; discriminate E). assert (N2 : other <> []). { intros ->. unfold identify_in in E. destruct (build_index (map _ self)); discriminate E. }
  split; [exact N1|]. split; [exact N2|]. destruct (identify_cases argsort psort sm self other AS PS SP N1 N2 S1 S2) as [[_ X]|[(_ & _ & X)|(_ & _ & r' & X & Y)]]; rewrite E in X; try discriminate X. apply Some_inj in X. subst r'. exact Y.
Qed.

(** ** The rows of the networks found *)
Lemma seg_pos_filter : forall P t g rows, (forall r, In r rows -> net r = t -> P (net r) = true) -> seg_pos t g (filter (fun r => P (net r)) rows) = seg_pos t g rows.
Proof.
  intros P t g rows. unfold seg_pos. induction rows as [|r rows IH]; intros H; [reflexivity|]. cbn [filter]. assert (IH' := IH (fun x I => H x (or_intror I))).
  destruct (P (net r)) eqn:E; cbn [filter].
  - destruct ((net r =? t) && (seg r =? g)); [cbn [map]; f_equal; exact IH'|exact IH'].
  - destruct (Nat.eqb_spec (net r) t) as [N|N]; [|cbn [andb]; exact IH']. exfalso. rewrite (H r (or_introl eq_refl) N) in E. discriminate E.
Qed.
Lemma seg_pos_filter_in : forall ids t g rows, In t ids -> seg_pos t g (filter (fun r => mem (net r) ids) rows) = seg_pos t g rows.
Proof. intros ids t g rows I. apply (seg_pos_filter (fun n => mem n ids)). intros r _ <-. apply mem_In. exact I. Qed.
Lemma seg_pos_filter_some : forall ids t g rows, seg_pos t g (filter (fun r => mem (net r) ids) rows) <> [] <-> In t ids /\ seg_pos t g rows <> [].
Proof.
  intros ids t g rows. split.
  - intros H. assert (I : In t ids). { apply seg_pos_some in H as (i & r & R & N & _). apply nth_error_In, filter_In in R as [_ R]. apply mem_In in R. rewrite N in R. exact R. }
    split; [exact I|]. rewrite (seg_pos_filter_in ids t g rows I) in H. exact H.
  - intros [I H]. rewrite (seg_pos_filter_in ids t g rows I). exact H.
Qed.

(** ** Segments found *)
(** The segment of a label. *)
Definition key (rows : list arow) (s : list row) (u : nat) : nat * nat :=
  match find (fun p => fst p =? u) (combine (labels s) rows) with Some (_, r) => (net r, seg r) | None => (0, 0) end.
Lemma combine_nth : forall A B (a : list A) (b : list B) p, In p (combine a b) -> exists i, nth_error a i = Some (fst p) /\ nth_error b i = Some (snd p).
Proof. induction a as [|x a IH]; intros [|y b] p I; try destruct I as [<-|I]; try (destruct I; fail); [exists 0; auto|]. destruct (IH b p I) as (i & X & Y). exists (S i). auto. Qed.
Lemma nth_combine : forall A B (a : list A) (b : list B) i x y, nth_error a i = Some x -> nth_error b i = Some y -> In (x, y) (combine a b).
Proof. induction a as [|x a IH]; intros [|y b] [|i] u v X Y; try discriminate; [injection X as <-; injection Y as <-; left; reflexivity|]. right. exact (IH b i u v X Y). Qed.
Lemma key_spec : forall rows s u, length (labels s) = length rows -> In u (labels s) -> label_of rows s u (fst (key rows s u)) (snd (key rows s u)).
Proof.
  intros rows s u L I. unfold key. destruct (find _ _) as [[v r]|] eqn:F.
  - apply find_some in F as [F E]. cbn in E. apply Nat.eqb_eq in E. subst v. apply combine_nth in F as (i & A & B). exists i, r. auto.
  - exfalso. destruct (label_exists rows s u L I) as (t & g & i & r & A & _ & _ & B). pose proof (find_none _ _ F (u, r) (nth_combine _ _ _ _ i u r B A)) as N. cbn in N. rewrite Nat.eqb_refl in N. discriminate N.
Qed.
Record seg_table (rows : list arow) (s : list row) : Prop := {
  st_sorted : by_label s;
  st_length : length (labels s) = length rows;
  st_zero : nth_error (labels s) 0 = Some 0;
  st_label : forall u v t g t' g', label_of rows s u t g -> label_of rows s v t' g' -> (u = v <-> t = t' /\ g = g');
  st_pos : forall u t g, label_of rows s u t g -> positions u s = seg_pos t g rows }.
Lemma segs_table : forall rows s, rows <> [] -> ordered rows -> segs rows = Some s -> seg_table rows s.
Proof.
  intros rows s NE O E. destruct (segs_spec rows NE O) as (s' & E' & B & L & Z0 & K & P). rewrite E in E'. apply Some_inj in E'. subst s'. split; auto.
  intros u v t g t' g' (i & r & I & <- & <- & U) (j & x & J & <- & <- & V). exact (K i j r x u v I J U V).
Qed.
Lemma segs_apart_labels : forall rows s, seg_table rows s -> segs_apart rows -> apart s.
Proof.
  intros rows s T A t u IT IU SC. destruct (label_exists rows s t (st_length _ _ T) IT) as (n & g & LT). destruct (label_exists rows s u (st_length _ _ T) IU) as (m & h & LU).
  rewrite (st_pos _ _ T _ _ _ LT), (st_pos _ _ T _ _ _ LU) in SC. apply (st_label _ _ T _ _ _ _ _ _ LT LU). apply A; [apply (label_In _ _ _ _ _ LT)|exact SC].
Qed.
Lemma nets_apart_labels : forall rows, nets_apart rows -> apart (nets rows).
Proof. intros rows A t u IT IU SC. rewrite !positions_nets in SC. apply A; [apply labels_nets; exact IT|exact SC]. Qed.
Definition has_seg (ref : list arow) (other : list arow) (t g : nat) : Prop := exists u h, seg_pos u h other <> [] /\ same_content (seg_pos t g ref) (seg_pos u h other).
Lemma has_label : forall rows s other s', seg_table rows s -> seg_table other s' -> forall u t g, label_of rows s u t g ->
  ((exists v, In v (labels s') /\ same_content (positions u s) (positions v s')) <-> has_seg rows other t g).
Proof.
  intros rows s other s' T T' u t g LU. rewrite (st_pos _ _ T _ _ _ LU). split.
  - intros (v & IV & SC). destruct (label_exists other s' v (st_length _ _ T') IV) as (m & h & LV). rewrite (st_pos _ _ T' _ _ _ LV) in SC. exists m, h. split; [apply (label_In _ _ _ _ _ LV)|exact SC].
  - intros (m & h & NE & SC). destruct (label_rows other s' m h (st_length _ _ T') NE) as (v & LV). exists v. split; [apply (label_In _ _ _ _ _ LV)|]. rewrite (st_pos _ _ T' _ _ _ LV). exact SC.
Qed.
Lemma segs_found : forall rows s other s' r, seg_table rows s -> seg_table other s' -> segs_apart rows -> segs_apart other -> identified 1 s s' r ->
  NoDup (map (key rows s) (map fst (filter is_found r))) /\
  (forall t g, In (t, g) (map (key rows s) (map fst (filter is_found r))) <-> seg_pos t g rows <> [] /\ has_seg rows other t g) /\
  (forall u, In u (map fst (filter is_found r)) -> In u (labels s) /\ size u s = length (seg_pos (fst (key rows s u)) (snd (key rows s u)) rows)) /\
  (forall u, In u (map fst (filter (fun p => negb (is_found p)) r)) <-> exists t g, label_of rows s u t g /\ (exists v h, length (seg_pos t g rows) <= length (seg_pos v h other)) /\ ~ has_seg rows other t g).
Proof.
  intros rows s other s' r T T' A A' H. destruct (found_spec 1 s s' r H (segs_apart_labels _ _ T A) (segs_apart_labels _ _ T' A')) as (D & F & _ & NF).
  assert (KE : forall u t g, label_of rows s u t g -> key rows s u = (t, g)).
  { intros u t g LU. pose proof (key_spec rows s u (st_length _ _ T) (proj1 (label_In _ _ _ _ _ LU))) as K. destruct (key rows s u) as [a b]. cbn in K. pose proof (proj1 (st_label _ _ T _ _ _ _ _ _ K LU) eq_refl) as [-> ->]. reflexivity. }
  assert (SZ : forall u, In u (labels s) -> 1 <= size u s) by (intros u I; apply size_pos in I; lia).
  split; [|split; [|split]].
  - assert (Y : forall l, NoDup l -> (forall u, In u l -> In u (labels s)) -> NoDup (map (key rows s) l)).
    { induction l as [|u l IH]; intros N I; [constructor|]. inversion N as [|? ? NI N']. subst. cbn [map]. constructor; [|apply IH; [exact N'|intros v V; apply I; right; exact V]].
      intros X. apply in_map_iff in X as (v & E & V). apply NI. replace u with v; [exact V|]. pose proof (key_spec rows s u (st_length _ _ T) (I u (or_introl eq_refl))) as KU. pose proof (key_spec rows s v (st_length _ _ T) (I v (or_intror V))) as KV.
      apply (st_label _ _ T _ _ _ _ _ _ KV KU). rewrite E. auto. }
    apply Y; [exact D|]. intros u U. apply F in U. apply U.
  - intros t g. rewrite in_map_iff. split.
    + intros (u & E & U). apply F in U as (IU & _ & X). pose proof (key_spec rows s u (st_length _ _ T) IU) as K. rewrite E in K. cbn in K. split; [apply (label_In _ _ _ _ _ K)|]. apply (has_label _ _ _ _ T T' _ _ _ K). exact X.
    + intros (NE & X). destruct (label_rows rows s t g (st_length _ _ T) NE) as (u & LU). exists u. split; [apply KE; exact LU|]. apply F. split; [apply (label_In _ _ _ _ _ LU)|]. split; [apply SZ, (label_In _ _ _ _ _ LU)|]. apply (has_label _ _ _ _ T T' _ _ _ LU). exact X.
  - intros u U. apply F in U as (IU & _). split; [exact IU|]. pose proof (key_spec rows s u (st_length _ _ T) IU) as K. unfold size. rewrite (st_pos _ _ T _ _ _ K). reflexivity.
  - intros u. rewrite NF. split.
    + intros [(IU & _ & v & IV & SZV) N]. destruct (label_exists rows s u (st_length _ _ T) IU) as (t & g & LU). exists t, g. split; [exact LU|]. split; [|intros X; apply N, (has_label _ _ _ _ T T' _ _ _ LU), X].
      destruct (label_exists other s' v (st_length _ _ T') IV) as (m & h & LV). exists m, h. unfold size in SZV. rewrite (st_pos _ _ T _ _ _ LU), (st_pos _ _ T' _ _ _ LV) in SZV. lia.
    + intros (t & g & LU & (m & h & SH) & N). pose proof (label_In _ _ _ _ _ LU) as [IU NE]. split; [|intros X; apply N, (has_label _ _ _ _ T T' _ _ _ LU), X].
      split; [exact IU|]. split; [apply SZ; exact IU|]. assert (NV : seg_pos m h other <> []) by (intros X; rewrite X in SH; cbn in SH; destruct (seg_pos t g rows); [congruence|cbn in SH; lia]).
      destruct (label_rows other s' m h (st_length _ _ T') NV) as (v & LV). exists v. split; [apply (label_In _ _ _ _ _ LV)|]. unfold size. rewrite (st_pos _ _ T _ _ _ LU), (st_pos _ _ T' _ _ _ LV). lia.
Qed.
