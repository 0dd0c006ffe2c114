(** C136: the numbers displayed by the comparison of two atlases of networks. *)
From Coq Require Import List Arith ZArith Bool QArith Lia Permutation Sorted.
From Verif Require Import Base Qaux Spec Generic_model Corr_model Corr_proofs Obs_spec Obs_model Obs_props NetSeg_model NetGroup_model NetCmp_model NetCmp_spec NetCmp_props Match_props Ident_model Ident_proofs Ident_props Ncmp_model Ncmp_proofs.
Import ListNotations.
Local Close Scope Q_scope.
Local Open Scope nat_scope.

(** ** Specification *)
(** A network of the reference with two observations or more and the observations
    of a network of the other atlas. *)
Definition common_net (ref other : list arow) (t : nat) : Prop :=
  2 <= length (net_pos t ref) /\ exists u, same_content (net_pos t ref) (net_pos u other).
(** The network of the other atlas is one of those found. *)
Definition partner (ref other : list arow) (u : nat) : Prop :=
  exists t, 2 <= length (net_pos t ref) /\ same_content (net_pos t ref) (net_pos u other).
(** A segment of the reference with the observations of a segment of the other atlas. *)
Definition common_seg (ref other : list arow) (t g : nat) : Prop :=
  seg_pos t g ref <> [] /\ exists u h, same_content (seg_pos t g ref) (seg_pos u h other).
(** A common network each segment of which is either longer than all the segments
    of the networks found in the other atlas or equal to one of these. *)
Definition counted_ns (ref other : list arow) (t : nat) : Prop :=
  common_net ref other t /\
  forall g, seg_pos t g ref <> [] -> (exists u h, partner ref other u /\ length (seg_pos t g ref) <= length (seg_pos u h other)) ->
    exists u h, partner ref other u /\ same_content (seg_pos t g ref) (seg_pos u h other).
(** The number and the total size of the elements of a list. *)
Definition counts {A} (sz : A -> nat) (l : list A) (n : nat) (z : Z) : Prop := n = length l /\ z = Z.of_nat (list_sum (map sz l)).

(** ** Proofs *)
Lemma zsum_list : forall A (f : A -> nat) l, zsum (map (fun t => Z.of_nat (f t)) l) = Z.of_nat (list_sum (map f l)).
Proof. intros A f l. induction l as [|a l IH]; [reflexivity|]. cbn [map]. change (list_sum (f a :: map f l)) with (f a + list_sum (map f l)). cbn [zsum fold_right]. unfold zsum in IH. rewrite IH. lia. Qed.
Lemma content_some : forall a b, a <> [] -> same_content a b -> b <> [].
Proof. intros a b N P ->. apply N. apply Permutation_sym, Permutation_nil in P. exact P. Qed.
Lemma seg_net : forall t g rows, seg_pos t g rows <> [] -> net_pos t rows <> [].
Proof. intros t g rows H. apply seg_pos_some in H as (i & r & I & N & _). apply net_pos_some. exists r. split; [exact (nth_error_In _ _ I)|exact N]. Qed.
Lemma nets_found : forall ref other r, identified 2 (nets ref) (nets other) r -> nets_apart ref -> nets_apart other ->
  NoDup (map fst (filter is_found r)) /\ (forall t, In t (map fst (filter is_found r)) <-> common_net ref other t) /\ (forall u, In u (map (fun p => Z.to_nat (snd p)) (filter is_found r)) <-> partner ref other u).
Proof.
  intros ref other r H A B. destruct (found_spec 2 _ _ _ H (nets_apart_labels _ A) (nets_apart_labels _ B)) as (D & F & G & _). split; [exact D|].
  assert (NE : forall t, 2 <= length (net_pos t ref) -> net_pos t ref <> []) by (intros t L X; rewrite X in L; cbn in L; lia).
  split.
  - intros t. rewrite F. unfold common_net, size. rewrite positions_nets. split.
    + intros (_ & L & u & _ & SC). rewrite positions_nets in SC. eauto.
    + intros (L & u & SC). split; [apply labels_nets, NE, L|]. split; [exact L|]. exists u. rewrite positions_nets. split; [apply labels_nets; exact (content_some _ _ (NE t L) SC)|exact SC].
  - intros u. rewrite G. unfold partner, size. rewrite positions_nets. split.
    + intros (_ & t & _ & L & SC). rewrite positions_nets in *. eauto.
    + intros (t & L & SC). split; [apply labels_nets; exact (content_some _ _ (NE t L) SC)|]. exists t. rewrite positions_nets. split; [apply labels_nets, NE, L|auto].
Qed.
Lemma bind_some : forall A B (x : option A) (f : A -> option B) y, bind x f = Some y -> exists a, x = Some a /\ f a = Some y.
Proof. intros A B [a|] f y H; [eauto|discriminate H]. Qed.
Lemma filter_apart : forall ids rows, segs_apart rows -> segs_apart (filter (fun r => mem (net r) ids) rows).
Proof.
  intros ids rows A t g u h NE SC. pose proof (content_some _ _ NE SC) as NE'. apply seg_pos_filter_some in NE as [IT NT]. apply seg_pos_filter_some in NE' as [IU NU].
  rewrite !seg_pos_filter_in in SC by assumption. apply A; assumption.
Qed.
Lemma segs_nonempty : forall rows s, segs rows = Some s -> rows <> [].
Proof. intros rows s E ->. discriminate E. Qed.

Theorem C136_numbers : forall argsort psort ref other n no k ko s so, sorts argsort -> sorts_pos psort ->
  ordered ref -> ordered other -> nets_apart ref -> nets_apart other -> segs_apart ref -> segs_apart other ->
  compare argsort psort ref other = Some (n, no, k, ko, s, so) ->
  exists N K S, NoDup N /\ NoDup K /\ NoDup S /\
    counts (fun t => length (net_pos t ref)) N n no /\ counts (fun t => length (net_pos t ref)) K k ko /\ counts (fun x => length (seg_pos (fst x) (snd x) ref)) S s so /\
    (forall t, In t N <-> common_net ref other t) /\
    (forall t, In t K <-> counted_ns ref other t) /\
    (forall t g, In (t, g) S <-> common_seg ref other t g).
Proof.
  intros argsort psort ref other n no k ko s so AS PS O1 O2 A1 A2 B1 B2 E. unfold compare in E. cbv zeta in E.
  apply bind_some in E as (r1 & E1 & E). destruct (identify_some argsort psort 2 _ _ r1 AS PS ltac:(lia) (ordered_nets _ O1) (ordered_nets _ O2) E1) as (NE1 & NE2 & I1).
  assert (R1 : ref <> []) by (intros ->; apply NE1; reflexivity). assert (R2 : other <> []) by (intros ->; apply NE2; reflexivity). clear NE1 NE2.
  destruct (nets_found ref other r1 I1 A1 A2) as (D & F & G). set (ids := map fst (filter is_found r1)) in *. set (ids' := map (fun p => Z.to_nat (snd p)) (filter is_found r1)) in *.
  assert (IN1 : forall t, In t ids -> net_pos t ref <> []) by (intros t I X; apply F in I as [L _]; rewrite X in L; cbn in L; lia).
  assert (IN2 : forall u, In u ids' -> net_pos u other <> []) by (intros u I; apply G in I as (t & L & SC); apply (content_some _ _ ltac:(intros X; rewrite X in L; cbn in L; lia) SC)).
  rewrite (network_size_spec ids ref O1 IN1 R1), (networks_spec ids ref O1 IN1 R1), (networks_spec ids' other O2 IN2 R2) in E. cbn [bind] in E.
  set (ref_ := filter (fun r => mem (net r) ids) ref) in *. set (other_ := filter (fun r => mem (net r) ids') other) in *.
  apply bind_some in E as (s1 & S1 & E). apply bind_some in E as (s2 & S2 & E).
  assert (O1' : ordered ref_) by (apply ordered_filter; exact O1). assert (O2' : ordered other_) by (apply ordered_filter; exact O2).
  pose proof (segs_table ref_ s1 (segs_nonempty _ _ S1) O1' S1) as T1. pose proof (segs_table other_ s2 (segs_nonempty _ _ S2) O2' S2) as T2.
  apply bind_some in E as (r2 & E2 & E). destruct (identify_some argsort psort 1 _ _ r2 AS PS ltac:(lia) (st_sorted _ _ T1) (st_sorted _ _ T2) E2) as (_ & _ & I2).
  destruct (segs_found ref_ s1 other_ s2 r2 T1 T2 (filter_apart ids ref B1) (filter_apart ids' other B2) I2) as (_ & F2 & _ & NF).
  apply bind_some in E as (nm & NM & E). cbv beta in E.
  set (K := filter (fun t => negb (mem t nm)) ids) in *.
  assert (IK : forall t, In t K -> In t ids) by (intros t I; apply filter_In in I; apply I).
  rewrite (network_size_spec K ref O1 (fun t I => IN1 t (IK t I)) R1) in E. cbn [bind] in E.
  apply bind_some in E as (t1 & TT1 & E). apply bind_some in E as (t2 & TT2 & E). pose proof (segs_table ref t1 R1 O1 TT1) as U1. pose proof (segs_table other t2 R2 O2 TT2) as U2.
  apply bind_some in E as (r3 & E3 & E). destruct (identify_some argsort psort 1 _ _ r3 AS PS ltac:(lia) (st_sorted _ _ U1) (st_sorted _ _ U2) E3) as (NT1 & _ & I3).
  destruct (segs_found ref t1 other t2 r3 U1 U2 B1 B2 I3) as (D3 & F3 & Z3 & _). set (sl := map fst (filter is_found r3)) in *.
  rewrite (segment_size_spec sl t1 NT1 (st_sorted _ _ U1) (st_zero _ _ U1) (fun u I => proj1 (Z3 u I))) in E. cbn [bind] in E. apply Some_inj in E.
  apply pair_equal_spec in E as [E <-]. apply pair_equal_spec in E as [E <-]. apply pair_equal_spec in E as [E <-]. apply pair_equal_spec in E as [E <-]. apply pair_equal_spec in E as [<- <-].
  exists ids, K, (map (key ref t1) sl). split; [exact D|]. split; [apply NoDup_filter; exact D|]. split; [exact D3|].
  split; [split; [reflexivity|apply zsum_list]|]. split; [split; [reflexivity|apply zsum_list]|].
  split; [split; [rewrite map_length; reflexivity|]|split; [exact F|split]].
  - rewrite zsum_list. do 2 f_equal. rewrite map_map. apply map_ext_in. intros u U. exact (proj2 (Z3 u U)).
  - assert (NMI : forall t, In t nm <-> exists u, In u (map fst (filter (fun p => negb (is_found p)) r2)) /\ segment_network ref_ s1 u = Some t).
    { clear -NM. set (l := filter _ r2) in *. clearbody l. revert nm NM. induction l as [|p l IH]; intros nm NM t; cbn [map sequence] in NM.
      - apply Some_inj in NM. subst nm. split; [intros []|intros (u & [] & _)].
      - destruct (segment_network ref_ s1 (fst p)) as [a|] eqn:EA; [|discriminate NM]. cbn [bind] in NM. apply bind_some in NM as (nm' & NM & E). apply Some_inj in E. subst nm. cbn [map In]. rewrite (IH nm' NM t). split.
        + intros [<-|(u & IU & EU)]; [exists (fst p); auto|exists u; auto].
        + intros (u & [<-|IU] & EU); [left; congruence|right; eauto]. }
    intros t. unfold K. rewrite filter_In, negb_true_iff. unfold counted_ns. rewrite <- F.
    assert (HS : forall g, In t ids -> (has_seg ref_ other_ t g <-> seg_pos t g ref = [] /\ has_seg ref_ other_ t g \/ exists u h, partner ref other u /\ seg_pos u h other <> [] /\ same_content (seg_pos t g ref) (seg_pos u h other))).
    { intros g IT. split.
      - intros (u & h & NE & SC). right. exists u, h. apply seg_pos_filter_some in NE as [IU NE]. unfold ref_, other_ in SC. rewrite !seg_pos_filter_in in SC by assumption. split; [apply G; exact IU|auto].
      - intros [[_ X]|(u & h & PU & NE & SC)]; [exact X|]. apply G in PU. exists u, h. split; [apply seg_pos_filter_some; auto|]. unfold ref_, other_. rewrite !seg_pos_filter_in by assumption. exact SC. }
    assert (PD : forall x y : nat * nat, {x = y} + {x <> y}) by (intros [a b] [c d]; destruct (Nat.eq_dec a c), (Nat.eq_dec b d); [left; congruence|right; congruence..]).
    split.
    + intros [IT NM']. split; [exact IT|]. intros g NE (u & h & PU & L).
      assert (NE' : seg_pos t g ref_ <> []) by (apply seg_pos_filter_some; auto).
      destruct (in_dec PD (t, g) (map (key ref_ s1) (map fst (filter is_found r2)))) as [X|X].
      * apply F2 in X as [_ X]. apply HS in X as [[X _]|(v & h' & PV & _ & SC)]; [contradiction|eauto|exact IT].
      * exfalso. assert (Y : ~ has_seg ref_ other_ t g) by (intros Y; apply X, F2; auto). destruct (label_rows ref_ s1 t g (st_length _ _ T1) NE') as (v & LV).
        assert (IM : In t nm). { apply NMI. exists v. split; [|exact (segment_network_spec _ _ _ _ _ (segs_nonempty _ _ S1) O1' S1 LV)]. apply NF. exists t, g. split; [exact LV|]. split; [|exact Y]. exists u, h. unfold ref_, other_. rewrite !seg_pos_filter_in by (try (apply G); assumption). exact L. }
        apply mem_In in IM. rewrite IM in NM'. discriminate NM'.
    + intros [IT ALL]. split; [exact IT|]. destruct (mem t nm) eqn:M; [|reflexivity]. exfalso. apply mem_In, NMI in M as (u & IU & EU). apply NF in IU as (t' & g & LU & (v & h & L) & N).
      rewrite (segment_network_spec _ _ _ _ _ (segs_nonempty _ _ S1) O1' S1 LU) in EU. apply Some_inj in EU. subst t'.
      pose proof (proj2 (label_In _ _ _ _ _ LU)) as NE. assert (NV : seg_pos v h other_ <> []) by (intros X; rewrite X in L; destruct (seg_pos t g ref_); [congruence|cbn in L; lia]).
      apply seg_pos_filter_some in NE as [_ NE]. apply seg_pos_filter_some in NV as [IV NV]. apply N, HS; [exact IT|]. right. unfold ref_, other_ in L. rewrite !seg_pos_filter_in in L by assumption.
      destruct (ALL g NE) as (v' & h' & PV & SC); [exists v, h; split; [apply G; exact IV|exact L]|]. exists v', h'. split; [exact PV|]. split; [exact (content_some _ _ NE SC)|exact SC].
  - intros t g. rewrite F3. unfold common_seg, has_seg. split.
    + intros (NE & u & h & _ & SC). eauto.
    + intros (NE & u & h & SC). split; [exact NE|]. exists u, h. split; [exact (content_some _ _ NE SC)|exact SC].
Qed.
Print Assumptions C136_numbers.
(** Without a common network the comparison is an error. *)
Theorem C136_error : forall argsort psort ref other, sorts argsort -> sorts_pos psort ->
  ordered ref -> ordered other -> nets_apart ref -> nets_apart other -> (forall t, ~ common_net ref other t) -> compare argsort psort ref other = None.
Proof.
  intros argsort psort ref other AS PS O1 O2 A1 A2 NC. unfold compare. cbv zeta. destruct (identify_in argsort psort 2 (nets ref) (nets other)) as [r1|] eqn:E1; [|reflexivity]. cbn [bind].
  destruct (identify_some argsort psort 2 _ _ r1 AS PS ltac:(lia) (ordered_nets _ O1) (ordered_nets _ O2) E1) as (NE1 & NE2 & I1).
  destruct (nets_found ref other r1 I1 A1 A2) as (_ & F & _). destruct (filter is_found r1) as [|p l]; [|exfalso; apply (NC (fst p)), F; left; reflexivity]. cbn [map].
  assert (R1 : ref <> []) by (intros ->; apply NE1; reflexivity). rewrite (network_size_spec [] ref O1 (fun t I => match I with end) R1), (networks_spec [] ref O1 (fun t I => match I with end) R1). cbn [bind].
  destruct (networks [] other) as [o|]; [cbn [bind]|reflexivity]. replace (filter (fun r => mem (net r) []) ref) with (@nil arow); [reflexivity|]. clear. induction ref as [|r ref IH]; [reflexivity|]. cbn. exact IH.
Qed.
Print Assumptions C136_error.

(** A case: three networks; the first is the same with the same segments, the
    second has other segments, the third is not in the other atlas. *)
Definition ex_p (t : Z) : pos := (t, 0, 0)%Z.
Definition ex_ref : list arow := [(1, 1, ex_p 1); (1, 1, ex_p 2); (1, 2, ex_p 3); (4, 1, ex_p 4); (4, 2, ex_p 5); (4, 2, ex_p 6); (7, 1, ex_p 7)].
Definition ex_other : list arow := [(2, 3, ex_p 2); (2, 3, ex_p 1); (2, 5, ex_p 3); (3, 1, ex_p 4); (3, 1, ex_p 5); (3, 2, ex_p 6); (9, 1, ex_p 8); (9, 1, ex_p 9)].
Lemma ordered_list : forall rows, Sorted (fun a b => net a < net b \/ (net a = net b /\ seg a <= seg b)) rows -> ordered rows.
Proof. intros rows H. apply Sorted_StronglySorted; [|exact H]. intros a b c; cbn. lia. Qed.
(** All the positions of an atlas different: networks and segments are apart. *)
Lemma NoDup_apart : forall rows, NoDup (map snd rows) -> nets_apart rows /\ segs_apart rows.
Proof.
  intros rows D.
  assert (U : forall a b, In a rows -> In b rows -> snd a = snd b -> a = b).
  { clear -D. induction rows as [|r rows IH]; intros a b IA IB E; [destruct IA|]. cbn [map] in D. inversion D as [|? ? N D']. subst. destruct IA as [->|IA], IB as [->|IB]; [reflexivity| | |exact (IH D' a b IA IB E)]; exfalso; apply N; [rewrite E|rewrite <- E]; apply in_map; assumption. }
  split.
  - intros t u NE SC. destruct (net_pos t rows) as [|p l] eqn:P; [congruence|]. assert (I : In p (net_pos t rows)) by (rewrite P; left; reflexivity). assert (J : In p (net_pos u rows)) by (apply (Permutation_in p SC); left; reflexivity).
    unfold net_pos in I, J. apply in_map_iff in I as (a & EA & I). apply in_map_iff in J as (b & EB & J). apply filter_In in I as [I NA]. apply filter_In in J as [J NB]. apply Nat.eqb_eq in NA, NB. rewrite (U a b I J ltac:(congruence)) in NA. congruence.
  - intros t g u h NE SC. destruct (seg_pos t g rows) as [|p l] eqn:P; [congruence|]. assert (I : In p (seg_pos t g rows)) by (rewrite P; left; reflexivity). assert (J : In p (seg_pos u h rows)) by (apply (Permutation_in p SC); left; reflexivity).
    unfold seg_pos in I, J. apply in_map_iff in I as (a & EA & I). apply in_map_iff in J as (b & EB & J). apply filter_In in I as [I NA]. apply filter_In in J as [J NB]. apply andb_true_iff in NA as [NA GA], NB as [NB GB]. apply Nat.eqb_eq in NA, NB, GA, GB.
    rewrite (U a b I J ltac:(congruence)) in NA, GA. split; congruence.
Qed.
Ltac distinct := repeat (constructor; [cbn; intuition discriminate|]); constructor.
Example C136_case : ordered ex_ref /\ ordered ex_other /\ nets_apart ex_ref /\ segs_apart ex_ref /\ nets_apart ex_other /\ segs_apart ex_other /\
  compare zargsort pos_argsort ex_ref ex_other = Some (2, 6%Z, 1, 3%Z, 2, 3%Z).
Proof.
  split; [apply ordered_list; repeat constructor; cbn; lia|]. split; [apply ordered_list; repeat constructor; cbn; lia|].
  destruct (NoDup_apart ex_ref) as [A B]; [cbn; distinct|]. destruct (NoDup_apart ex_other) as [C D]; [cbn; distinct|]. repeat (split; [assumption|]). vm_compute. reflexivity.
Qed.
(** A common network may be counted among those with the same segments though
    it has other segments: a segment longer than all those of the other atlas is
    not looked for. *)
Definition wr_ref : list arow := [(1, 1, ex_p 1); (1, 1, ex_p 2); (1, 1, ex_p 3); (2, 1, ex_p 4); (2, 2, ex_p 5)].
Definition wr_other : list arow := [(1, 1, ex_p 1); (1, 1, ex_p 2); (1, 2, ex_p 3); (2, 1, ex_p 4); (2, 2, ex_p 5)].
Theorem C136_segments_refuted : ordered wr_ref /\ ordered wr_other /\ nets_apart wr_ref /\ segs_apart wr_ref /\ nets_apart wr_other /\ segs_apart wr_other /\
  compare zargsort pos_argsort wr_ref wr_other = Some (2, 5%Z, 2, 5%Z, 2, 2%Z) /\
  (forall t, common_net wr_ref wr_other t -> t = 1 \/ t = 2) /\ seg_pos 1 1 wr_ref <> [] /\ ~ common_seg wr_ref wr_other 1 1.
Proof.
  split; [apply ordered_list; repeat constructor; cbn; lia|]. split; [apply ordered_list; repeat constructor; cbn; lia|].
  destruct (NoDup_apart wr_ref) as [A B]; [cbn; distinct|]. destruct (NoDup_apart wr_other) as [C D]; [cbn; distinct|]. repeat (split; [assumption|]). split; [vm_compute; reflexivity|].
  split; [|split; [discriminate|]].
  - intros t [L _]. destruct t as [|[|[|t]]]; cbn in L; lia.
  - intros (_ & u & h & SC). apply Permutation_length in SC. destruct u as [|[|[|u]]], h as [|[|[|h]]]; cbn in SC; lia.
Qed.
Print Assumptions C136_segments_refuted.
