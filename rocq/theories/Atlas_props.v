(** C156: the summary of an atlas of networks. *)
From Coq Require Import List Arith ZArith Bool Lia Permutation QArith.
From Verif Require Import Base Spec Generic_model Generic_proofs Corr_model NetGroup_spec NetGroup_model NetGroup_more NetGroup_props Obs_model Net_model Net_links NetSeg_proofs NetTab_model NetTab_proofs NetTab_props Atlas_model.
Import ListNotations.
Local Close Scope Q_scope.
Local Open Scope nat_scope.

(** ** Lemmas *)
Lemma zmax_ok l z : zmax l = Some z -> In z l /\ forall v, In v l -> (v <= z)%Z.
Proof.
  destruct l as [|a l]; [discriminate|]. intros E. cbn in E. injection E as <-.
  apply zmax_from_spec.
Qed.
(** Sum of the numbers of copies of the values which satisfy a test. *)
Lemma sum_copies (p : nat -> bool) ids : NoDup ids -> forall t, (forall v, In v t -> In v ids) -> zsum (map (copies t) (filter p ids)) = Z.of_nat (length (filter p t)).
Proof.
  intros ND. induction t as [|a t IH]; intros B.
  - cbn. induction (filter p ids) as [|x l IHl]; [reflexivity|]. cbn. exact IHl.
  - specialize (IH (fun v V => B v (or_intror V))). assert (IA : In a ids) by (apply B; now left).
    assert (G : forall l, NoDup l -> zsum (map (copies (a :: t)) l) = (zsum (map (copies t) l) + if in_dec Nat.eq_dec a l then 1 else 0)%Z).
    { clear. induction l as [|x l IH]; intros D; [reflexivity|]. inversion D as [|? ? NI D']; subst. cbn [map zsum fold_right]. specialize (IH D'). unfold zsum in IH. rewrite IH. unfold copies at 1. cbn [count_occ].
      destruct (Nat.eq_dec a x) as [->|N]; [destruct (in_dec Nat.eq_dec x l) as [|]; [contradiction|]; destruct (in_dec Nat.eq_dec x (x :: l)) as [|X]; [unfold copies; lia|elim X; now left]|].
      destruct (in_dec Nat.eq_dec a l) as [I1|I1], (in_dec Nat.eq_dec a (x :: l)) as [I2|I2]; unfold copies; try lia; [elim I2; now right|destruct I2 as [I2|I2]; congruence]. }
    rewrite G by (now apply NoDup_filter). rewrite IH. cbn [filter]. destruct (in_dec Nat.eq_dec a (filter p ids)) as [I1|I1]; rewrite filter_In in I1.
    + destruct I1 as (_ & ->). cbn [length]. lia.
    + destruct (p a); [elim I1; auto|lia].
Qed.
Lemma filter_map_copies t (q : Z -> bool) ids : filter q (map (copies t) ids) = map (copies t) (filter (fun i => q (copies t i)) ids).
Proof. induction ids as [|a l IH]; [reflexivity|]. cbn [map filter]. rewrite IH. destruct (q (copies t a)); reflexivity. Qed.
Lemma same_length {A} (a b : list A) : NoDup a -> NoDup b -> (forall x, In x a <-> In x b) -> length a = length b.
Proof. intros NA NB H. apply Permutation_length. now apply NoDup_Permutation. Qed.

(** ** Theorems *)
(** Networks and segments are counted once each, network 0 included.  The biggest size is
    the size of a network and no network is larger.  The networks of more than the given
    number of observations are counted, with the observations they hold.  The trash is the
    number of observations of network 0, none when there is no such network. *)
Theorem C156_counts : forall big t s days merging splitting, (0 <= big)%Z -> length s = length t -> t <> [] -> pairs_sorted s t ->
  exists a, summary big (fresh t s) days merging splitting = Some a /\
    a_networks a = length (nodup Nat.eq_dec t) /\ a_segments a = length (nodup pair_dec (combine t s)) /\ a_rows a = length t /\
    (exists i, In i t /\ a_biggest a = copies t i) /\ (forall i, In i t -> (copies t i <= a_biggest a)%Z) /\
    a_many a = length (filter (fun i => big <? copies t i)%Z (nodup Nat.eq_dec t)) /\
    a_cumulated a = Z.of_nat (length (filter (fun i => big <? copies t i)%Z t)) /\
    a_trash a = copies t 0 /\
    a_networks_year a = by_year (Z.of_nat (a_networks a)) days /\ a_segments_year a = by_year (Z.of_nat (a_segments a)) days /\ a_rows_year a = by_year (Z.of_nat (a_rows a)) days /\
    a_merging_year a = by_year (Z.of_nat merging) days /\ a_splitting_year a = by_year (Z.of_nat splitting) days.
Proof.
  intros big t s days merging splitting BG L N P. destruct (network_ready t s L N P) as (first & last & ref & lo & E & TO & I0 & RA & TOP & ER & PO).
  set (n1 := Net t s (Some (first, last, ref)) None None) in *.
  destruct (C103_networks t s L N P) as (lo' & hi & n' & IL & IH & B & SZ & NB & _). assert (lo' = lo) by (pose proof (RA _ IL); pose proof (B _ I0); lia). subst lo'.
  assert (SZ' := SZ). unfold network_sizes in SZ'. rewrite E in SZ'. cbn [bind] in SZ'. inversion SZ' as [[SZ1 SZ2]]. subst n'.
  assert (NB' : nb_network n1 = Some (length (nodup Nat.eq_dec t), n1)).
  { unfold nb_network in NB |- *. rewrite SZ in NB. cbn [bind] in NB. unfold network_sizes, index_network. cbn [n1 c_net bind]. rewrite SZ1. exact NB. }
  destruct (segments_spec t s L N P) as (u & f2 & l2 & ps & EU & LU & US & EI & TO2 & LP & BF & INP & KU & FP).
  assert (NS : nb_segment n1 = Some (length f2, Net t s (Some (first, last, ref)) (Some u) (Some (f2, l2, 0%Z)))).
  { unfold nb_segment, index_segment, segment_array. cbn [n1 c_seg c_arr sg tr c_net]. rewrite EU. cbn [bind tr sg c_net c_arr c_seg]. unfold of_segment. rewrite EI. reflexivity. }
  assert (LE : lo <= hi) by (now apply B). set (w := hi + 1 - lo) in *. assert (W : w = S (hi - lo)) by lia.
  assert (Z0 : nth_error (map (copies t) (seq lo w)) 0 = Some (copies t lo)) by (rewrite W; reflexivity).
  destruct (zmax (map (copies t) (seq lo w))) as [mx|] eqn:MX; [|rewrite W in MX; discriminate MX].
  assert (IN1 : index_network n1 = Some ((first, last, ref), n1)) by reflexivity.
  eexists. split; [unfold summary; rewrite SZ; cbn [bind]; rewrite IN1; cbn [bind]; rewrite Z0; cbn [bind]; rewrite NB'; cbn [bind]; rewrite NS; cbn [bind]; rewrite MX; cbn [bind]; reflexivity|].
  cbn [a_networks a_segments a_rows a_biggest a_many a_cumulated a_trash a_networks_year a_segments_year a_rows_year a_merging_year a_splitting_year tr].
  assert (RANGE : forall v, In v (seq lo w) <-> lo <= v <= hi) by (intros v; rewrite in_seq; lia).
  destruct (zmax_ok _ _ MX) as (M1 & M2). assert (POS : forall i, In i t <-> (0 < copies t i)%Z) by (intros i; unfold copies; rewrite (count_occ_In Nat.eq_dec); lia).
  assert (BIG : forall i, In i t -> (copies t i <= mx)%Z) by (intros i Ii; apply M2, in_map, RANGE; now apply B).
  split; [reflexivity|]. split.
  { rewrite <- LP. apply same_length; [|apply NoDup_nodup|intros p; now rewrite nodup_In].
    apply NoDup_nth_error. intros i j Bi Eq. destruct (nth_error ps i) as [p|] eqn:Pi; [|apply nth_error_None in Pi; lia]. symmetry in Eq.
    destruct (Nat.lt_trichotomy i j) as [H|[H|H]]; [|exact H|]; [pose proof (BF i j p p H Pi Eq) as Z|pose proof (BF j i p p H Eq Pi) as Z]; unfold before in Z; lia. }
  split; [reflexivity|]. split.
  { apply in_map_iff in M1. destruct M1 as (i & Ei & Ii). exists i. split; [|now symmetry]. apply POS. pose proof (BIG lo I0). apply POS in I0. lia. }
  split; [exact BIG|]. split.
  { rewrite filter_map_copies, map_length. apply same_length; [apply NoDup_filter, seq_NoDup|apply NoDup_filter, NoDup_nodup|]. intros i. rewrite !filter_In, nodup_In, RANGE. split; intros (H1 & H2); (split; [|exact H2]).
    - apply POS. apply Z.ltb_lt in H2. lia.
    - now apply B. }
  split.
  { rewrite filter_map_copies. apply sum_copies; [apply seq_NoDup|]. intros v V. apply RANGE. now apply B. }
  split; [|repeat split].
  unfold lowest. cbn [snd]. rewrite ER. destruct (Z.eqb_spec (Z.of_nat lo) 0) as [H|H]; [replace lo with 0 by lia; reflexivity|]. unfold copies. rewrite (proj1 (count_occ_not_In Nat.eq_dec t 0)); [reflexivity|]. intros Z. apply B in Z. lia.
Qed.
Print Assumptions C156_counts.

(** What is displayed: the limit is 50000 observations. *)
Theorem C156_displayed : forall t s days merging splitting, length s = length t -> t <> [] -> pairs_sorted s t ->
  exists a, repr (fresh t s) days merging splitting = Some a /\ a_networks a = length (nodup Nat.eq_dec t) /\ a_rows a = length t /\ a_trash a = copies t 0 /\
    a_many a = length (filter (fun i => 50000 <? copies t i)%Z (nodup Nat.eq_dec t)) /\ a_cumulated a = Z.of_nat (length (filter (fun i => 50000 <? copies t i)%Z t)).
Proof.
  intros t s days merging splitting L N P. destruct (C156_counts 50000 t s days merging splitting ltac:(lia) L N P) as (a & E & A1 & _ & A3 & _ & _ & A6 & A7 & A8 & _). exists a. auto 10.
Qed.
Print Assumptions C156_displayed.

(** The rates are by year of 365.25 days; with one date there is none. *)
Theorem C156_rates : forall n days, (~ days == 0 -> exists r, by_year n days = Some r /\ r * days == inject_Z n * (36525 # 100))%Q /\ ((days == 0)%Q -> by_year n days = None).
Proof.
  intros n days. unfold by_year. split.
  - intros D. destruct (Qeq_bool days 0) eqn:E; [apply Qeq_bool_iff in E; contradiction|]. eexists. split; [reflexivity|]. field. auto.
  - intros D. apply Qeq_bool_iff in D. now rewrite D.
Qed.
Print Assumptions C156_rates.

(** The trash is counted as a network, and is the biggest one when it has most of the rows. *)
Theorem C156_trash_refuted : forall t s days merging splitting, length s = length t -> pairs_sorted s t -> In 0 t -> (forall i, In i t -> (copies t i <= copies t 0)%Z) ->
  exists a, repr (fresh t s) days merging splitting = Some a /\ a_networks a = S (length (nodup Nat.eq_dec (filter (fun i => negb (i =? 0)) t))) /\ a_biggest a = a_trash a.
Proof.
  intros t s days merging splitting L P I0 M. assert (N : t <> []) by (intros ->; destruct I0). destruct (C156_counts 50000 t s days merging splitting ltac:(lia) L N P) as (a & E & A1 & _ & _ & (i & Ii & A4) & A5 & _ & _ & A8 & _). exists a. split; [exact E|].
  split; [|rewrite A8; pose proof (M i Ii); pose proof (A5 0 I0); lia].
  rewrite A1. change (S (length (nodup Nat.eq_dec (filter (fun i => negb (i =? 0)) t)))) with (length (0 :: nodup Nat.eq_dec (filter (fun i => negb (i =? 0)) t))).
  apply same_length; [apply NoDup_nodup| |].
  - constructor; [|apply NoDup_nodup]. rewrite nodup_In, filter_In. intros (_ & H). discriminate H.
  - intros x. rewrite nodup_In. cbn [In]. rewrite nodup_In, filter_In. destruct x as [|x]; [split; auto|]. split; [intros X; right; split; auto|intros [X|(X & _)]; [discriminate X|exact X]].
Qed.
Print Assumptions C156_trash_refuted.
(** Without rows the summary raises. *)
Theorem C156_empty_refuted : forall days merging splitting, repr (fresh [] []) days merging splitting = None.
Proof. reflexivity. Qed.
Print Assumptions C156_empty_refuted.

(** ** Cases *)
Lemma ex_pairs : pairs_sorted [1; 1; 1; 1; 1; 2] [0; 0; 0; 3; 5; 5].
Proof.
  intros i j a b a' b' I A B A' B'. pose proof (nth_error_Some_lt _ _ _ A') as L. cbn in L.
  do 6 (destruct j as [|j]; [do 6 (destruct i as [|i]; [try lia; cbn in *; repeat match goal with H : Some _ = Some _ |- _ => injection H as <- end; lia|]); lia|]). lia.
Qed.
Example C156_counts_ex : pairs_sorted [1; 1; 1; 1; 1; 2] [0; 0; 0; 3; 5; 5] /\
  option_map (fun a => (a_networks a, a_segments a, a_rows a, a_biggest a, a_many a, a_cumulated a, a_trash a)) (summary 1 (fresh [0; 0; 0; 3; 5; 5] [1; 1; 1; 1; 1; 2]) 10 1 0) = Some (3, 4, 6, 3%Z, 2, 5%Z, 3%Z).
Proof. split; [apply ex_pairs|reflexivity]. Qed.
Example C156_trash_ex : In 0 [0; 0; 0; 3; 5; 5] /\ (forall i, In i [0; 0; 0; 3; 5; 5] -> Z.le (copies [0; 0; 0; 3; 5; 5] i) (copies [0; 0; 0; 3; 5; 5] 0)) /\
  option_map (fun a => (a_networks a, a_biggest a, a_trash a)) (repr (fresh [0; 0; 0; 3; 5; 5] [1; 1; 1; 1; 1; 2]) 10 1 0) = Some (3, 3%Z, 3%Z).
Proof. split; [now left|]. split; [|reflexivity]. intros i Ii. cbn in Ii. destruct Ii as [<-|[<-|[<-|[<-|[<-|[<-|[]]]]]]]; cbn; lia. Qed.
Example C156_rates_ex : (~ 3652.5 == 0)%Q /\ exists r, by_year 20 3652.5 = Some r /\ (r == 2)%Q.
Proof. split; [discriminate|]. eexists. split; [reflexivity|reflexivity]. Qed.
