(** Property C133: networks or segments of an atlas found in another one. *)
From Coq Require Import List Arith ZArith Bool QArith Qround Lia Lqa Permutation.
From Verif Require Import Base Qaux Spec Generic_model Generic_proofs Corr_model Obs_spec Obs_model Obs_words Obs_proofs Obs_align Obs_props NetTab_model NetTab_proofs NetSeg_model NetCmp_model NetCmp_spec NetCmp_proofs NetCmp_props Match_props Ident_model Ident_proofs.
Import ListNotations.
Local Close Scope Q_scope.
Local Open Scope nat_scope.

(** ** Specification *)
(** [labels rows]: the labels of the rows; [positions t rows]: the positions of
    the rows of label [t] (Ident_proofs.v). *)
Definition size (t : nat) (rows : list (nat * pos)) : nat := length (positions t rows).
(** The labels do not decrease along the rows. *)
Definition by_label (rows : list (nat * pos)) : Prop := forall i j a b, i < j -> nth_error (labels rows) i = Some a -> nth_error (labels rows) j = Some b -> a <= b.
(** A number between the smallest and the greatest label. *)
Definition spanned (t : nat) (rows : list (nat * pos)) : Prop := (exists a, In a (labels rows) /\ a <= t) /\ (exists b, In b (labels rows) /\ t <= b).
(** The sizes do not decrease from a label to the next ones (numbers which are
    not used have size 0). *)
Definition growing (rows : list (nat * pos)) : Prop := forall t u, spanned t rows -> spanned u rows -> t < u -> size t rows <= size u rows.
(** A size of [self] (0 for a number not used) which [other] has not, while it
    has a greater one. *)
Definition lacking (self other : list (nat * pos)) : Prop :=
  exists t, spanned t self /\ (forall u, spanned u other -> size u other <> size t self) /\ exists u, In u (labels other) /\ size t self < size u other.
(** The labels compared: of the size asked, and not greater than every one of [other]. *)
Definition compared (size_min : nat) (self other : list (nat * pos)) (t : nat) : Prop :=
  In t (labels self) /\ size_min <= size t self /\ exists u, In u (labels other) /\ size t self <= size u other.

(** ** Proofs *)
Lemma size_pos : forall t rows, 0 < size t rows <-> In t (labels rows).
Proof.
  intros t rows. unfold size, positions, labels. rewrite map_length. induction rows as [|[u p] rows IH]; cbn [filter map fst length In]; [split; [lia|intros []]|].
  destruct (Nat.eqb_spec u t) as [->|N]; cbn [length]; [split; [auto|lia]|]. rewrite IH. split; [auto|]. intros [X|X]; [congruence|exact X].
Qed.
Lemma nord_filter : forall P rows, nord (labels rows) -> nord (labels (filter P rows)).
Proof.
  intros P. induction rows as [|r rows IH]; intros S; [exact S|].
  assert (S' : nord (labels rows)) by (intros i j a b L A B; apply (S (Datatypes.S i) (Datatypes.S j) a b); [lia|exact A|exact B]).
  cbn [filter]. destruct (P r); [|exact (IH S')]. intros i j a b L A B. destruct j as [|j]; [lia|]. destruct i as [|i].
  - cbn in A. apply Some_inj in A. subst a. cbn in B. apply nth_error_In in B. unfold labels in B. apply in_map_iff in B as (x & <- & X). apply filter_In in X as [X _].
    apply In_nth_error in X as [k K]. apply (S 0 (Datatypes.S k)); [lia|reflexivity|]. cbn. apply map_nth_error. exact K.
  - apply (IH S' i j a b); [lia|exact A|exact B].
Qed.
Lemma positions_filter : forall ids t rows, In t ids -> positions t (filter (label_in ids) rows) = positions t rows.
Proof.
  intros ids t rows I. unfold positions. f_equal. induction rows as [|[u p] rows IH]; [reflexivity|]. cbn [filter]. unfold label_in at 1. cbn [fst].
  destruct (existsb (Nat.eqb u) ids) eqn:X; cbn [filter fst]; rewrite IH; [reflexivity|].
  destruct (Nat.eqb_spec u t) as [->|N]; [|reflexivity]. exfalso. apply not_true_iff_false in X. apply X. apply existsb_exists. exists t. split; [exact I|apply Nat.eqb_refl].
Qed.
Lemma labels_filter : forall ids t rows, In t (labels (filter (label_in ids) rows)) <-> In t ids /\ In t (labels rows).
Proof.
  intros ids t rows. unfold labels. rewrite in_map_iff. split.
  - intros (x & <- & X). apply filter_In in X as [X Y]. unfold label_in in Y. apply existsb_exists in Y as (y & Y & E). apply Nat.eqb_eq in E. subst y. split; [exact Y|apply in_map; exact X].
  - intros [I J]. apply in_map_iff in J as (x & <- & X). exists x. split; [reflexivity|]. apply filter_In. split; [exact X|]. unfold label_in. apply existsb_exists. exists (fst x). split; [exact I|apply Nat.eqb_refl].
Qed.

(** The pairs given for the size [n]. *)
Definition chunk_ok (self other : list (nat * pos)) (n : nat) (c : list (nat * Z)) : Prop :=
  NoDup (map fst c) /\ (forall t, In t (map fst c) <-> In t (labels self) /\ size t self = n) /\
  (forall t z, In (t, z) c -> z = (-1)%Z \/ exists u, z = Z.of_nat u /\ In u (labels other) /\ same_content (positions t self) (positions u other)) /\
  (forall t t' u, In (t, Z.of_nat u) c -> In (t', Z.of_nat u) c -> t = t') /\
  (forall t u, In (t, (-1)%Z) c -> In u (labels other) -> same_content (positions t self) (positions u other) -> exists t', In (t', Z.of_nat u) c).

Lemma spanned_iff : forall rows f l lo, tab_of (labels rows) (f, l, Z.of_nat lo) -> forall t, spanned t rows <-> exists k, k < length f /\ t = lo + k.
Proof.
  intros rows f l lo T t. destruct T as (lo' & EL & _ & PO & IL & IU & RG & _). apply Nat2Z.inj in EL. subst lo'. split.
  - intros [(a & A & LA) (b & B & LB)]. apply RG in A, B. exists (t - lo). lia.
  - intros (k & K & ->). split; [exists lo; split; [exact IL|lia]|exists (lo + length f - 1); split; [exact IU|lia]].
Qed.
Lemma labels_spanned : forall rows t, In t (labels rows) -> spanned t rows.
Proof. intros rows t I. split; exists t; split; auto. Qed.

Lemma same_content_size : forall t u self other, same_content (positions t self) (positions u other) -> size t self = size u other.
Proof. intros t u self other H. apply Permutation_length in H. exact H. Qed.

Lemma one_size_ok : forall argsort psort sm self other f1 l1 lo1 ns1 f2 l2 lo2 ns2 r ry b0 b1 n, sorts argsort -> sorts_pos psort ->
  nord (labels self) -> nord (labels other) ->
  tab_of (labels self) (f1, l1, Z.of_nat lo1) -> length ns1 = length f1 -> (forall k, k < length f1 -> nth_error ns1 k = Some (size (lo1 + k) self)) ->
  tab_of (labels other) (f2, l2, Z.of_nat lo2) -> length ns2 = length f2 -> (forall k, k < length f2 -> nth_error ns2 k = Some (size (lo2 + k) other)) ->
  one_value ns1 (r, b0, b1) n -> NoDup (rows_list r) -> (forall k, In k (rows_list ry) <-> nth_error ns2 k = Some n) -> 0 < n -> sm <= n ->
  exists c, one_size argsort psort (Z.of_nat sm) self other (f1, l1, Z.of_nat lo1) (f2, l2, Z.of_nat lo2) (r, ry, b0, b1) = Some (Some c) /\ chunk_ok self other n c.
Proof.
  intros argsort psort sm self other f1 l1 lo1 ns1 f2 l2 lo2 ns2 r ry b0 b1 n AS PS S1 S2 T1 L1 N1 T2 L2 N2 (B0 & NR & RV) ND RY NP SM.
  change (low (r, b0, b1)) with b0 in B0. cbn [fst] in NR, RV.
  assert (QM : Qlt_bool b0 (inject_Z (Z.of_nat sm)) = false). { apply Qlt_bool_false. rewrite B0. change (qn sm <= qn n)%Q. apply qn_le. exact SM. }
  assert (R1 : forall k, In k (rows_list r) <-> k < length f1 /\ size (lo1 + k) self = n).
  { intros k. rewrite RV. split; [intros H; assert (K : k < length f1) by (rewrite <- L1; eapply nth_error_Some_lt; exact H); split; [exact K|]; rewrite (N1 k K) in H; apply Some_inj in H; exact H|intros [K <-]; exact (N1 k K)]. }
  assert (R2 : forall k, In k (rows_list ry) <-> k < length f2 /\ size (lo2 + k) other = n).
  { intros k. rewrite RY. split; [intros H; assert (K : k < length f2) by (rewrite <- L2; eapply nth_error_Some_lt; exact H); split; [exact K|]; rewrite (N2 k K) in H; apply Some_inj in H; exact H|intros [K <-]; exact (N2 k K)]. }
  set (ids1 := map (fun i => lo1 + i) (rows_list r)). set (ids2 := map (fun i => lo2 + i) (rows_list ry)).
  assert (I1 : forall t, In t ids1 <-> In t (labels self) /\ size t self = n).
  { intros t. unfold ids1. rewrite in_map_iff. split.
    - intros (k & <- & K). apply R1 in K as [_ K]. split; [apply size_pos; lia|exact K].
    - intros [I E]. apply labels_spanned, (spanned_iff _ _ _ _ T1) in I as (k & K & ->). exists k. split; [reflexivity|]. apply R1. split; assumption. }
  assert (I2 : forall t, In t ids2 <-> In t (labels other) /\ size t other = n).
  { intros t. unfold ids2. rewrite in_map_iff. split.
    - intros (k & <- & K). apply R2 in K as [_ K]. split; [apply size_pos; lia|exact K].
    - intros [I E]. apply labels_spanned, (spanned_iff _ _ _ _ T2) in I as (k & K & ->). exists k. split; [reflexivity|]. apply R2. split; assumption. }
  assert (M1 : map (fun i => Z.to_nat (Z.of_nat i + Z.of_nat lo1)) (rows_list r) = ids1) by (apply map_ext; intros; lia).
  cbn [one_size]. rewrite QM. case_eq (rows_list ry); [intros RL|intros k0 ks RL; rewrite <- RL].
  - eexists. split; [reflexivity|]. rewrite M1. assert (MF : map fst (map (fun i => (i, (-1)%Z)) ids1) = ids1) by (rewrite map_map; apply map_id).
    split; [rewrite MF; unfold ids1; apply FinFun.Injective_map_NoDup; [intros a b E; lia|exact ND]|]. split; [intros t; rewrite MF; apply I1|].
    split; [intros t z H; apply in_map_iff in H as (i & E & _); left; congruence|].
    split; [intros t t' u H; apply in_map_iff in H as (i & E & _); exfalso; injection E as _ E; lia|].
    intros t u H IU SC. exfalso. assert (IT : In t ids1) by (rewrite <- MF; apply in_map_iff; exists (t, (-1)%Z); auto). apply I1 in IT as [_ IT].
    assert (X : In u ids2) by (apply I2; split; [exact IU|]; rewrite <- (same_content_size _ _ _ _ SC); exact IT). unfold ids2 in X. rewrite RL in X. exact X.
  - destruct (selected self f1 l1 lo1 (rows_list r) T1) as (m1 & E1 & SL1); [intros i I; apply R1 in I as [I _]; exact I|].
    destruct (selected other f2 l2 lo2 (rows_list ry) T2) as (m2 & E2 & SL2); [intros i I; apply R2 in I as [I _]; exact I|].
    rewrite E1. cbn [bind]. rewrite E2. cbn [bind]. rewrite SL1, SL2. fold ids1 ids2.
    set (o1 := filter (label_in ids1) self) in *. set (o2 := filter (label_in ids2) other) in *.
    assert (NE1 : o1 <> []). { destruct (rows_list r) as [|k1 ks1] eqn:RR; [congruence|]. assert (X : In (lo1 + k1) (labels o1)). { apply labels_filter. assert (Y : In (lo1 + k1) ids1) by (left; reflexivity). split; [exact Y|]. apply I1 in Y as [Y _]. exact Y. } intros Z. rewrite Z in X. exact X. }
    assert (NE2 : o2 <> []). { assert (X : In (lo2 + k0) (labels o2)). { apply labels_filter. assert (Y : In (lo2 + k0) ids2) by (unfold ids2; rewrite RL; left; reflexivity). split; [exact Y|]. apply I2 in Y as [Y _]. exact Y. } intros Z. rewrite Z in X. exact X. }
    destruct (items_spec argsort psort o1 AS NE1 (nord_filter _ _ S1)) as (i1 & EI1 & F1 & D1 & C1 & IN1).
    destruct (items_spec argsort psort o2 AS NE2 (nord_filter _ _ S2)) as (i2 & EI2 & F2 & D2 & C2 & IN2).
    rewrite EI1. cbn [bind]. rewrite EI2. cbn [bind].
    set (ts1 := map snd i1) in *. set (ts2 := map snd i2) in *.
    assert (IL1 : forall t, In t ts1 <-> In t (labels self) /\ size t self = n) by (intros t; rewrite IN1; unfold o1; rewrite labels_filter, I1; tauto).
    assert (IL2 : forall t, In t ts2 <-> In t (labels other) /\ size t other = n) by (intros t; rewrite IN2; unfold o2; rewrite labels_filter, I2; tauto).
    assert (P1 : map (fun t => positions t o1) ts1 = map (fun t => positions t self) ts1) by (apply map_ext_in; intros t I; apply positions_filter, I1, IL1, I).
    assert (P2 : map (fun t => positions t o2) ts2 = map (fun t => positions t other) ts2) by (apply map_ext_in; intros t I; apply positions_filter, I2, IL2, I).
    rewrite P1 in F1, C1. rewrite P2 in F2, C2. rewrite F1, F2, <- C1, <- C2.
    destruct (C46_same_position psort (map (fun t => positions t self) ts1) (map (fun t => positions t other) ts2) n PS) as (fd & EF & LF & RF & SF & JF & XF).
    { intros b I. apply in_map_iff in I as (t & <- & I). apply IL1 in I as [_ I]. exact I. }
    { intros b I. apply in_map_iff in I as (t & <- & I). apply IL2 in I as [_ I]. exact I. }
    rewrite map_length in LF, RF. rewrite EF. cbn [bind].
    set (tg := fun z => if (z =? -1)%Z then (-1)%Z else Z.of_nat (nth (Z.to_nat z) ts2 0)).
    assert (ET : sequence (map (target ts2) fd) = Some (map tg fd)).
    { apply seq_some. intros z I. apply In_nth_error in I as [k K]. apply RF in K. unfold target, tg. destruct (Z.eqb_spec z (-1)) as [->|NZ]; [reflexivity|].
      rewrite pyget_in by lia. destruct (nth_error_lt_Some ts2 (Z.to_nat z)) as [u U]; [lia|]. rewrite U. cbn [bind]. rewrite (nth_error_nth _ _ 0 U). reflexivity. }
    rewrite ET. cbn [bind]. eexists. split; [reflexivity|].
    assert (LC : length ts1 = length (map tg fd)) by (rewrite map_length, LF; reflexivity).
    assert (MF : map fst (combine ts1 (map tg fd)) = ts1).
    { clear -LC. revert LC. generalize (map tg fd). induction ts1 as [|t ts IH]; intros [|z zs] L; try discriminate L; [reflexivity|]. cbn. f_equal. apply IH. injection L; auto. }
    assert (INC : forall t z, In (t, z) (combine ts1 (map tg fd)) <-> exists k w, nth_error ts1 k = Some t /\ nth_error fd k = Some w /\ z = tg w).
    { intros t z. split.
      - intros H. apply In_nth_error in H as [k K]. apply nth_combine_iff in K as [A B]. rewrite nth_error_map in B. destruct (nth_error fd k) as [w|] eqn:W; [|discriminate B]. cbn in B. apply Some_inj in B. exists k, w. auto.
      - intros (k & w & A & B & ->). apply (nth_error_In _ k). apply nth_combine_iff. split; [exact A|apply map_nth_error; exact B]. }
    assert (TG : forall k w u, nth_error fd k = Some w -> tg w = Z.of_nat u -> exists j, w = Z.of_nat j /\ nth_error ts2 j = Some u).
    { intros k w u W E. unfold tg in E. destruct (Z.eqb_spec w (-1)) as [->|NW]; [lia|]. destruct (RF k w W) as [->|B]; [congruence|]. exists (Z.to_nat w). split; [lia|].
      apply Nat2Z.inj in E. destruct (nth_error_lt_Some ts2 (Z.to_nat w)) as [v V]; [lia|]. rewrite (nth_error_nth _ _ 0 V) in E. congruence. }
    split; [rewrite MF; exact D1|]. split; [intros t; rewrite MF; apply IL1|]. split; [|split].
    + intros t z H. apply INC in H as (k & w & A & B & ->). destruct (RF k w B) as [->|RW]; [left; reflexivity|right].
      assert (EW : tg w = Z.of_nat (nth (Z.to_nat w) ts2 0)) by (unfold tg; destruct (Z.eqb_spec w (-1)); [lia|reflexivity]).
      destruct (TG k w _ B EW) as (j & -> & J). rewrite EW. rewrite Nat2Z.id in *. exists (nth j ts2 0). split; [reflexivity|].
      split; [apply IL2, (nth_error_In _ j); exact J|]. exact (SF k j _ _ B (map_nth_error _ _ _ A) (map_nth_error (fun t => positions t other) j ts2 J)).
    + intros t t' u H H'. apply INC in H as (k & w & A & B & E). apply INC in H' as (k' & w' & A' & B' & E').
      destruct (TG k w u B (eq_sym E)) as (j & -> & J). destruct (TG k' w' u B' (eq_sym E')) as (j' & -> & J').
      assert (EJ : j = j'). { apply (proj1 (NoDup_nth_error ts2) D2); [eapply nth_error_Some_lt; exact J|congruence]. } subst j'.
      assert (EK : k = k') by exact (JF k k' j B B'). subst k'. congruence.
    + intros t u H IU SC. apply INC in H as (k & w & A & B & E).
      assert (EW : w = (-1)%Z). { unfold tg in E. destruct (Z.eqb_spec w (-1)) as [->|NW]; [reflexivity|lia]. } subst w.
      assert (ST : size t self = n) by (apply IL1, (nth_error_In _ k); exact A).
      assert (U2 : In u ts2) by (apply IL2; split; [exact IU|]; rewrite <- (same_content_size _ _ _ _ SC); exact ST). apply In_nth_error in U2 as [j J].
      destruct (XF k _ j _ (map_nth_error _ _ _ A) (map_nth_error (fun t => positions t other) j ts2 J) SC B) as (k' & _ & B').
      destruct (nth_error_lt_Some ts1 k') as [t' A']; [rewrite LC, map_length; eapply nth_error_Some_lt; exact B'|]. exists t'. apply INC. exists k', (Z.of_nat j). split; [exact A'|]. split; [exact B'|].
      unfold tg. destruct (Z.eqb_spec (Z.of_nat j) (-1)); [lia|]. rewrite Nat2Z.id, (nth_error_nth _ _ 0 J). reflexivity.
Qed.

Lemma seq_cons : forall {A} (x : option A) l a r, x = Some a -> sequence l = Some r -> sequence (x :: l) = Some (a :: r).
Proof. intros A x l a r -> E. cbn. rewrite E. reflexivity. Qed.

Lemma NoDup_app_inv : forall {A} (a b : list A), NoDup (a ++ b) -> NoDup a /\ NoDup b /\ forall x, In x a -> In x b -> False.
Proof.
  induction a as [|y a IH]; intros b H; [split; [constructor|split; [exact H|intros x []]]|]. cbn in H. inversion H as [|? ? NI H' E]; subst. destruct (IH b H') as (A1 & B1 & D).
  split; [constructor; [intros I; apply NI, in_or_app; left; exact I|exact A1]|]. split; [exact B1|]. intros x [<-|I] J; [apply NI, in_or_app; right; exact J|exact (D x I J)].
Qed.
Lemma NoDup_app_mk : forall {A} (a b : list A), NoDup a -> NoDup b -> (forall x, In x a -> In x b -> False) -> NoDup (a ++ b).
Proof.
  induction a as [|y a IH]; intros b N M D; [exact M|]. inversion N as [|? ? NI N' E]; subst. cbn. constructor; [|apply IH; [exact N'|exact M|intros x I; apply D; right; exact I]].
  intros I. apply in_app_or in I as [I|I]; [exact (NI I)|exact (D y (or_introl eq_refl) I)].
Qed.

Section Run.
Variable argsort : list Z -> list nat.
Variable psort : list pos -> list nat.
Hypothesis AS : sorts argsort.
Hypothesis PS : sorts_pos psort.
Variables self other : list (nat * pos).
Hypothesis S1 : by_label self.
Hypothesis S2 : by_label other.
Variables (f1 l1 f2 l2 : list nat) (lo1 lo2 : nat) (ns1 ns2 : list nat).
Hypothesis T1 : tab_of (labels self) (f1, l1, Z.of_nat lo1).
Hypothesis T2 : tab_of (labels other) (f2, l2, Z.of_nat lo2).
Hypothesis L1 : length ns1 = length f1.
Hypothesis L2 : length ns2 = length f2.
Hypothesis N1 : forall k, k < length f1 -> nth_error ns1 k = Some (size (lo1 + k) self).
Hypothesis N2 : forall k, k < length f2 -> nth_error ns2 k = Some (size (lo2 + k) other).
Variable hs : list group.
Hypothesis HV : forall g, In g hs -> exists n, one_value ns2 g n.
Hypothesis HI : forall n, In n ns2 -> exists g, In g hs /\ one_value ns2 g n.

Lemma in_ns1 : forall n, In n ns1 <-> exists t, spanned t self /\ size t self = n.
Proof.
  intros n. split.
  - intros I. apply In_nth_error in I as [k K]. assert (B : k < length f1) by (rewrite <- L1; eapply nth_error_Some_lt; exact K). rewrite (N1 k B) in K. apply Some_inj in K.
    exists (lo1 + k). split; [apply (spanned_iff _ _ _ _ T1); exists k; auto|exact K].
  - intros (t & SP & <-). apply (spanned_iff _ _ _ _ T1) in SP as (k & K & ->). exact (nth_error_In _ k (N1 k K)).
Qed.
Lemma in_ns2 : forall n, In n ns2 <-> exists t, spanned t other /\ size t other = n.
Proof.
  intros n. split.
  - intros I. apply In_nth_error in I as [k K]. assert (B : k < length f2) by (rewrite <- L2; eapply nth_error_Some_lt; exact K). rewrite (N2 k B) in K. apply Some_inj in K.
    exists (lo2 + k). split; [apply (spanned_iff _ _ _ _ T2); exists k; auto|exact K].
  - intros (t & SP & <-). apply (spanned_iff _ _ _ _ T2) in SP as (k & K & ->). exact (nth_error_In _ k (N2 k K)).
Qed.
Lemma nord_growing : nord ns1 <-> growing self.
Proof.
  split.
  - intros N t u T U L. apply (spanned_iff _ _ _ _ T1) in T as (k & K & ->). apply (spanned_iff _ _ _ _ T1) in U as (j & J & ->). apply (N k j); [lia|exact (N1 k K)|exact (N1 j J)].
  - intros G i j a b L A B. assert (I : i < length f1) by (rewrite <- L1; eapply nth_error_Some_lt; exact A). assert (J : j < length f1) by (rewrite <- L1; eapply nth_error_Some_lt; exact B).
    rewrite (N1 i I) in A. rewrite (N1 j J) in B. apply Some_inj in A, B. subst. apply G; [apply (spanned_iff _ _ _ _ T1); eauto|apply (spanned_iff _ _ _ _ T1); eauto|lia].
Qed.
Lemma find_size : forall b n, (b == qn n)%Q -> match find (same_low b) hs with Some o => one_value ns2 o n | None => ~ In n ns2 end.
Proof.
  intros b n B. destruct (find (same_low b) hs) as [o|] eqn:F.
  - apply find_some in F as [I E]. unfold same_low in E. apply Qeq_bool_iff in E. destruct (HV o I) as [m V]. assert (EQ : m = n). { apply qn_eq. destruct V as [V _]. rewrite <- V, E, B. reflexivity. } subst m. exact V.
  - intros I. destruct (HI n I) as (g & G & (V & _)). apply (proj1 (find_none_same hs b) F g G). rewrite V, B. reflexivity.
Qed.
Lemma greater_size : forall b n, (b == qn n)%Q -> (existsb (fun o => Qlt_bool b (low o)) hs = true <-> exists u, In u (labels other) /\ n < size u other).
Proof.
  intros b n B. rewrite existsb_exists. split.
  - intros (o & I & Q). apply Qlt_bool_iff in Q. destruct (HV o I) as (m & V & NR & RV). assert (L : n < m) by (apply qn_lt; rewrite <- V, <- B; exact Q).
    destruct (rows_list (fst (fst o))) as [|k ks] eqn:E; [congruence|]. assert (K : nth_error ns2 k = Some m) by (apply RV; left; reflexivity). apply nth_error_In, in_ns2 in K as (t & SP & ST). exists t. split; [apply size_pos; lia|lia].
  - intros (u & I & L). destruct (HI (size u other)) as (g & G & (V & _)); [apply in_ns2; exists u; split; [apply labels_spanned; exact I|reflexivity]|]. exists g. split; [exact G|]. apply Qlt_bool_iff. rewrite V, B. apply qn_lt. exact L.
Qed.

Lemma run : forall sm gs, 0 < sm -> increasing (lows gs) -> (forall g, In g gs -> exists n, one_value ns1 g n) -> NoDup (concat (map (fun g : group => rows_list (fst (fst g))) gs)) ->
  exists done cs, sequence (map (one_size argsort psort (Z.of_nat sm) self other (f1, l1, Z.of_nat lo1) (f2, l2, Z.of_nat lo2)) (flat_map (pairs_of true hs) gs)) = Some done /\
    chunks done = map snd cs /\ NoDup (map fst cs) /\ (forall n c, In (n, c) cs -> chunk_ok self other n c) /\
    (forall n, In n (map fst cs) <-> (exists g, In g gs /\ one_value ns1 g n) /\ sm <= n /\ exists u, In u (labels other) /\ n <= size u other).
Proof.
  intros sm gs SP. induction gs as [|[[r b0] b1] gs IH]; intros INC GV ND.
  - exists [], []. split; [reflexivity|]. split; [reflexivity|]. split; [constructor|]. split; [intros n c []|]. intros n. split; [intros []|intros [(g & [] & _) _]].
  - cbn [map concat fst] in ND. apply NoDup_app_inv in ND as (ND1 & ND2 & _).
    destruct (IH (increasing_rest _ _ INC)) as (done & cs & E & CH & NC & OK & IFF); [intros; apply GV; right; assumption|exact ND2|].
    destruct (GV _ (or_introl eq_refl)) as [n V]. pose proof V as V'. destruct V' as (B & NR & RV). change (low (r, b0, b1)) with b0 in B.
    assert (LATER : forall m, (exists g, In g gs /\ one_value ns1 g m) -> n < m). { intros m (g & G & (Vg & _)). apply qn_lt. rewrite <- B, <- Vg. exact (increasing_head (r, b0, b1) gs g INC G). }
    assert (SAME : forall m, (exists g, In g ((r, b0, b1) :: gs) /\ one_value ns1 g m) <-> m = n \/ exists g, In g gs /\ one_value ns1 g m).
    { intros m. split.
      - intros (g & [<-|G] & W); [left|right; eauto]. destruct W as (W & _). change (low (r, b0, b1)) with b0 in W. apply qn_eq. rewrite <- W, B. reflexivity.
      - intros [->|(g & G & W)]; [exists (r, b0, b1); split; [left; reflexivity|exact V]|exists g; split; [right; exact G|exact W]]. }
    cbn [flat_map pairs_of].
    assert (STEP : forall ry, (forall k, In k (rows_list ry) <-> nth_error ns2 k = Some n) -> (exists u, In u (labels other) /\ n <= size u other) \/ n < sm ->
      exists done cs, sequence (map (one_size argsort psort (Z.of_nat sm) self other (f1, l1, Z.of_nat lo1) (f2, l2, Z.of_nat lo2)) ([(r, ry, b0, b1)] ++ flat_map (pairs_of true hs) gs)) = Some done /\
        chunks done = map snd cs /\ NoDup (map fst cs) /\ (forall n c, In (n, c) cs -> chunk_ok self other n c) /\
        (forall n, In n (map fst cs) <-> (exists g, In g ((r, b0, b1) :: gs) /\ one_value ns1 g n) /\ sm <= n /\ exists u, In u (labels other) /\ n <= size u other)).
    { intros ry RY HU. destruct (le_lt_dec sm n) as [LE|LT].
      - destruct HU as [HU|HU]; [|lia].
        destruct (one_size_ok argsort psort sm self other f1 l1 lo1 ns1 f2 l2 lo2 ns2 r ry b0 b1 n AS PS S1 S2 T1 L1 N1 T2 L2 N2 V ND1 RY ltac:(lia) LE) as (c & EC & CO).
        exists (Some c :: done), ((n, c) :: cs). split; [cbn [app map]; apply seq_cons; [exact EC|exact E]|]. cbn [chunks map snd fst]. split; [rewrite CH; reflexivity|]. split.
        { constructor; [|exact NC]. intros I. apply IFF in I as (I & _). apply LATER in I. lia. }
        split; [intros m d [Q|I]; [injection Q as <- <-; exact CO|exact (OK m d I)]|].
        intros m. rewrite SAME. cbn [In]. rewrite IFF. split; [intros [<-|(A & C)]; [split; [left; reflexivity|split; [exact LE|exact HU]]|split; [right; exact A|exact C]]|intros [[->|A] C]; [left; reflexivity|right; split; assumption]].
      - exists (None :: done), cs. split.
        { cbn [app map]. apply seq_cons; [|exact E]. cbn [one_size]. assert (Q : Qlt_bool b0 (inject_Z (Z.of_nat sm)) = true) by (apply Qlt_bool_iff; rewrite B; change (qn n < qn sm)%Q; apply qn_lt; exact LT). rewrite Q. reflexivity. }
        split; [exact CH|]. split; [exact NC|]. split; [exact OK|]. intros m. rewrite SAME, IFF. split; [intros (A & C); split; [right; exact A|exact C]|intros ([->|A] & C & D); [lia|auto]]. }
    pose proof (find_size b0 n B) as FS. destruct (find (same_low b0) hs) as [o|].
    + destruct FS as (_ & NO & RO). apply STEP; [exact RO|]. destruct (le_lt_dec sm n) as [LE|LT]; [left|right; exact LT].
      destruct (rows_list (fst (fst o))) as [|k ks]; [congruence|]. assert (K : nth_error ns2 k = Some n) by (apply RO; left; reflexivity). apply nth_error_In, in_ns2 in K as (t & _ & ST). exists t. split; [apply size_pos; lia|lia].
    + cbn [andb]. pose proof (greater_size b0 n B) as GR. destruct (existsb (fun o => Qlt_bool b0 (low o)) hs).
      * apply STEP; [|left; destruct (proj1 GR eq_refl) as (u & U & L); exists u; split; [exact U|lia]].
        intros k. cbn. split; [intros []|]. intros K. apply nth_error_In in K. contradiction.
      * cbn [app]. exists done, cs. split; [exact E|]. split; [exact CH|]. split; [exact NC|]. split; [exact OK|]. intros m. rewrite SAME, IFF. split; [intros (A & C); split; [right; exact A|exact C]|].
        intros ([->|A] & C & u & U & LU); [|split; [exact A|split; [exact C|eauto]]]. exfalso. destruct (Nat.eq_dec n (size u other)) as [EQ|NQ].
        -- apply FS, in_ns2. exists u. split; [apply labels_spanned; exact U|auto].
        -- assert (X : false = true) by (apply GR; exists u; split; [exact U|lia]). discriminate X.
Qed.

Lemma bad_iff : forall gs, (forall g, In g gs -> exists n, one_value ns1 g n) -> (forall n, In n ns1 -> exists g, In g gs /\ one_value ns1 g n) ->
  (nord ns1 -> forall g, In g gs -> exists a b, fst (fst g) = Slice a b) -> (~ nord ns1 -> forall g, In g gs -> exists l, fst (fst g) = Index l) ->
  (existsb (bad hs) gs = true <-> growing self /\ lacking self other).
Proof.
  intros gs GV GI SL IX. rewrite existsb_exists. rewrite <- nord_growing. split.
  - intros (g & G & BD). unfold bad in BD. destruct (GV g G) as (n & V). pose proof V as V'. destruct V' as (B & NR & RV). pose proof (find_size (low g) n B) as FS. pose proof (greater_size (low g) n B) as GR.
    destruct (fst (fst g)) as [a b|ix] eqn:R; [|discriminate BD]. split.
    + intros i j x y L X Y. destruct (le_lt_dec x y) as [LE|LT]; [exact LE|]. exfalso. destruct (IX) with (g := g) as [l EL]; [|exact G|congruence]. intros N. specialize (N i j x y L X Y). lia.
    + destruct (find (same_low (low g)) hs); [discriminate BD|]. destruct (rows_list (Slice a b)) as [|k ks]; [congruence|]. assert (K : nth_error ns1 k = Some n) by (apply RV; left; reflexivity).
      apply nth_error_In, in_ns1 in K as (t & SP & ST). exists t. split; [exact SP|]. rewrite ST. split; [|apply GR; exact BD]. intros u U EQ. apply FS, in_ns2. exists u. auto.
  - intros [N (t & SP & LA & u & U & LU)]. destruct (GI (size t self)) as (g & G & V); [apply in_ns1; eauto|]. exists g. split; [exact G|]. destruct V as (B & _).
    unfold bad. destruct (SL N g G) as (a & b & R). rewrite R. pose proof (find_size (low g) _ B) as FS. pose proof (greater_size (low g) _ B) as GR.
    destruct (find (same_low (low g)) hs) as [o|]; [|apply GR; eauto]. exfalso. destruct FS as (_ & NO & RO). destruct (rows_list (fst (fst o))) as [|k ks]; [congruence|].
    assert (K : nth_error ns2 k = Some (size t self)) by (apply RO; left; reflexivity). apply nth_error_In, in_ns2 in K as (v & SV & EV). exact (LA v SV EV).
Qed.
End Run.

(** What a result says. *)
Definition identified (size_min : nat) (self other : list (nat * pos)) (r : list (nat * Z)) : Prop :=
  NoDup (map fst r) /\ (forall t, In t (map fst r) <-> compared size_min self other t) /\
  (forall t z, In (t, z) r -> z = (-1)%Z \/ exists u, z = Z.of_nat u /\ In u (labels other) /\ same_content (positions t self) (positions u other)) /\
  (forall t t' u, In (t, Z.of_nat u) r -> In (t', Z.of_nat u) r -> t = t') /\
  (forall t u, In (t, (-1)%Z) r -> In u (labels other) -> same_content (positions t self) (positions u other) -> exists t', In (t', Z.of_nat u) r).

Lemma identify_cases : forall argsort psort sm self other, sorts argsort -> sorts_pos psort -> 0 < sm -> self <> [] -> other <> [] -> by_label self -> by_label other ->
  ((growing self /\ lacking self other) /\ identify_in argsort psort (Z.of_nat sm) self other = None) \/
  (~ (growing self /\ lacking self other) /\ (~ exists t, compared sm self other t) /\ identify_in argsort psort (Z.of_nat sm) self other = None) \/
  (~ (growing self /\ lacking self other) /\ (exists t, compared sm self other t) /\ exists r, identify_in argsort psort (Z.of_nat sm) self other = Some r /\ identified sm self other r).
Proof.
  intros argsort psort sm self other AS PS SP NE1 NE2 S1 S2.
  destruct (sizes_spec self NE1 S1) as (f1 & l1 & lo1 & ns1 & B1 & T1 & Z1 & X1 & L1 & N1).
  destruct (sizes_spec other NE2 S2) as (f2 & l2 & lo2 & ns2 & B2 & T2 & Z2 & X2 & L2 & N2).
  destruct (groups_int argsort ns1 AS X1) as (gs & EG & NG & DG & GV & GI & IG & SG & XG).
  destruct (groups_int argsort ns2 AS X2) as (hs & EH & NH & _ & HV & HI & IH & _).
  pose proof (bad_iff self other f1 l1 f2 l2 lo1 lo2 ns1 ns2 T1 T2 L1 L2 N1 N2 hs HV HI gs GV GI SG XG) as BI.
  unfold identify_in. rewrite B1, B2. cbn [bind]. rewrite Z1, Z2, EG, EH. unfold align_on. cbn [fst snd].
  destruct hs as [|cur others]; [congruence|].
  destruct (align_loop_ok gs cur others IG IH) as (ps & ok & E & OK & FL). rewrite E.
  destruct (existsb (bad (cur :: others)) gs) eqn:BD.
  - left. split; [apply BI; reflexivity|]. cbn in OK. subst ok. destruct (sequence _); reflexivity.
  - right. assert (NB : ~ (growing self /\ lacking self other)) by (intros H; apply BI in H; discriminate H). cbn in OK. subst ok. rewrite (FL eq_refl).
    destruct (run argsort psort AS PS self other S1 S2 f1 l1 f2 l2 lo1 lo2 ns1 ns2 T1 T2 L1 L2 N1 N2 (cur :: others) HV HI sm gs SP IG GV DG) as (done & cs & ED & CH & NC & COK & IFF).
    rewrite ED. cbn [bind]. rewrite CH.
    assert (NS : forall n, In n (map fst cs) <-> exists t, compared sm self other t /\ size t self = n).
    { intros n. rewrite IFF. split.
      - intros ((g & G & (_ & NR & RV)) & LE & HU). destruct (rows_list (fst (fst g))) as [|k ks]; [congruence|]. assert (K : nth_error ns1 k = Some n) by (apply RV; left; reflexivity).
        apply nth_error_In, (in_ns1 self f1 l1 lo1 ns1 T1 L1 N1) in K as (t & _ & ST). exists t. split; [|exact ST]. split; [apply size_pos; lia|]. rewrite ST. split; [exact LE|exact HU].
      - intros (t & (I & LE & HU) & <-). split; [|split; [exact LE|exact HU]]. apply GI. apply (in_ns1 self f1 l1 lo1 ns1 T1 L1 N1). exists t. split; [apply labels_spanned; exact I|reflexivity]. }
    destruct cs as [|[n0 c0] cs'] eqn:CE.
    + left. split; [exact NB|]. split; [|reflexivity]. intros (t & C). apply (NS (size t self)). exists t. auto.
    + right. split; [exact NB|]. split; [destruct (proj1 (NS n0) (or_introl eq_refl)) as (t & C & _); eauto|].
      rewrite <- CE in *. exists (concat (map snd cs)). split; [rewrite CE; reflexivity|]. clear CE.
      assert (INC : forall t z, In (t, z) (concat (map snd cs)) <-> exists n c, In (n, c) cs /\ In (t, z) c).
      { intros t z. rewrite in_concat. split; [intros (c & C & I); apply in_map_iff in C as ([n d] & <- & C); exists n, d; auto|intros (n & c & C & I); exists c; split; [apply in_map_iff; exists (n, c); auto|exact I]]. }
      assert (SZ : forall n c t z, In (n, c) cs -> In (t, z) c -> In t (labels self) /\ size t self = n). { intros n c t z C I. destruct (COK n c C) as (_ & M & _). apply M, in_map_iff. exists (t, z). auto. }
      assert (UNI : forall n c d, In (n, c) cs -> In (n, d) cs -> c = d).
      { clear -NC. induction cs as [|[m e] cs IH]; intros n c d C D; [destruct C|]. cbn in NC. inversion NC as [|? ? NI NC' EQ]; subst. destruct C as [C|C], D as [D|D]; try congruence.
        - injection C as <- <-. destruct NI. apply in_map_iff. exists (m, d). auto.
        - injection D as <- <-. destruct NI. apply in_map_iff. exists (m, c). auto.
        - exact (IH NC' n c d C D). }
      split; [|split; [|split; [|split]]].
      * clear -NC COK SZ. induction cs as [|[n c] cs IH]; [constructor|]. cbn [map concat snd]. rewrite map_app. cbn [map fst] in NC. inversion NC as [|? ? NI NC' EQ]; subst.
        apply NoDup_app_mk; [exact (proj1 (COK n c (or_introl eq_refl)))|apply IH; [exact NC'|intros; apply COK; right; assumption|intros; eapply SZ; [right|]; eassumption]|].
        intros t A B. apply in_map_iff in A as ([t1 z1] & E1 & A). apply in_map_iff in B as ([t2 z2] & E2 & B). cbn in E1, E2. subst t1 t2.
        apply in_concat in B as (d & D & B). apply in_map_iff in D as ([m d'] & ED & D). cbn in ED. subst d'. destruct (SZ n c t z1 (or_introl eq_refl) A) as [_ Q1]. destruct (SZ m d t z2 (or_intror D) B) as [_ Q2].
        apply NI. apply in_map_iff. exists (m, d). split; [cbn; congruence|exact D].
      * intros t. split.
        -- intros I. apply in_map_iff in I as ([t' z] & ET & I). cbn in ET. subst t'. apply INC in I as (n & c & C & I). destruct (SZ n c t z C I) as [IT ST].
           assert (X : In n (map fst cs)) by (apply in_map_iff; exists (n, c); auto). apply IFF in X as (_ & LE & HU). split; [exact IT|]. rewrite ST. split; assumption.
        -- intros C. assert (X : In (size t self) (map fst cs)) by (apply NS; eauto). apply in_map_iff in X as ([n c] & EN & X). cbn in EN. subst n. destruct (COK _ _ X) as (_ & M & _).
           assert (Y : In t (map fst c)) by (apply M; split; [exact (proj1 C)|reflexivity]). apply in_map_iff in Y as ([t' z] & ET & Y). cbn in ET. subst t'. apply in_map_iff. exists (t, z). split; [reflexivity|]. apply INC. eauto.
      * intros t z I. apply INC in I as (n & c & C & I). exact (proj1 (proj2 (proj2 (COK n c C))) t z I).
      * intros t t' u I I'. apply INC in I as (n & c & C & I). apply INC in I' as (n' & c' & C' & I').
        destruct (COK n c C) as (_ & _ & V & INJ & _). destruct (COK n' c' C') as (_ & _ & V' & _).
        destruct (V _ _ I) as [X|(v & EV & _ & SC)]; [lia|]. destruct (V' _ _ I') as [X|(v' & EV' & _ & SC')]; [lia|]. apply Nat2Z.inj in EV, EV'. subst v v'.
        apply same_content_size in SC, SC'. destruct (SZ n c t _ C I) as [_ Q]. destruct (SZ n' c' t' _ C' I') as [_ Q']. assert (NN : n' = n) by congruence. rewrite NN in C'. rewrite (UNI n c' c C' C) in I'. exact (INJ t t' u I I').
      * intros t u I IU SC. apply INC in I as (n & c & C & I). destruct (proj2 (proj2 (proj2 (proj2 (COK n c C)))) t u I IU SC) as [t' I']. exists t'. apply INC. eauto.
Qed.

(** ** C133 *)
Theorem C133_identified : forall argsort posargsort size_min self other, sorts argsort -> sorts_pos posargsort -> 1 <= size_min -> by_label self -> by_label other ->
  ~ (growing self /\ lacking self other) -> (exists t, compared size_min self other t) ->
  exists r, identify_in argsort posargsort (Z.of_nat size_min) self other = Some r /\
    (* each label compared once *)
    NoDup (map fst r) /\ (forall t, In t (map fst r) <-> compared size_min self other t) /\
    (* with -1 or a label of the same positions *)
    (forall t z, In (t, z) r -> z = (-1)%Z \/ exists u, z = Z.of_nat u /\ In u (labels other) /\ same_content (positions t self) (positions u other)) /\
    (* never twice *)
    (forall t t' u, In (t, Z.of_nat u) r -> In (t', Z.of_nat u) r -> t = t') /\
    (* -1 only when all the equal ones are taken *)
    (forall t u, In (t, (-1)%Z) r -> In u (labels other) -> same_content (positions t self) (positions u other) -> exists t', In (t', Z.of_nat u) r).
Proof.
  intros argsort psort sm self other AS PS SP S1 S2 NB EX.
  assert (NE1 : self <> []) by (destruct EX as (t & I & _); intros ->; exact I). assert (NE2 : other <> []) by (destruct EX as (t & _ & _ & u & I & _); intros ->; exact I).
  destruct (identify_cases argsort psort sm self other AS PS SP NE1 NE2 S1 S2) as [[X _]|[(_ & X & _)|(_ & _ & r & E & R)]]; [contradiction|contradiction|]. exists r. split; [exact E|exact R].
Qed.
Print Assumptions C133_identified.
Theorem C133_error : forall argsort posargsort size_min self other, sorts argsort -> sorts_pos posargsort -> 1 <= size_min -> by_label self -> by_label other ->
  (identify_in argsort posargsort (Z.of_nat size_min) self other = None <-> (growing self /\ lacking self other) \/ ~ exists t, compared size_min self other t).
Proof.
  intros argsort psort sm self other AS PS SP S1 S2.
  assert (D1 : self = [] \/ self <> []) by (destruct self; [left; reflexivity|right; discriminate]). destruct D1 as [->|NE1]; [split; [intros _; right; intros (t & I & _); exact I|reflexivity]|].
  assert (D2 : other = [] \/ other <> []) by (destruct other; [left; reflexivity|right; discriminate]).
  destruct D2 as [->|NE2]. { split; [intros _; right; intros (t & _ & _ & u & I & _); exact I|]. intros _. unfold identify_in. destruct (build_index (map _ self)); reflexivity. }
  destruct (identify_cases argsort psort sm self other AS PS SP NE1 NE2 S1 S2) as [[X E]|[(X & Y & E)|(X & Y & r & E & _)]]; rewrite E; [tauto|tauto|]. split; [discriminate|]. intros [Z|Z]; contradiction.
Qed.
Print Assumptions C133_error.


Lemma by_label_sorted : forall l, Sorted.StronglySorted le (labels l) -> by_label l.
Proof.
  intros l S. unfold by_label. induction S as [|x r S IH F]; intros i j a b L A B; [destruct i; discriminate A|]. destruct j as [|j]; [lia|]. destruct i as [|i].
  - cbn in A. apply Some_inj in A. subst. eapply Forall_forall; [exact F|]. eapply nth_error_In. exact B.
  - apply (IH i j a b); [lia|exact A|exact B].
Qed.
(** Networks 1 to 4 of 3, 1, 2 and 3 observations against an atlas where the
    first is found in another order, the second is not and the third is. *)
Definition ex_self : list (nat * pos) := [(1, (1, 5, 5)%Z); (1, (2, 6, 6)%Z); (1, (1, 4, 4)%Z); (2, (7, 0, 0)%Z); (3, (8, 1, 1)%Z); (3, (9, 1, 1)%Z); (4, (3, 3, 3)%Z); (4, (4, 3, 3)%Z); (4, (5, 3, 3)%Z)].
Definition ex_other : list (nat * pos) := [(5, (8, 1, 1)%Z); (5, (9, 1, 1)%Z); (8, (2, 6, 6)%Z); (8, (1, 4, 4)%Z); (8, (1, 5, 5)%Z); (9, (3, 3, 3)%Z); (9, (4, 3, 3)%Z); (9, (5, 3, 9)%Z)].
Example C133_case : by_label ex_self /\ by_label ex_other /\ ~ growing ex_self /\ compared 1 ex_self ex_other 1 /\
  identify_in zargsort pos_argsort 1 ex_self ex_other = Some [(2, (-1)%Z); (3, 5%Z); (1, 8%Z); (4, (-1)%Z)].
Proof.
  split; [apply by_label_sorted; repeat constructor; lia|]. split; [apply by_label_sorted; repeat constructor; lia|]. split.
  { intros G. assert (X : size 1 ex_self <= size 2 ex_self) by (apply G; [apply labels_spanned; cbn; auto|apply labels_spanned; cbn; auto 6|lia]). vm_compute in X. lia. }
  split; [split; [cbn; auto|]; split; [cbn; lia|]; exists 8; split; [cbn; auto|cbn; lia]|]. vm_compute. reflexivity.
Qed.
(** The sizes 1 and 2 do not decrease and the other atlas has no network of
    size 1 but greater ones: an error although network 2 is in both. *)
Theorem C133_refuted : exists self other, by_label self /\ by_label other /\ In 2 (labels self) /\ In 3 (labels other) /\ same_content (positions 2 self) (positions 3 other) /\
  forall argsort posargsort, sorts argsort -> sorts_pos posargsort -> identify_in argsort posargsort 1 self other = None.
Proof.
  exists [(1, (7, 0, 0)%Z); (2, (8, 1, 1)%Z); (2, (9, 1, 1)%Z)], [(3, (8, 1, 1)%Z); (3, (9, 1, 1)%Z)].
  split; [apply by_label_sorted; repeat constructor; lia|]. split; [apply by_label_sorted; repeat constructor; lia|]. split; [cbn; auto|]. split; [cbn; auto|]. split; [apply Permutation_refl|].
  intros argsort psort AS PS. apply (C133_error argsort psort 1); [exact AS|exact PS|lia|apply by_label_sorted; repeat constructor; lia|apply by_label_sorted; repeat constructor; lia|]. left. split.
  - intros t u [(a & A & LA) (b & B & LB)] [(a' & A' & LA') (b' & B' & LB')] L. cbn in A, B, A', B'.
    assert (t = 1 /\ u = 2) as [-> ->] by (destruct A as [<-|[<-|[<-|[]]]], B as [<-|[<-|[<-|[]]]], A' as [<-|[<-|[<-|[]]]], B' as [<-|[<-|[<-|[]]]]; lia). cbn. lia.
  - exists 1. split; [apply labels_spanned; cbn; auto|]. split; [|exists 3; split; [cbn; auto|cbn; lia]].
    intros u [(a & A & LA) (b & B & LB)]. assert (u = 3) as -> by (cbn in A, B; destruct A as [<-|[<-|[]]], B as [<-|[<-|[]]]; lia). cbn. lia.
Qed.
Print Assumptions C133_refuted.
(** A network greater than all those of the other atlas is left out of the
    result, even with size_min=1. *)
Theorem C133_greatest_refuted : exists self other r, by_label self /\ by_label other /\ In 2 (labels self) /\ identify_in zargsort pos_argsort 1 self other = Some r /\ ~ In 2 (map fst r).
Proof.
  exists [(1, (7, 0, 0)%Z); (2, (8, 1, 1)%Z); (2, (9, 1, 1)%Z)], [(3, (7, 0, 0)%Z)], [(1, 3%Z)].
  split; [apply by_label_sorted; repeat constructor; lia|]. split; [apply by_label_sorted; repeat constructor; lia|]. split; [cbn; auto|]. split; [vm_compute; reflexivity|]. cbn. lia.
Qed.
Print Assumptions C133_greatest_refuted.
