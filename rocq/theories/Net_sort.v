(** Proofs on the sort and the extraction of networks. *)
From Coq Require Import List Arith ZArith Bool Lia Permutation.
From Verif Require Import Base Sort Generic_model Solver_proofs Corr_more Obs_model Net_model Net_spec.
Import ListNotations.

(** ** The translate table *)
Lemma translate_spec : forall n ix, NoDup ix -> (forall i, In i ix -> i < n) ->
  exists t, translate_table n ix = Some t /\ forall z, link_ok n z -> exists z', pyget t z = Some z' /\ link_moved ix z z'.
Proof.
  intros n ix ND B. unfold translate_table.
  destruct (stores_total ix (repeat (-1)%Z (n + 1)) (map Z.of_nat (seq 0 (length ix)))) as [t E].
  { rewrite map_length, seq_length. auto. }
  { intros i Hi. rewrite repeat_length. apply B in Hi. lia. }
  exists t. split; [exact E|]. intros z Hz.
  assert (L : length t = n + 1) by (rewrite (length_stores _ _ _ _ E), repeat_length; auto).
  assert (OUT : forall i, ~ In i ix -> i < n + 1 -> nth_error t i = Some (-1)%Z).
  { intros i Hi Hn. rewrite (stores_other _ _ _ _ _ E Hi), nth_error_repeat_lt. destruct (Nat.ltb_spec i (n + 1)); [auto|lia]. }
  unfold pyget, pyidx. rewrite L. destruct Hz as [->|Hz].
  - replace (0 <=? -1)%Z with false by reflexivity. destruct (Z.leb_spec (- Z.of_nat (n + 1)) (-1)) as [H|H]; [|lia].
    cbn [bind]. replace (Z.to_nat (-1 + Z.of_nat (n + 1))) with n by lia.
    exists (-1)%Z. split; [apply OUT; [intros Hi; apply B in Hi; lia|lia]|].
    right. split; [auto|]. intros j _. lia.
  - destruct (Z.leb_spec 0 z) as [H|H]; [|lia]. destruct (Z.ltb_spec z (Z.of_nat (n + 1))); [|lia]. cbn [bind].
    destruct (in_dec Nat.eq_dec (Z.to_nat z) ix) as [I|I].
    + apply In_nth_error in I as [k Hk]. exists (Z.of_nat k).
      pose proof (nth_error_Some_lt _ _ _ Hk) as KL.
      split.
      * refine (stores_nodup ix _ _ t k _ _ ND E Hk _).
        rewrite nth_error_map, nth_error_seq. destruct (Nat.ltb_spec k (length ix)); [reflexivity|lia].
      * left. exists k, (Z.to_nat z). split; [auto|]. split; [lia|auto].
    + exists (-1)%Z. split; [apply OUT; auto; lia|]. right. split; [auto|]. intros j Hj E'. apply I. subst z. rewrite Nat2Z.id. auto.
Qed.

Lemma take_all : forall {A} (t : list A) zs (P : Z -> A -> Prop), (forall z, In z zs -> exists a, pyget t z = Some a /\ P z a) ->
  exists r, take t zs = Some r /\ length r = length zs /\ forall k z, nth_error zs k = Some z -> exists a, nth_error r k = Some a /\ P z a.
Proof.
  induction zs as [|z zs IH]; intros P H.
  - exists []. simpl. repeat split; auto. intros [|k] z E; discriminate.
  - destruct (H z (or_introl eq_refl)) as (a & E & Pa). destruct (IH P) as (r & Er & L & S); [intros; apply H; right; auto|].
    cbn [take]. rewrite E. cbn [bind]. rewrite Er. cbn [bind]. exists (a :: r). repeat split; simpl; auto.
    intros [|k] z' Hk; simpl in *; [apply Some_inj in Hk; subst; eauto|apply S; auto].
Qed.

Lemma relink_nth : forall rows n p k r a b, length n = length rows -> length p = length rows ->
  nth_error rows k = Some r -> nth_error n k = Some a -> nth_error p k = Some b -> nth_error (relink rows n p) k = Some (set_links r a b).
Proof.
  induction rows as [|r0 rows IH]; intros [|x n] [|y p] k r a b L1 L2 Hr Ha Hb; simpl in *; try discriminate; try (destruct k; discriminate).
  destruct k as [|k]; simpl in *.
  - apply Some_inj in Hr, Ha, Hb. subst. auto.
  - apply IH; auto.
Qed.
Lemma relink_length : forall rows n p, length n = length rows -> length p = length rows -> length (relink rows n p) = length rows.
Proof.
  induction rows as [|r0 rows IH]; intros [|x n] [|y p] L1 L2; simpl in *; try discriminate; auto.
Qed.

(** Rows [kept], those of indices [ix] of [rows], with their links translated. *)
Lemma moved_spec : forall rows ix kept, links_ok rows -> NoDup ix -> (forall i, In i ix -> i < length rows) ->
  length kept = length ix -> (forall k i, nth_error ix k = Some i -> nth_error kept k = nth_error rows i) ->
  exists t n p, translate_table (length rows) ix = Some t /\ take t (map nxt kept) = Some n /\ take t (map prv kept) = Some p /\
    rows_moved ix rows (relink kept n p).
Proof.
  intros rows ix kept LK ND B L S.
  destruct (translate_spec (length rows) ix ND B) as (t & T & TS).
  assert (IN : forall r, In r kept -> In r rows).
  { intros r H. apply In_nth_error in H as [k Hk]. pose proof (nth_error_Some_lt _ _ _ Hk) as KL.
    destruct (nth_error_lt_Some ix k) as [i Hi]; [lia|]. rewrite (S k i Hi) in Hk. eapply nth_error_In; eauto. }
  destruct (take_all t (map nxt kept) (link_moved ix)) as (n & N & NL & NS).
  { intros z H. apply in_map_iff in H as (r & <- & H). apply TS. apply LK. auto. }
  destruct (take_all t (map prv kept) (link_moved ix)) as (p & P & PL & PS).
  { intros z H. apply in_map_iff in H as (r & <- & H). apply TS. apply LK. auto. }
  rewrite map_length in NL, PL.
  exists t, n, p. split; [auto|]. split; [auto|]. split; [auto|]. split; [rewrite relink_length; auto|].
  intros k i Hk. pose proof (nth_error_Some_lt _ _ _ Hk) as KL.
  destruct (nth_error_lt_Some kept k) as [r Hr]; [lia|].
  destruct (NS k (nxt r)) as (a & Ha & MA). { rewrite nth_error_map, Hr. auto. }
  destruct (PS k (prv r)) as (b & Hb & MB). { rewrite nth_error_map, Hr. auto. }
  exists r, (set_links r a b). rewrite <- (S k i Hk). split; [auto|]. split; [apply relink_nth; auto|].
  split; [repeat split|]. auto.
Qed.

(** The links of the new rows are again valid. *)
Lemma moved_links_ok : forall ix old new, rows_moved ix old new -> links_ok new.
Proof.
  intros ix old new [L M] r Hr. apply In_nth_error in Hr as [k Hk].
  destruct (nth_error_lt_Some ix k) as [i Hi]; [apply nth_error_Some_lt in Hk; lia|].
  destruct (M k i Hi) as (a & b & _ & Hb & _ & MN & MP). rewrite Hk in Hb. apply Some_inj in Hb. subst b.
  assert (X : forall o z, link_moved ix o z -> link_ok (length new) z).
  { intros o z [(k' & j & Hj & _ & ->)|[-> _]]; [right|left; auto]. apply nth_error_Some_lt in Hj. lia. }
  split; eapply X; eauto.
Qed.

(** ** sort *)
Lemma lexle_total : forall a b, lexle a b = true \/ lexle b a = true.
Proof.
  induction a as [|x a IH]; intros [|y b]; simpl; auto.
  destruct (Z.ltb_spec x y); simpl; auto. destruct (Z.ltb_spec y x); simpl; auto.
  assert (x = y) by lia. subst. rewrite Z.eqb_refl. simpl. apply IH.
Qed.
Lemma lexle_trans : forall a b c, lexle a b = true -> lexle b c = true -> lexle a c = true.
Proof.
  induction a as [|x a IH]; intros [|y b] [|z c] H1 H2; simpl in *; auto; try discriminate.
  apply orb_true_iff in H1, H2. apply orb_true_iff.
  rewrite !andb_true_iff, !Z.ltb_lt, !Z.eqb_eq in *.
  destruct H1 as [H1|[H1 H1']], H2 as [H2|[H2 H2']]; try (left; lia). right. split; [lia|]. eapply IH; eauto.
Qed.
Lemma lexle_app : forall order ra rb a b, (forall f, In f order -> f < 3) ->
  lexle (map (fun f => nth f (fields ra) 0%Z) order ++ a) (map (fun f => nth f (fields rb) 0%Z) order ++ b) = true -> ordered order ra rb.
Proof.
  induction order as [|f order IH]; intros ra rb a b B H; [simpl; auto|].
  cbn [map app lexle] in H. apply orb_true_iff in H. rewrite andb_true_iff, Z.ltb_lt, Z.eqb_eq in H. cbn [ordered].
  assert (V : forall r, nth f (fields r) 0%Z = field_value f r).
  { intros r. specialize (B f (or_introl eq_refl)). destruct f as [|[|[|f]]]; try reflexivity. lia. }
  rewrite !V in H. destruct H as [H|[H1 H2]]; [auto|]. right. split; [auto|]. eapply IH; eauto. intros; apply B; right; auto.
Qed.

Theorem sort_spec : forall order rows, links_ok rows -> (forall f, In f order -> f < 3) ->
  exists ix t rows', sort order rows = Some (ix, t, rows') /\ Permutation ix (seq 0 (length rows)) /\
    translate_table (length rows) ix = Some t /\ rows_moved ix rows rows' /\
    forall p q a b, p < q -> nth_error rows' p = Some a -> nth_error rows' q = Some b -> ordered order a b.
Proof.
  intros order rows LK B. unfold sort.
  set (le := fun a b => lexle (key order a) (key order b)).
  set (ix := stable_argsort le rows).
  pose proof (stable_argsort_perm le rows) as P. fold ix in P.
  assert (ND : NoDup ix) by (apply (Permutation_NoDup (Permutation_sym P)), seq_NoDup).
  assert (IB : forall i, In i ix -> i < length rows).
  { intros i H. apply (Permutation_in _ P) in H. apply in_seq in H. lia. }
  destruct (gather_total rows ix IB) as [rows1 G]. rewrite G. cbn [bind].
  apply gather_Some in G as [GL GS].
  destruct (moved_spec rows ix rows1 LK ND IB GL) as (t & n & p & T & N & PV & M).
  { intros k i H. destruct (GS k i H) as (a & A1 & A2). congruence. }
  rewrite T. cbn [bind]. rewrite N. cbn [bind]. rewrite PV. cbn [bind].
  exists ix, t, (relink rows1 n p). split; [reflexivity|]. split; [exact P|]. split; [exact T|]. split; [exact M|].
  destruct M as [ML MS]. intros x y a b LT Ha Hb.
  destruct (nth_error_lt_Some ix x) as [i Hi]; [apply nth_error_Some_lt in Ha; lia|].
  destruct (nth_error_lt_Some ix y) as [j Hj]; [apply nth_error_Some_lt in Hb; lia|].
  destruct (MS x i Hi) as (r & r' & R1 & R2 & SO & _). rewrite Ha in R2. apply Some_inj in R2. subst r'.
  destruct (MS y j Hj) as (s & s' & S1 & S2 & SO' & _). rewrite Hb in S2. apply Some_inj in S2. subst s'.
  assert (O : ordered order r s).
  { assert (H : le r s = true).
    { apply (proj1 (stable_argsort_order le
        (fun a b => lexle_total (key order a) (key order b)) (fun a b c => lexle_trans (key order a) (key order b) (key order c))
        rows x y i j r s LT Hi Hj R1 S1)). }
    unfold le, key in H. eapply lexle_app; eauto. }
  clear -O SO SO'. destruct SO as (A1 & A2 & A3 & _), SO' as (B1 & B2 & B3 & _).
  assert (V1 : forall f, field_value f a = field_value f r) by (intros [|[|f]]; simpl; congruence).
  assert (V2 : forall f, field_value f b = field_value f s) by (intros [|[|f]]; simpl; congruence).
  induction order as [|f order IH]; simpl in *; auto. rewrite V1, V2. destruct O as [O|[O1 O2]]; auto.
Qed.

(** ** Extraction *)
Theorem extract_spec : forall rows mask, links_ok rows -> length mask = length rows ->
  exists new, extract_with_mask rows mask = Some new /\ rows_moved (where_ mask) rows new.
Proof.
  intros rows mask LK L. unfold extract_with_mask. rewrite L, Nat.eqb_refl. cbn [negb].
  assert (WL : length (where_ mask) = count_true mask).
  { unfold where_. clear. generalize 0. induction mask as [|b m IH]; intros k; simpl; auto. destruct b; simpl; rewrite IH; auto. }
  destruct (Nat.eqb_spec (count_true mask) 0) as [Z|Z].
  - exists []. split; [auto|]. split; [simpl; lia|]. intros k i H. apply nth_error_Some_lt in H. lia.
  - destruct (moved_spec rows (where_ mask) (select mask rows) LK) as (t & n & p & T & N & PV & M).
    + apply incr_NoDup. apply incr_where.
    + intros i H. apply In_where in H. apply nth_error_Some_lt in H. lia.
    + rewrite length_select; auto.
    + intros k i H. rewrite (nth_error_select mask rows 0 k i L H). rewrite Nat.sub_0_r. auto.
    + rewrite T. cbn [bind]. rewrite N. cbn [bind]. rewrite PV. cbn [bind]. eauto.
Qed.

Theorem extract_slice_spec : forall rows a b, links_ok rows -> a <= b -> b <= length rows ->
  exists new, extract_with_slice rows a b = Some new /\ rows_moved (seq a (b - a)) rows new.
Proof.
  intros rows a b LK AB BL. unfold extract_with_slice. destruct (Nat.eqb_spec (b - a) 0) as [Z|Z].
  - exists []. split; [auto|]. rewrite Z. split; [auto|]. intros [|k] i H; discriminate.
  - assert (SL : length (slice rows a b) = b - a). { unfold slice. rewrite firstn_length, skipn_length. lia. }
    rewrite SL, Nat.eqb_refl. cbn [negb].
    destruct (moved_spec rows (seq a (b - a)) (slice rows a b) LK) as (t & n & p & T & N & PV & M).
    + apply seq_NoDup.
    + intros i H. apply in_seq in H. lia.
    + rewrite seq_length. auto.
    + intros k i H. rewrite nth_error_seq in H. destruct (Nat.ltb_spec k (b - a)); [|discriminate]. apply Some_inj in H. subst i.
      unfold slice. clear -H0. generalize dependent (b - a). intros m H.
      revert m k H. assert (X : forall (l : list nrow) m k, k < m -> nth_error (firstn m l) k = nth_error l k).
      { induction l as [|x l IH]; intros [|m] [|k] H; simpl; auto; try lia. apply IH. lia. }
      intros m k H. rewrite X by auto. clear. revert rows. induction a as [|a IH]; intros [|r rows]; simpl; auto. destruct k; auto.
    + rewrite T. cbn [bind]. rewrite N. cbn [bind]. rewrite PV. cbn [bind]. eauto.
Qed.
