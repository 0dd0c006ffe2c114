(** Proofs on merge_filters, insert_observations and grid_box_stat. *)
From Coq Require Import List Arith ZArith Bool QArith Qround Lia Permutation.
From Verif Require Import Base Qaux Spec Generic_model Obs_spec Obs_model Obs_words Obs_proofs.
Import ListNotations.
Local Close Scope Q_scope.
Local Open Scope nat_scope.

(** ** merge_filters *)
Lemma start_bound : forall n a k, k < n -> (start_of n a <= k <-> from_bound n a k).
Proof.
  intros n [z|] k H; simpl; [|lia]. unfold clip. destruct (Z.ltb_spec z 0); lia.
Qed.
Lemma stop_bound : forall n a k, k < n -> (k < stop_of n a <-> before_bound n a k).
Proof.
  intros n [z|] k H; simpl; [|lia]. unfold clip. destruct (Z.ltb_spec z 0); lia.
Qed.
Lemma slice_mask_nth : forall n a b k, k < n -> nth_error (slice_mask n a b) k = Some ((start_of n a <=? k) && (k <? stop_of n b)).
Proof.
  intros n a b k H. unfold slice_mask. rewrite nth_error_map, nth_error_seq.
  destruct (Nat.ltb_spec k n); [reflexivity|lia].
Qed.
Lemma slice_mask_length : forall n a b, length (slice_mask n a b) = n.
Proof. intros. unfold slice_mask. rewrite map_length, seq_length. auto. Qed.
Lemma slice_mask_selects : forall n a b k, k < n -> (nth_error (slice_mask n a b) k = Some true <-> selects n (FSlice a b) k).
Proof.
  intros n a b k H. rewrite slice_mask_nth by auto. cbn [selects]. rewrite <- start_bound, <- stop_bound by auto. split.
  - intros E. apply Some_inj in E. apply andb_true_iff in E as [E1 E2]. apply Nat.leb_le in E1. apply Nat.ltb_lt in E2. auto.
  - intros [E1 E2]. f_equal. apply andb_true_iff. split; [apply Nat.leb_le|apply Nat.ltb_lt]; auto.
Qed.

Lemma mask_and_spec : forall a b, length a = length b -> exists r, mask_and a b = Some r /\ length r = length a /\
  forall k, nth_error r k = Some true <-> nth_error a k = Some true /\ nth_error b k = Some true.
Proof.
  induction a as [|x a IH]; intros [|y b] L; simpl in L; try lia.
  - exists []. split; [auto|]. split; [auto|]. intros [|k]; simpl; split; try discriminate; intros [? ?]; discriminate.
  - injection L as L. destruct (IH b L) as (r & E & LR & S). cbn [mask_and]. rewrite E. cbn [bind].
    exists ((x && y) :: r). split; [auto|]. split; [simpl; auto|]. intros [|k]; simpl; [|apply S].
    split.
    + intros H. apply Some_inj in H. apply andb_true_iff in H as [-> ->]. auto.
    + intros [H1 H2]. apply Some_inj in H1, H2. subst. auto.
Qed.

Lemma pyget_pos : forall {A} (l : list A) z, (0 <= z < Z.of_nat (length l))%Z -> pyget l z = nth_error l (Z.to_nat z).
Proof. intros. apply pyget_in. auto. Qed.

Lemma take_spec : forall (m : list bool) l, (forall z, In z l -> (0 <= z < Z.of_nat (length m))%Z) ->
  exists s, take m l = Some s /\ forall z, In z (select s l) <-> In z l /\ nth_error m (Z.to_nat z) = Some true.
Proof.
  intros m. induction l as [|z l IH]; intros B.
  - exists []. simpl. split; [auto|]. intros z. tauto.
  - destruct IH as (s & E & S); [intros; apply B; right; auto|].
    cbn [take]. rewrite (pyget_pos m z) by (apply B; left; auto).
    destruct (nth_error_lt_Some m (Z.to_nat z)) as [b Hb]. { specialize (B z (or_introl eq_refl)). lia. }
    rewrite Hb. cbn [bind]. rewrite E. cbn [bind]. exists (b :: s). split; [auto|]. intros y. cbn [select].
    destruct b; simpl; rewrite S.
    + split.
      * intros [<-|[H1 H2]]; auto.
      * intros [[<-|H1] H2]; auto.
    + split.
      * intros [H1 H2]; auto.
      * intros [[<-|H1] H2]; [congruence|auto].
Qed.

Lemma select_in1d : forall l l2 z, In z (select (in1d l l2) l) <-> In z l /\ In z l2.
Proof.
  intros l l2 z. induction l as [|a l IH]; simpl; [tauto|].
  destruct (existsb (Z.eqb a) l2) eqn:E; simpl; rewrite IH.
  - apply existsb_exists in E as (b & Hb & E). apply Z.eqb_eq in E. subst b.
    split; [intros [<-|[H1 H2]]; auto|]. intros [[<-|H1] H2]; auto.
  - split; [intros [H1 H2]; auto|]. intros [[<-|H1] H2]; auto. exfalso.
    assert (X : existsb (Z.eqb a) l2 = true) by (apply existsb_exists; exists a; rewrite Z.eqb_refl; auto). congruence.
Qed.

Lemma index_selects : forall n l k, (forall z, In z l -> (0 <= z < Z.of_nat n)%Z) -> k < n ->
  (selects n (FIndex l) k <-> In (Z.of_nat k) l).
Proof.
  intros n l k B H. simpl. split.
  - intros (z & Hz & [->| ->]); auto. specialize (B _ Hz). lia.
  - intros Hz. exists (Z.of_nat k). auto.
Qed.

Lemma merge2_spec : forall n f g, valid_filter n f -> valid_filter n g -> is_slice f && is_slice g = false ->
  exists r, merge2 n f g = Some r /\ valid_filter n r /\ is_slice r = false /\
    forall k, k < n -> (selects n r k <-> selects n f k /\ selects n g k).
Proof.
  assert (MI : forall n m l, length m = n -> (forall z, In z l -> (0 <= z < Z.of_nat n)%Z) ->
     exists s, take m l = Some s /\ valid_filter n (FIndex (select s l)) /\
       forall k, k < n -> (selects n (FIndex (select s l)) k <-> nth_error m k = Some true /\ selects n (FIndex l) k)).
  { intros n m l L B. destruct (take_spec m l) as (s & E & S); [rewrite L; auto|]. exists s. split; [auto|].
    assert (B2 : forall z, In z (select s l) -> (0 <= z < Z.of_nat n)%Z) by (intros z Hz; apply S in Hz; apply B; tauto).
    split; [exact B2|]. intros k Hk. rewrite !index_selects by auto. rewrite S, Nat2Z.id. tauto. }
  intros n f g V1 V2 NS. destruct f as [a b|m|l], g as [c d|m2|l2]; simpl in NS; try discriminate; cbn [merge2].
  - destruct (mask_and_spec (slice_mask n a b) m2) as (r & E & L & S). { rewrite slice_mask_length. auto. }
    rewrite E. cbn [bind]. rewrite slice_mask_length in L. exists (FMask r). split; [auto|]. split; [exact L|]. split; [auto|].
    intros k Hk. change (selects n (FMask r) k) with (nth_error r k = Some true). rewrite S, slice_mask_selects by auto. simpl. tauto.
  - destruct (MI n (slice_mask n a b) l2) as (s & E & V & S); auto. { apply slice_mask_length. }
    rewrite E. cbn [bind]. exists (FIndex (select s l2)). split; [auto|]. split; [exact V|]. split; [auto|].
    intros k Hk. rewrite (S k Hk), slice_mask_selects by auto. tauto.
  - destruct (mask_and_spec (slice_mask n c d) m) as (r & E & L & S). { rewrite slice_mask_length. auto. }
    rewrite E. cbn [bind]. rewrite slice_mask_length in L. exists (FMask r). split; [auto|]. split; [exact L|]. split; [auto|].
    intros k Hk. change (selects n (FMask r) k) with (nth_error r k = Some true). rewrite S, slice_mask_selects by auto. simpl. tauto.
  - simpl in V1, V2. destruct (mask_and_spec m2 m) as (r & E & L & S); [lia|].
    rewrite E. cbn [bind]. exists (FMask r). split; [auto|]. split; [simpl; lia|]. split; [auto|].
    intros k Hk. simpl. rewrite S. tauto.
  - destruct (MI n m l2) as (s & E & V & S); auto.
    rewrite E. cbn [bind]. exists (FIndex (select s l2)). split; [auto|]. split; [exact V|]. split; [auto|].
    intros k Hk. rewrite (S k Hk). simpl. tauto.
  - destruct (MI n (slice_mask n c d) l) as (s & E & V & S); auto. { apply slice_mask_length. }
    rewrite E. cbn [bind]. exists (FIndex (select s l)). split; [auto|]. split; [exact V|]. split; [auto|].
    intros k Hk. rewrite (S k Hk), slice_mask_selects by auto. tauto.
  - destruct (MI n m2 l) as (s & E & V & S); auto.
    rewrite E. cbn [bind]. exists (FIndex (select s l)). split; [auto|]. split; [exact V|]. split; [auto|].
    intros k Hk. rewrite (S k Hk). simpl. tauto.
  - exists (FIndex (select (in1d l l2) l)). split; [auto|].
    assert (B : forall z, In z (select (in1d l l2) l) -> (0 <= z < Z.of_nat n)%Z) by (intros z Hz; apply select_in1d in Hz; apply V1; tauto).
    split; [exact B|]. split; [auto|]. intros k Hk. simpl in V1, V2. rewrite !index_selects by auto. apply select_in1d.
Qed.

Lemma merge_all_spec : forall n rest f, (forall g, In g (f :: rest) -> valid_filter n g) -> ends_ok (f :: rest) ->
  exists r, merge_all n f rest = Some r /\ valid_filter n r /\ (rest <> [] -> is_slice r = false) /\
    forall k, k < n -> (selects n r k <-> forall g, In g (f :: rest) -> selects n g k).
Proof.
  intros n. induction rest as [|g rest IH]; intros f V E.
  - exists f. split; [reflexivity|]. split; [apply V; left; auto|]. split; [congruence|].
    intros k Hk. split; [intros H g [<-|[]]; auto|]. intros H. apply H. left. auto.
  - destruct (IH g) as (r & R & VR & SR & S).
    { intros h Hh. apply V. right. auto. }
    { destruct rest; [simpl; auto|exact E]. }
    cbn [merge_all]. rewrite R. cbn [bind].
    destruct (merge2_spec n f r) as (q & Q & VQ & SQ & SS); auto.
    { apply V. left. auto. }
    { destruct rest as [|h rest].
      - simpl in R. apply Some_inj in R. subst r. exact E.
      - rewrite SR by congruence. apply andb_false_r. }
    exists q. split; [exact Q|]. split; [exact VQ|]. split; [auto|].
    intros k Hk. rewrite (SS k Hk), (S k Hk). split.
    + intros [H1 H2] h [<-|H]; auto.
    + intros H. split; [apply H; left; auto|]. intros h Hh. apply H. right. auto.
Qed.

Lemma useful_spec : forall fs,
  (useful fs = Some (kept_filters fs)) \/ (useful fs = None /\ exists m, In (FMask m) (present fs) /\ existsb (fun b => b) m = false).
Proof.
  induction fs as [|[f|] fs IH]; [left; reflexivity| |exact IH].
  assert (CONS : forall f, whole f = false -> useful (Some f :: fs) = (let! u := useful fs in Some (f :: u)) ->
     useful (Some f :: fs) = Some (kept_filters (Some f :: fs)) \/
     (useful (Some f :: fs) = None /\ exists m, In (FMask m) (present (Some f :: fs)) /\ existsb (fun b => b) m = false)).
  { intros g W E. rewrite E. destruct IH as [U|(U & m & H1 & H2)]; rewrite U; cbn [bind].
    - left. unfold kept_filters. cbn [present filter]. rewrite W. reflexivity.
    - right. split; [auto|]. exists m. split; [right; auto|auto]. }
  assert (SKIP : forall f, whole f = true -> useful (Some f :: fs) = useful fs ->
     useful (Some f :: fs) = Some (kept_filters (Some f :: fs)) \/
     (useful (Some f :: fs) = None /\ exists m, In (FMask m) (present (Some f :: fs)) /\ existsb (fun b => b) m = false)).
  { intros g W E. rewrite E. destruct IH as [U|(U & m & H1 & H2)]; rewrite U.
    - left. unfold kept_filters. cbn [present filter]. rewrite W. reflexivity.
    - right. split; [auto|]. exists m. split; [right; auto|auto]. }
  destruct f as [[a|] [b|]|m|l]; try (apply CONS; reflexivity).
  - apply SKIP; reflexivity.
  - destruct (forallb (fun b => b) m) eqn:A.
    + apply SKIP; [exact A|]. cbn [useful]. rewrite A. reflexivity.
    + destruct (existsb (fun b => b) m) eqn:X.
      * apply CONS; [exact A|]. cbn [useful]. rewrite A, X. reflexivity.
      * right. cbn [useful]. rewrite A, X. split; [reflexivity|]. exists m. split; [left; auto|auto].
Qed.

Lemma whole_selects : forall n f k, valid_filter n f -> whole f = true -> k < n -> selects n f k.
Proof.
  intros n [[a|] [b|]|m|l] k V W H; simpl in *; try discriminate; [auto with arith|].
  rewrite forallb_forall in W. destruct (nth_error_lt_Some m k) as [x Hx]; [lia|].
  rewrite Hx. f_equal. apply W. eapply nth_error_In; eauto.
Qed.
Lemma In_present : forall fs f, In f (present fs) <-> In (Some f) fs.
Proof.
  induction fs as [|[g|] fs IH]; intros f; simpl; [tauto| |].
  - rewrite IH. split; intros [H|H]; auto; left; congruence.
  - rewrite IH. split; auto. intros [H|H]; auto. discriminate.
Qed.

Theorem merge_filters_spec : forall n fs, (forall f, In (Some f) fs -> valid_filter n f) -> ends_ok (kept_filters fs) ->
  exists r, merge_filters n fs = Some r /\
    forall k, k < n -> (selects n r k <-> forall f, In (Some f) fs -> selects n f k).
Proof.
  intros n fs V E. unfold merge_filters.
  assert (SEL : forall k, k < n -> ((forall f, In (Some f) fs -> selects n f k) <-> forall f, In f (kept_filters fs) -> selects n f k)).
  { intros k Hk. split.
    - intros H f Hf. unfold kept_filters in Hf. apply filter_In in Hf as [Hf _]. apply H, In_present. auto.
    - intros H f Hf. destruct (whole f) eqn:W; [apply whole_selects; auto|]. apply H. apply filter_In. rewrite W. split; [apply In_present; auto|auto]. }
  destruct (useful_spec fs) as [U|(U & m & H1 & H2)]; rewrite U.
  - destruct (kept_filters fs) as [|f rest] eqn:K.
    + exists (FSlice None None). split; [reflexivity|]. intros k Hk. rewrite SEL by auto.
      split; [intros _ f []|]. intros _. simpl. auto with arith.
    + destruct (merge_all_spec n rest f) as (r & R & _ & _ & S).
      { intros g Hg. rewrite <- K in Hg. unfold kept_filters in Hg. apply filter_In in Hg as [Hg _]. apply V, In_present. auto. }
      { exact E. }
      exists r. split; [exact R|]. intros k Hk. rewrite SEL by auto. apply S. auto.
  - exists (FIndex []). split; [reflexivity|]. intros k Hk. split.
    + intros (z & [] & _).
    + intros H. exfalso. apply In_present in H1. specialize (H _ H1). simpl in H. apply nth_error_In in H.
      assert (X : existsb (fun b => b) m = true) by (apply existsb_exists; eauto). congruence.
Qed.

Theorem two_slices_union : forall n a b c d, FSlice a b <> FSlice None None -> FSlice c d <> FSlice None None ->
  exists r, merge_filters n [Some (FSlice a b); Some (FSlice c d)] = Some r /\
    forall k, k < n -> (selects n r k <-> selects n (FSlice a b) k \/ selects n (FSlice c d) k).
Proof.
  intros n a b c d N1 N2.
  assert (E : merge_filters n [Some (FSlice a b); Some (FSlice c d)] = merge2 n (FSlice a b) (FSlice c d)).
  { unfold merge_filters. destruct a, b, c, d; cbn [useful bind merge_all]; try reflexivity; congruence. }
  rewrite E. cbn [merge2]. eexists. split; [reflexivity|]. intros k Hk.
  cbn [selects]. rewrite <- !start_bound, <- !stop_bound by auto.
  rewrite nth_error_map.
  assert (C : nth_error (combine (slice_mask n a b) (slice_mask n c d)) k =
     Some ((start_of n a <=? k) && (k <? stop_of n b), (start_of n c <=? k) && (k <? stop_of n d))).
  { apply nth_combine_iff. split; apply slice_mask_nth; auto. }
  rewrite C. cbn [option_map fst snd]. split.
  - intros H. apply Some_inj in H. apply orb_true_iff in H as [H|H]; apply andb_true_iff in H as [H1 H2];
      apply Nat.leb_le in H1; apply Nat.ltb_lt in H2; auto.
  - intros [[H1 H2]|[H1 H2]]; apply Nat.leb_le in H1; apply Nat.ltb_lt in H2; rewrite H1, H2; simpl; auto.
    rewrite orb_true_r. auto.
Qed.

(** ** insert_observations *)
Lemma start_nat : forall n k, k <= n -> start_of n (Some (Z.of_nat k)) = k.
Proof. intros. simpl. unfold clip. destruct (Z.ltb_spec (Z.of_nat k) 0); lia. Qed.
Lemma stop_nat : forall n k, k <= n -> stop_of n (Some (Z.of_nat k)) = k.
Proof. intros. apply start_nat. auto. Qed.

Lemma assign_exact : forall {A} (l : list A) i j v oa ob, start_of (length l) oa = i -> stop_of (length l) ob = j -> i <= j ->
  length v = j - i -> assign l oa ob v = Some (firstn i l ++ v ++ skipn j l).
Proof.
  intros A l i j v oa ob Ha Hb L LV. unfold assign. rewrite Ha, Hb. rewrite Nat.max_r by auto. rewrite LV, Nat.eqb_refl. auto.
Qed.
Lemma firstn_app_exact : forall {A} (a b : list A), firstn (length a) (a ++ b) = a.
Proof. intros. rewrite firstn_app, Nat.sub_diag, firstn_all. simpl. apply app_nil_r. Qed.
Lemma skipn_app_exact : forall {A} (a b : list A), skipn (length a) (a ++ b) = b.
Proof. intros. rewrite skipn_app, Nat.sub_diag, skipn_all. reflexivity. Qed.

Theorem insert_spec : forall {A} (blank : A) self other index,
  (- Z.of_nat (length self) - 1 <= index <= Z.of_nat (length self))%Z ->
  let p := Z.to_nat (if (index <? 0)%Z then Z.of_nat (length self) + index + 1 else index) in
  insert_observations blank self other index = Some (firstn p self ++ other ++ skipn p self).
Proof.
  intros A blank self other index B p.
  assert (PL : p <= length self). { unfold p. destruct (Z.ltb_spec index 0); lia. }
  destruct self as [|s0 self'].
  { simpl in PL. assert (p = 0) by lia. rewrite H. simpl. rewrite app_nil_r. reflexivity. }
  set (self := s0 :: self') in *.
  destruct other as [|o0 other'].
  { simpl. fold self. rewrite firstn_skipn. reflexivity. }
  set (other := o0 :: other') in *.
  assert (E : insert_observations blank self other index =
     (let index := if (index <? 0)%Z then (Z.of_nat (length self) + index + 1)%Z else index in
      let e := repeat blank (length self + length other) in
      let stop := (index + Z.of_nat (length other))%Z in
      let! e1 := assign e None (Some index) (pyslice self None (Some index)) in
      let! e2 := assign e1 (Some index) (Some stop) other in
      assign e2 (Some stop) None (pyslice self (Some index) None))) by reflexivity.
  rewrite E. clear E. cbv zeta.
  replace (if (index <? 0)%Z then (Z.of_nat (length self) + index + 1)%Z else index) with (Z.of_nat p).
  2:{ unfold p. destruct (Z.ltb_spec index 0); lia. }
  clearbody self other p. clear B index s0 self' o0 other'.
  replace (Z.of_nat p + Z.of_nat (length other))%Z with (Z.of_nat (p + length other)) by lia.
  set (n := length self) in *. set (k := length other) in *.
  assert (P1 : pyslice self None (Some (Z.of_nat p)) = firstn p self).
  { unfold pyslice, slice. fold n. rewrite stop_nat by auto. simpl. rewrite Nat.sub_0_r. reflexivity. }
  assert (P2 : pyslice self (Some (Z.of_nat p)) None = skipn p self).
  { unfold pyslice, slice. fold n. rewrite start_nat by auto. simpl. apply firstn_all2. rewrite skipn_length. fold n. lia. }
  rewrite P1, P2.
  assert (L1 : length (firstn p self) = p) by (rewrite firstn_length; fold n; lia).
  rewrite (assign_exact (repeat blank (n + k)) 0 p (firstn p self)); try (rewrite ?repeat_length); [|reflexivity|apply stop_nat; lia|lia|lia].
  cbn [bind firstn app].
  set (tail := skipn p (repeat blank (n + k))).
  assert (LT : length tail = n + k - p) by (unfold tail; rewrite skipn_length, repeat_length; auto).
  assert (LE : length (firstn p self ++ tail) = n + k) by (rewrite app_length; lia).
  rewrite (assign_exact (firstn p self ++ tail) p (p + k) other); rewrite ?LE; [|apply start_nat; lia|apply stop_nat; lia|lia|fold k; lia].
  cbn [bind].
  assert (F1 : firstn p (firstn p self ++ tail) = firstn p self).
  { rewrite <- L1 at 1. apply firstn_app_exact. }
  rewrite F1.
  set (tail2 := skipn (p + k) (firstn p self ++ tail)).
  assert (LT2 : length tail2 = n - p) by (unfold tail2; rewrite skipn_length, LE; lia).
  assert (LE2 : length (firstn p self ++ other ++ tail2) = n + k) by (rewrite !app_length; fold k; lia).
  rewrite (assign_exact (firstn p self ++ other ++ tail2) (p + k) (n + k) (skipn p self)); rewrite ?LE2;
    [|apply start_nat; lia|reflexivity|lia|rewrite skipn_length; fold n; lia].
  f_equal. rewrite app_assoc.
  assert (L2 : length (firstn p self ++ other) = p + k) by (rewrite app_length; fold k; lia).
  rewrite (app_assoc (firstn p self) other tail2). rewrite <- L2 at 1. rewrite firstn_app_exact, <- !app_assoc. f_equal. f_equal.
  rewrite (skipn_all2 (firstn p self ++ other ++ tail2)); [apply app_nil_r|]. rewrite LE2. auto.
Qed.

(** ** grid_box_stat *)
Lemma cell_eqb : forall (a b : Z * Z), (fst a =? fst b)%Z && (snd a =? snd b)%Z = true <-> a = b.
Proof.
  intros [a1 a2] [b1 b2]. simpl. rewrite andb_true_iff, !Z.eqb_eq. split; [intros [-> ->]; auto|intros H; injection H; auto].
Qed.
Lemma cell_neqb : forall (a b : Z * Z), negb (fst a =? fst b)%Z || negb (snd a =? snd b)%Z = true <-> a <> b.
Proof.
  intros a b. rewrite <- negb_andb, negb_true_iff. rewrite <- not_true_iff_false, cell_eqb. tauto.
Qed.

Lemma values_of_absent : forall {V} d (items : list (Z * Z * V)), (forall i, In i items -> fst i <> d) -> values_of d items = [].
Proof.
  intros V d items H. unfold values_of. induction items as [|[c v] items IH]; simpl; auto.
  destruct ((fst c =? fst d)%Z && (snd c =? snd d)%Z) eqn:E; [|apply IH; intros; apply H; right; auto].
  apply cell_eqb in E. exfalso. apply (H (c, v) (or_introl eq_refl)). auto.
Qed.
Lemma values_of_cons : forall {V} d c (v : V) items, values_of d ((c, v) :: items) = if (fst c =? fst d)%Z && (snd c =? snd d)%Z then v :: values_of d items else values_of d items.
Proof. intros. unfold values_of. simpl. destruct (_ && _); reflexivity. Qed.

Section Box.
Context {V S : Type} (stat : list V -> S) (nb_x : Z).
Definition zabs := cell_abs nb_x.
Definition in_row (c : Z * Z) : Prop := (0 <= fst c < nb_x)%Z.

Lemma abs_inj : forall a b, in_row a -> in_row b -> zabs a = zabs b -> a = b.
Proof. intros [a1 a2] [b1 b2] A B H. unfold zabs, cell_abs, in_row in *. simpl in *. assert (a2 = b2) by nia. subst. f_equal. lia. Qed.

(** [p] is the occupied cell (or [c0]) just before [d]. *)
Lemma box_loop_spec : forall items c0 values grid,
  in_row c0 -> (forall i, In i items -> in_row (fst i) /\ (zabs c0 <= zabs (fst i))%Z) ->
  (forall a b i j, (a < b)%nat -> nth_error items a = Some i -> nth_error items b = Some j -> (zabs (fst i) <= zabs (fst j))%Z) ->
  (forall d, in_row d -> (d = c0 \/ ~ occupied d items) -> box_loop stat c0 values items grid d = grid d) /\
  (forall d p, occupied d items -> d <> c0 -> (p = c0 \/ occupied p items) -> (zabs p < zabs d)%Z ->
     (forall q, (q = c0 \/ occupied q items) -> (zabs q <= zabs p)%Z \/ (zabs d <= zabs q)%Z) ->
     box_loop stat c0 values items grid d = Some (stat ((if (fst p =? fst c0)%Z && (snd p =? snd c0)%Z then values else []) ++ values_of p items))).
Proof.
  induction items as [|[c v] items IH]; intros c0 values grid R0 B O.
  - split; [reflexivity|]. intros d p [v []].
  - destruct (B (c, v) (or_introl eq_refl)) as [RC AC]. simpl in RC, AC. cbn [box_loop].
    assert (O' : forall a b i j, (a < b)%nat -> nth_error items a = Some i -> nth_error items b = Some j -> (zabs (fst i) <= zabs (fst j))%Z).
    { intros a b i j L Hi Hj. apply (O (Datatypes.S a) (Datatypes.S b)); auto. lia. }
    assert (GE : forall i, In i items -> in_row (fst i) /\ (zabs c <= zabs (fst i))%Z).
    { intros i Hi. split; [apply B; right; auto|]. apply In_nth_error in Hi as [k Hk]. apply (O 0 (Datatypes.S k) (c, v) i); auto. lia. }
    assert (OCC : forall q, occupied q ((c, v) :: items) <-> q = c \/ occupied q items).
    { intros q. unfold occupied. split.
      - intros (w & [H|H]); [injection H; auto|eauto].
      - intros [->|(w & H)]; [exists v; left; auto|exists w; right; auto]. }
    destruct (negb (fst c =? fst c0)%Z || negb (snd c =? snd c0)%Z) eqn:E.
    + apply cell_neqb in E.
      assert (LT : (zabs c0 < zabs c)%Z). { assert (zabs c0 <> zabs c) by (intros H; apply E; symmetry; apply abs_inj; auto). lia. }
      set (grid' := fun d : Z * Z => if (fst d =? fst c)%Z && (snd d =? snd c)%Z then Some (stat values) else grid d).
      destruct (IH c [v] grid' RC GE O') as [A1 A2].
      assert (GC : grid' c = Some (stat values)) by (unfold grid'; rewrite !Z.eqb_refl; reflexivity).
      assert (GN : forall d, d <> c -> grid' d = grid d).
      { intros d N. unfold grid'. destruct (_ && _) eqn:X; auto. apply cell_eqb in X. contradiction. }
      assert (NC0 : values_of c0 ((c, v) :: items) = []).
      { apply values_of_absent. intros i [<-|Hi]; [simpl; auto|]. apply GE in Hi as [_ Hi]. intros H. rewrite H in Hi. lia. }
      split.
      * intros d RD [->|N].
        -- rewrite A1; auto. right. intros (w & H). apply GE in H as [_ H]. simpl in H. lia.
        -- assert (d <> c) by (intros ->; apply N, OCC; auto).
           rewrite A1; auto. right. intros H'. apply N, OCC. auto.
      * intros d p OD ND OP LP BT. destruct (Z.eq_dec (zabs d) (zabs c)) as [EQ|NE].
        -- assert (RD : in_row d). { destruct OD as (w & H). apply B in H. tauto. }
           assert (d = c) by (apply abs_inj; auto). subst d.
           rewrite A1 by auto. rewrite GC.
           assert (P0 : p = c0).
           { destruct OP as [->|OP]; auto. apply OCC in OP as [->|(w & H)]; [lia|]. apply GE in H as [_ H]. simpl in H. lia. }
           subst p. rewrite !Z.eqb_refl. cbn [andb]. rewrite NC0, app_nil_r. reflexivity.
        -- apply OCC in OD as [->|OD]; [lia|].
           assert (PC : p <> c0).
           { intros ->. destruct (BT c (or_intror (proj2 (OCC c) (or_introl eq_refl)))) as [H|H]; [lia|].
             destruct OD as (w & H2). apply GE in H2 as [_ H2]. simpl in H2. lia. }
           destruct OP as [->|OP]; [contradiction|]. apply OCC in OP.
           rewrite (A2 d p); auto.
           ++ f_equal. f_equal. rewrite values_of_cons.
              assert (X : (fst p =? fst c0)%Z && (snd p =? snd c0)%Z = false).
              { destruct (_ && _) eqn:Y; auto. apply cell_eqb in Y. contradiction. }
              rewrite X. cbn [app].
              destruct ((fst p =? fst c)%Z && (snd p =? snd c)%Z) eqn:Y.
              ** apply cell_eqb in Y. subst p. rewrite !Z.eqb_refl. reflexivity.
              ** destruct ((fst c =? fst p)%Z && (snd c =? snd p)%Z) eqn:Y2; [|reflexivity].
                 apply cell_eqb in Y2. subst. rewrite !Z.eqb_refl in Y. discriminate.
           ++ intros ->. lia.
           ++ intros q Hq. apply BT. right. apply OCC. auto.
    + assert (C0 : c = c0).
      { destruct (Z.eq_dec (fst c) (fst c0)) as [E1|E1], (Z.eq_dec (snd c) (snd c0)) as [E2|E2];
          try (apply Z.eqb_neq in E1; rewrite E1 in E; discriminate);
          try (apply Z.eqb_neq in E2; rewrite E2, orb_true_r in E; discriminate).
        destruct c, c0; simpl in *; subst; auto. }
      subst c0. destruct (IH c (values ++ [v]) grid RC GE O') as [A1 A2]. split.
      * intros d RD [->|N]; [apply A1; auto|]. apply A1; auto. right. intros H. apply N, OCC. auto.
      * intros d p OD ND OP LP BT. apply OCC in OD as [->|OD]; [contradiction|].
        rewrite (A2 d p); auto.
        -- f_equal. f_equal. rewrite values_of_cons.
           destruct ((fst p =? fst c)%Z && (snd p =? snd c)%Z) eqn:Y.
           ++ apply cell_eqb in Y. subst p. rewrite !Z.eqb_refl. cbn [andb]. rewrite <- app_assoc. reflexivity.
           ++ destruct ((fst c =? fst p)%Z && (snd c =? snd p)%Z) eqn:Y2; [|reflexivity].
              apply cell_eqb in Y2. subst. rewrite !Z.eqb_refl in Y. discriminate.
        -- destruct OP as [->|OP]; auto. apply OCC in OP as [->|OP]; auto.
        -- intros q Hq. apply BT. destruct Hq as [->|Hq]; auto. right. apply OCC. auto.
Qed.
End Box.

Lemma gather_perm : forall {A} (l : list A) ix items, Permutation ix (seq 0 (length l)) -> gather l ix = Some items -> Permutation items l.
Proof.
  intros A l ix items P G.
  assert (forall ix items, gather l ix = Some items -> map Some items = map (nth_error l) ix) as K.
  { clear. induction ix as [|i ix IH]; intros items G; simpl in G; [apply Some_inj in G; subst; auto|].
    destruct (nth_error l i) eqn:E; [|discriminate]. cbn [bind] in G. destruct (gather l ix) eqn:H; [|discriminate].
    cbn [bind] in G. apply Some_inj in G. subst. simpl. rewrite E. f_equal. auto. }
  assert (S : map (nth_error l) (seq 0 (length l)) = map Some l).
  { clear. apply nth_error_ext. intros k. rewrite !nth_error_map, nth_error_seq.
    destruct (Nat.ltb_spec k (length l)) as [H|H].
    - simpl. destruct (nth_error_lt_Some l k H) as [a Ha]. rewrite Ha. auto.
    - rewrite (proj2 (nth_error_None l k)) by auto. auto. }
  apply (Permutation_map (nth_error l)) in P. rewrite S, <- (K _ _ G) in P.
  apply Permutation_map_inv in P as (l' & E & P).
  assert (l' = items).
  { clear -E. revert l' E. induction items as [|a items IH]; intros [|b l'] E; simpl in *; try discriminate; auto.
    injection E as -> E. f_equal. auto. }
  subst. symmetry. auto.
Qed.

Theorem grid_box_stat_spec : forall {V S} argsort (stat : list V -> S) nb_x cells grid,
  sorts argsort -> cells <> [] -> (forall c, In c cells -> (0 <= fst (fst c) < nb_x)%Z) ->
  exists g, grid_box_stat argsort stat nb_x cells grid = Some g /\
    (forall d, occupied d cells -> (forall p, occupied p cells -> (cell_abs nb_x d <= cell_abs nb_x p)%Z) -> g d = grid d) /\
    (forall d, (0 <= fst d < nb_x)%Z -> ~ occupied d cells -> g d = grid d) /\
    (forall p d, occupied p cells -> occupied d cells -> (cell_abs nb_x p < cell_abs nb_x d)%Z ->
       (forall q, occupied q cells -> (cell_abs nb_x q <= cell_abs nb_x p)%Z \/ (cell_abs nb_x d <= cell_abs nb_x q)%Z) ->
       exists vals, Permutation vals (values_of p cells) /\ g d = Some (stat vals)).
Proof.
  intros V S argsort stat nb_x cells grid AS NE RW. unfold grid_box_stat.
  set (abs_i := map _ cells).
  destruct (AS abs_i) as [P O]. assert (LA : length abs_i = length cells) by apply map_length.
  destruct (perm_seq _ _ P) as (PL & PN & PI). rewrite LA in *.
  destruct (gather_some cells (argsort abs_i)) as (items & E & LI & SI). { intros k Hk. apply PI. auto. }
  rewrite E. cbn [bind]. pose proof (gather_perm cells _ items P E) as PP.
  assert (SORT : forall a b i j, (a < b)%nat -> nth_error items a = Some i -> nth_error items b = Some j -> (cell_abs nb_x (fst i) <= cell_abs nb_x (fst j))%Z).
  { intros a b i j L Hi Hj.
    destruct (nth_error_lt_Some (argsort abs_i) a) as [p Hp]; [apply nth_error_Some_lt in Hi; lia|].
    destruct (nth_error_lt_Some (argsort abs_i) b) as [q Hq]; [apply nth_error_Some_lt in Hj; lia|].
    rewrite (SI _ _ Hp) in Hi. rewrite (SI _ _ Hq) in Hj.
    apply (O a b p q _ _ L Hp Hq); unfold abs_i.
    - rewrite (map_nth_error _ p cells Hi). reflexivity.
    - rewrite (map_nth_error _ q cells Hj). reflexivity. }
  assert (HD : exists c v, nth_error items 0 = Some (c, v) /\
     match items with [] => None | (c, _) :: _ => Some (box_loop stat c [] items grid) end = Some (box_loop stat c [] items grid)).
  { destruct items as [|[c v] items0]; [exfalso; apply Permutation_nil in PP; contradiction|]. exists c, v. auto. }
  destruct HD as (c & v & N0 & HD). rewrite HD. clear HD. pose proof (nth_error_In _ _ N0) as H0.
  assert (OCC : forall q, occupied q items <-> occupied q cells).
  { intros q. split; intros (w & H); exists w; [apply (Permutation_in _ PP)|apply (Permutation_in _ (Permutation_sym PP))]; auto. }
  assert (OC : occupied c items) by (exists v; auto).
  assert (RC : in_row nb_x c). { apply OCC in OC as (w & H). apply (RW _ H). }
  eexists. split; [reflexivity|].
  assert (LOW : forall i, In i items -> (cell_abs nb_x c <= cell_abs nb_x (fst i))%Z).
  { intros i Hi. apply In_nth_error in Hi as [k Hk]. destruct k as [|k].
    - rewrite N0 in Hk. apply Some_inj in Hk. subst i. simpl. lia.
    - apply (SORT 0 (Datatypes.S k) (c, v) i); auto. lia. }
  destruct (box_loop_spec stat nb_x items c [] grid RC) as [A1 A2].
  { intros i Hi. split; [|apply LOW; auto]. apply (Permutation_in _ PP) in Hi. apply (RW _ Hi). }
  { exact SORT. }
  split; [|split].
  - intros d OD H. assert (RD : in_row nb_x d) by (destruct OD as (w & Hw); apply (RW _ Hw)).
    apply A1; auto. left. apply (abs_inj nb_x); auto. unfold zabs.
    assert (cell_abs nb_x d <= cell_abs nb_x c)%Z by (apply H, OCC; auto).
    assert (cell_abs nb_x c <= cell_abs nb_x d)%Z. { apply OCC in OD as (w & Hw). apply (LOW _ Hw). }
    lia.
  - intros d RD N. apply A1; auto. right. intros H. apply N, OCC. auto.
  - intros p d OP OD LT BT. exists (values_of p items). split.
    + unfold values_of. apply Permutation_map. clear -PP. induction PP; simpl; auto.
      * destruct (_ && _); auto.
      * destruct ((fst (fst y) =? fst p)%Z && _), ((fst (fst x) =? fst p)%Z && _); auto. apply perm_swap.
      * etransitivity; eauto.
    + rewrite (A2 d p); auto.
      * f_equal. f_equal. destruct (_ && _); reflexivity.
      * apply OCC; auto.
      * intros ->. apply OCC in OP. destruct OP as (w & Hw). apply LOW in Hw. simpl in Hw. unfold zabs in *. lia.
      * right. apply OCC. auto.
      * intros q [->|Hq]; [apply BT, OCC; auto|]. apply BT, OCC. auto.
Qed.
