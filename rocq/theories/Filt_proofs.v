From Coq Require Import List Arith ZArith QArith Qabs Bool Lia Lqa.
From Verif Require Import Base Qaux Spec Obs_model Obs_proofs Corr_model Grid_path Poly_pairs Filt_model Filt_spec.
Import ListNotations.
Local Close Scope Q_scope.
Local Open Scope nat_scope.

Definition nth2 {A} (m : list (list A)) (r c : nat) : option A := match nth_error m r with Some row => nth_error row c | None => None end.

Lemma fslice : forall {A} (l : list A) a b k, nth_error (slice l a b) k = if k <? b - a then nth_error l (a + k) else None.
Proof.
  intros. unfold slice. destruct (Nat.ltb_spec k (b - a)).
  - rewrite nth_firstn by exact H. apply nth_skipn.
  - apply nth_error_None. rewrite firstn_length. lia.
Qed.
Lemma fslice_length : forall {A} (l : list A) a b, length (slice l a b) = Nat.min (b - a) (length l - a).
Proof. intros. unfold slice. rewrite firstn_length, skipn_length. reflexivity. Qed.
Lemma splice_nth : forall {A} (l mid : list A) i j k, i <= j -> j <= length l -> length mid = j - i ->
  nth_error (firstn i l ++ mid ++ skipn j l) k = if (i <=? k) && (k <? j) then nth_error mid (k - i) else nth_error l k.
Proof.
  intros A l mid i j k IJ JL LM. assert (LF : length (firstn i l) = i) by (rewrite firstn_length; lia).
  destruct (Nat.leb_spec i k) as [H|H]; cbn [andb].
  - rewrite nth_error_app2 by lia. rewrite LF. destruct (Nat.ltb_spec k j) as [H1|H1].
    + apply nth_error_app1. lia.
    + rewrite nth_error_app2 by lia. rewrite nth_skipn. f_equal. lia.
  - rewrite nth_error_app1 by lia. apply nth_firstn. exact H.
Qed.
Lemma splice_length : forall {A} (l mid : list A) i j, i <= j -> j <= length l -> length mid = j - i -> length (firstn i l ++ mid ++ skipn j l) = length l.
Proof. intros. rewrite !app_length, firstn_length, skipn_length. lia. Qed.
Lemma put_cols_spec : forall {A} a b (row src r : list A), a <= b -> put_cols a b row src = Some r ->
  length r = length row /\ forall c, nth_error r c = if (a <=? c) && (c <? b) then nth_error src (c - a) else nth_error row c.
Proof.
  intros A a b row src r AB E. unfold put_cols in E. destruct (Nat.eqb_spec (length src) (b - a)) as [H|]; [|discriminate E]. destruct (Nat.leb_spec b (length row)) as [H1|]; [|discriminate E]. cbn [andb] in E.
  apply Some_inj in E. subst r. split; [apply splice_length; auto|]. intros c. apply splice_nth; auto.
Qed.
Lemma put_cols_total : forall {A} a b (row src : list A), length src = b - a -> b <= length row -> exists r, put_cols a b row src = Some r.
Proof. intros A a b row src H H1. unfold put_cols. rewrite H, Nat.eqb_refl. destruct (Nat.leb_spec b (length row)); [|lia]. cbn. eauto. Qed.
Lemma put_rows_spec : forall {A} a b (rows src r : list (list A)), a <= b -> put_rows a b rows src = Some r ->
  length r = length rows /\ length src = length rows /\ (forall m, (forall x, In x rows -> length x = m) -> forall x, In x r -> length x = m) /\
  forall k c, k < length rows -> nth2 r k c = if (a <=? c) && (c <? b) then nth2 src k (c - a) else nth2 rows k c.
Proof.
  intros A a b rows src r AB. revert src r. induction rows as [|x rows IH]; intros [|y src] r E; cbn [put_rows] in E; try discriminate E.
  - apply Some_inj in E. subst r. split; [|split; [|split]]; auto. intros k c K. cbn in K. lia.
  - destruct (put_cols a b x y) as [z|] eqn:P; [|discriminate E]. cbn [bind] in E. destruct (put_rows a b rows src) as [rest|] eqn:R; [|discriminate E]. cbn [bind] in E. apply Some_inj in E. subst r.
    destruct (IH _ _ R) as (L1 & L2 & L3 & N). destruct (put_cols_spec _ _ _ _ _ AB P) as (L4 & N4).
    split; [cbn; lia|]. split; [cbn; lia|]. split.
    + intros m M w [<-|I]; [rewrite L4; apply M; left; reflexivity|]. apply (L3 m); [|exact I]. intros; apply M; right; auto.
    + intros [|k] c K; unfold nth2; cbn [nth_error]; [apply N4|]. cbn in K. apply N. lia.
Qed.
Lemma put_rows_total : forall {A} a b (rows src : list (list A)), length src = length rows -> (forall x, In x src -> length x = b - a) -> (forall x, In x rows -> b <= length x) -> exists r, put_rows a b rows src = Some r.
Proof.
  intros A a b rows. induction rows as [|x rows IH]; intros [|y src] L S R; try discriminate L; [eexists; reflexivity|].
  cbn [put_rows]. destruct (put_cols_total a b x y) as (z & ->); [apply S; left; reflexivity|apply R; left; reflexivity|]. cbn [bind].
  destruct (IH src) as (w & ->); [cbn in L; lia|intros; apply S; right; auto|intros; apply R; right; auto|]. cbn. eauto.
Qed.
Lemma nth2_slice : forall {A} (m : list (list A)) i j k c, nth2 (slice m i j) k c = if k <? j - i then nth2 m (i + k) c else None.
Proof. intros. unfold nth2. rewrite fslice. destruct (k <? j - i); reflexivity. Qed.
Lemma assign_block_spec : forall {A} (m r src : list (list A)) oa ob ca cb i j w, assign_block m oa ob ca cb src = Some r -> start_of (length m) oa = i -> stop_of (length m) ob = j -> i <= j -> j <= length m -> ca <= cb ->
  (forall x, In x m -> length x = w) ->
  length src = j - i /\ length r = length m /\ (forall x, In x r -> length x = w) /\
  forall k c, nth2 r k c = if (i <=? k) && (k <? j) && ((ca <=? c) && (c <? cb)) then nth2 src (k - i) (c - ca) else nth2 m k c.
Proof.
  intros A m r src oa ob ca cb i j w E I J IJ JL CC W. unfold assign_block in E. rewrite I, J in E. replace (Nat.max i j) with j in E by lia.
  destruct (put_rows ca cb (slice m i j) src) as [mid|] eqn:P; [|discriminate E]. cbn [bind] in E. apply Some_inj in E. subst r.
  destruct (put_rows_spec _ _ _ _ _ CC P) as (L1 & L2 & L3 & N). rewrite fslice_length in L1, L2. rewrite fslice_length in N.
  assert (LM : length mid = j - i) by lia.
  split; [lia|]. split; [apply splice_length; auto|]. split.
  - intros x X. apply in_app_or in X. destruct X as [X|X]; [apply W; exact (In_firstn_In _ _ _ X) || (rewrite <- (firstn_skipn i m); apply in_or_app; left; exact X)|].
    apply in_app_or in X. destruct X as [X|X].
    + apply (L3 w); [|exact X]. intros y Y. apply W. unfold slice in Y. rewrite <- (firstn_skipn i m). apply in_or_app. right. rewrite <- (firstn_skipn (j - i) (skipn i m)). apply in_or_app. left. exact Y.
    + apply W. rewrite <- (firstn_skipn j m). apply in_or_app. right. exact X.
  - intros k c. unfold nth2 at 1. rewrite (splice_nth m mid i j k IJ JL LM). destruct ((i <=? k) && (k <? j)) eqn:K; cbn [andb]; [|reflexivity].
    apply andb_prop in K. destruct K as (K1 & K2). apply Nat.leb_le in K1. apply Nat.ltb_lt in K2.
    fold (nth2 mid (k - i) c). rewrite N by lia. destruct ((ca <=? c) && (c <? cb)); [reflexivity|].
    rewrite nth2_slice. destruct (Nat.ltb_spec (k - i) (j - i)); [|lia]. f_equal. lia.
Qed.
Lemma assign_block_total : forall {A} (m src : list (list A)) oa ob ca cb i j w, start_of (length m) oa = i -> stop_of (length m) ob = j -> i <= j -> j <= length m -> cb <= w ->
  (forall x, In x m -> length x = w) -> length src = j - i -> (forall x, In x src -> length x = cb - ca) -> exists r, assign_block m oa ob ca cb src = Some r.
Proof.
  intros A m src oa ob ca cb i j w I J IJ JL CC W LS S. unfold assign_block. rewrite I, J. replace (Nat.max i j) with j by lia.
  destruct (put_rows_total ca cb (slice m i j) src) as (mid & ->); [rewrite fslice_length; lia|exact S| |].
  - intros x X. rewrite (W x); [exact CC|]. unfold slice in X. rewrite <- (firstn_skipn i m). apply in_or_app. right. rewrite <- (firstn_skipn (j - i) (skipn i m)). apply in_or_app. left. exact X.
  - cbn. eauto.
Qed.
(** The bounds of slices of [n] rows. *)
Lemma clip_neg : forall n d, 1 <= d -> clip n (- Z.of_nat d)%Z = n - d.
Proof. intros. unfold clip. destruct (Z.ltb_spec (- Z.of_nat d) 0); lia. Qed.
Lemma clip_pos : forall n d, clip n (Z.of_nat d) = Nat.min d n.
Proof. intros. unfold clip. destruct (Z.ltb_spec (Z.of_nat d) 0); lia. Qed.
Lemma nth2_cols : forall {A} (m : list (list A)) a b k c, nth2 (map (fun r => slice r a b) m) k c = if c <? b - a then nth2 m k (a + c) else None.
Proof. intros. unfold nth2. rewrite nth_error_map. destruct (nth_error m k); cbn [option_map]; [apply fslice|]. destruct (c <? b - a); reflexivity. Qed.
Lemma nth2_repeat : forall {A} (x : A) n m r c, r < n -> c < m -> nth2 (repeat (repeat x m) n) r c = Some x.
Proof. intros. unfold nth2. rewrite !nth_error_repeat by assumption. reflexivity. Qed.
Lemma nth2_rect : forall {A} n m (l : list (list A)) r c, rect n m l -> r < n -> c < m -> exists x, nth2 l r c = Some x.
Proof.
  intros A n m l r c (L & R) H H1. unfold nth2. destruct (nth_error_lt_Some l r) as (row & N); [lia|]. rewrite N. apply nth_error_lt_Some. rewrite (R row); [exact H1|]. exact (nth_error_In _ _ N).
Qed.
Definition mval (data : grid) (x y : nat) : option Q := match nth2 data x y with Some (Some v) => Some v | _ => None end.
Lemma value_at_plain : forall data nx ny x y, rect nx ny data -> value_at false data x y = if ((0 <=? x) && (x <? Z.of_nat nx) && (0 <=? y) && (y <? Z.of_nat ny))%Z%bool then mval data (Z.to_nat x) (Z.to_nat y) else None.
Proof.
  intros data nx ny x y (L & R). unfold value_at, mval, nth2. destruct (Z.ltb_spec x 0); destruct (Z.leb_spec 0 x); try lia; cbn [orb andb]; [reflexivity|].
  destruct (Z.ltb_spec y 0); destruct (Z.leb_spec 0 y); try lia; cbn [orb andb]; [rewrite andb_false_r; reflexivity|]. rewrite andb_true_r.
  destruct (nth_error data (Z.to_nat x)) as [row|] eqn:N.
  - pose proof (nth_error_Some_lt _ _ _ N). destruct (Z.ltb_spec x (Z.of_nat nx)); [|lia]. cbn [andb]. destruct (Z.ltb_spec y (Z.of_nat ny)); [reflexivity|].
    replace (nth_error row (Z.to_nat y)) with (@None (option Q)); [reflexivity|]. symmetry. apply nth_error_None. rewrite (R row (nth_error_In _ _ N)). lia.
  - destruct ((x <? Z.of_nat nx)%Z && (y <? Z.of_nat ny)%Z); reflexivity.
Qed.
Lemma nth2_mval : forall nx ny data x y, rect nx ny data -> x < nx -> y < ny -> nth2 data x y = Some (mval data x y).
Proof. intros nx ny data x y R X Y. unfold mval. destruct (nth2_rect _ _ _ x y R X Y) as ([v|] & ->); reflexivity. Qed.
Ltac decide_bools := repeat match goal with
  | |- context [Nat.leb ?a ?b] => destruct (Nat.leb_spec a b); try lia
  | |- context [Nat.ltb ?a ?b] => destruct (Nat.ltb_spec a b); try lia
  | |- context [Z.leb ?a ?b] => destruct (Z.leb_spec a b); try lia
  | |- context [Z.ltb ?a ?b] => destruct (Z.ltb_spec a b); try lia
  end; cbn [andb orb].
Lemma tmp_matrix_spec : forall circular data nx ny i dx dy T, rect nx ny data -> i < ny -> 1 <= dx -> (circular = true -> dx <= nx) ->
  tmp_matrix circular data ny i dx dy (2 * dy + 1) = Some T ->
  rect (2 * dx + nx) (2 * dy + 1) T /\ forall r c, r < 2 * dx + nx -> c < 2 * dy + 1 -> nth2 T r c = Some (value_at circular data (Z.of_nat r - Z.of_nat dx) (Z.of_nat i + (Z.of_nat c - Z.of_nat dy))).
Proof.
  intros circular data nx ny i dx dy T RD I DX CX E. pose proof RD as (L & _). unfold tmp_matrix in E. cbv zeta in E. rewrite L in E.
  set (start := i - dy) in *. set (stop := Nat.min (i + dy + 1) ny) in *. set (ins := dy - (i - start)) in *. set (ine := dy + (stop - i)) in *.
  assert (INS : ins <= ine) by lia. assert (INE : ine <= 2 * dy + 1) by lia.
  assert (FA : forall c, ins <= c <-> dy <= i + c) by (clear -I; intros; subst ins start; lia).
  assert (FB : forall c, c < 2 * dy + 1 -> (c < ine <-> i + c < ny + dy)) by (clear -I; intros; subst ine stop; lia).
  assert (FC : forall c, ins <= c -> start + (c - ins) = i + c - dy) by (clear; intros; subst ins start; lia).
  assert (FD : forall c, ins <= c -> c < ine -> c - ins < stop - start) by (clear -I; intros; subst ins ine start stop; lia).
  clearbody ins ine. clearbody start stop.
  set (T0 := repeat (repeat (@None Q) (2 * dy + 1)) (2 * dx + nx)) in *.
  assert (LT0 : length T0 = 2 * dx + nx) by (unfold T0; rewrite repeat_length; reflexivity).
  assert (WT0 : forall x, In x T0 -> length x = 2 * dy + 1). { intros x X. apply repeat_spec in X. subst x. apply repeat_length. }
  assert (NT0 : forall r c, r < 2 * dx + nx -> c < 2 * dy + 1 -> nth2 T0 r c = Some None) by (intros; apply nth2_repeat; assumption).
  clearbody T0. destruct circular; cbn [bind] in E.
  - specialize (CX eq_refl).
    destruct (assign_block T0 None (Some (Z.of_nat dx)) ins ine _) as [T1|] eqn:E1; [|discriminate E]. cbn [bind] in E.
    destruct (assign_block T1 (Some (- Z.of_nat dx)%Z) None ins ine _) as [T2|] eqn:E2; [|discriminate E]. cbn [bind] in E.
    destruct (assign_block_spec _ _ _ _ _ _ _ 0 dx (2 * dy + 1) E1 ltac:(reflexivity) ltac:(rewrite LT0; cbn [stop_of]; rewrite clip_pos; lia) ltac:(lia) ltac:(lia) INS WT0) as (S1 & L1 & W1 & N1). rewrite LT0 in L1.
    destruct (assign_block_spec _ _ _ _ _ _ _ (dx + nx) (2 * dx + nx) (2 * dy + 1) E2 ltac:(rewrite L1; cbn [start_of]; rewrite clip_neg; lia) ltac:(rewrite L1; reflexivity) ltac:(lia) ltac:(lia) INS W1) as (S2 & L2 & W2 & N2). rewrite L1 in L2.
    destruct (assign_block_spec _ _ _ _ _ _ _ dx (dx + nx) (2 * dy + 1) E ltac:(rewrite L2; cbn [start_of]; rewrite clip_pos; lia) ltac:(rewrite L2; cbn [stop_of]; rewrite clip_neg; lia) ltac:(lia) ltac:(lia) INS W2) as (S3 & L3 & W3 & N3). rewrite L2 in L3.
    split; [split; [exact L3|exact W3]|]. intros r c R C. rewrite N3, N2, N1, NT0 by assumption. rewrite !nth2_cols.
    set (v := value_at true data _ _). unfold pyslice. cbn [start_of stop_of]. rewrite clip_pos, clip_neg by exact DX. rewrite !nth2_slice. rewrite L.
    assert (V : v = if (ins <=? c) && (c <? ine) then mval data (Z.to_nat ((Z.of_nat r - Z.of_nat dx) mod Z.of_nat nx)) (i + c - dy) else None).
    { unfold v. unfold value_at. rewrite L. set (xm := ((Z.of_nat r - Z.of_nat dx) mod Z.of_nat nx)%Z).
      assert (XM : (0 <= xm < Z.of_nat nx)%Z) by (apply Z.mod_pos_bound; lia). clearbody xm. destruct (Z.ltb_spec xm 0); [lia|]. cbn [orb].
      specialize (FA c). specialize (FB c C). clear -FA FB RD C. destruct (Nat.leb_spec ins c); cbn [andb].
      - destruct (Nat.ltb_spec c ine); cbn [andb].
        + destruct (Z.ltb_spec (Z.of_nat i + (Z.of_nat c - Z.of_nat dy)) 0); [lia|]. unfold mval, nth2. replace (Z.to_nat (Z.of_nat i + (Z.of_nat c - Z.of_nat dy))) with (i + c - dy) by lia. destruct (nth_error data (Z.to_nat xm)); reflexivity.
        + destruct (Z.ltb_spec (Z.of_nat i + (Z.of_nat c - Z.of_nat dy)) 0); [reflexivity|]. destruct (nth_error data (Z.to_nat xm)) as [row|] eqn:NR; [|reflexivity].
          replace (nth_error row _) with (@None (option Q)); [reflexivity|]. symmetry. apply nth_error_None. destruct RD as (_ & RR). rewrite (RR row (nth_error_In _ _ NR)). lia.
      - destruct (Z.ltb_spec (Z.of_nat i + (Z.of_nat c - Z.of_nat dy)) 0); [reflexivity|]. lia. }
    rewrite V. clear V v. destruct ((ins <=? c) && (c <? ine)) eqn:C1; [|rewrite !andb_false_r; reflexivity]. apply andb_prop in C1. destruct C1 as (C1 & C2). apply Nat.leb_le in C1. apply Nat.ltb_lt in C2.
    rewrite !andb_true_r. rewrite FC by exact C1. specialize (FD c C1 C2).
    destruct (Nat.ltb_spec (c - ins) (stop - start)); [|lia].
    assert (YN : i + c - dy < ny) by (specialize (FB c C); clear -FB C2 I; lia). clear -RD R YN DX CX. cbn [andb].
    destruct (Nat.leb_spec dx r) as [R1|R1]; [destruct (Nat.ltb_spec r (dx + nx)) as [R2|R2]|]; cbn [andb].
    + rewrite Z.mod_small by lia. rewrite (nth2_mval nx ny) by (auto; lia). f_equal. f_equal. lia.
    + destruct (Nat.leb_spec (dx + nx) r); [|lia]. destruct (Nat.ltb_spec r (2 * dx + nx)); [|lia]. cbn [andb].
      destruct (Nat.ltb_spec (r - (dx + nx)) (Nat.min dx nx - 0)); [|lia]. rewrite (nth2_mval nx ny) by (auto; lia). f_equal. f_equal.
      replace (Z.of_nat r - Z.of_nat dx)%Z with (Z.of_nat (r - (dx + nx)) + 1 * Z.of_nat nx)%Z by lia. rewrite Z_mod_plus_full. rewrite Z.mod_small by lia. lia.
    + destruct (Nat.leb_spec (dx + nx) r); [lia|]. cbn [andb]. cbn [Nat.leb]. destruct (Nat.ltb_spec r dx); [|lia]. cbn [andb].
      destruct (Nat.ltb_spec (r - 0) (nx - (nx - dx))); [|lia]. rewrite (nth2_mval nx ny) by (auto; lia). f_equal. f_equal.
      replace (Z.of_nat r - Z.of_nat dx)%Z with (Z.of_nat (nx - dx + r) + (-1) * Z.of_nat nx)%Z by lia. rewrite Z_mod_plus_full. rewrite Z.mod_small by lia. lia.
  - destruct (assign_block_spec _ _ _ _ _ _ _ dx (dx + nx) (2 * dy + 1) E ltac:(rewrite LT0; cbn [start_of]; rewrite clip_pos; lia) ltac:(rewrite LT0; cbn [stop_of]; rewrite clip_neg; lia) ltac:(lia) ltac:(lia) INS WT0) as (S3 & L3 & W3 & N3). rewrite LT0 in L3.
    split; [split; [exact L3|exact W3]|]. intros r c R C. rewrite N3, NT0 by assumption. rewrite nth2_cols.
    rewrite (value_at_plain data nx ny) by exact RD. specialize (FA c). specialize (FB c C). specialize (FC c). specialize (FD c). clear -FA FB FC FD RD R C DX.
    destruct (Nat.leb_spec dx r); destruct (Z.leb_spec 0 (Z.of_nat r - Z.of_nat dx)); try lia; cbn [andb]; [|reflexivity].
    destruct (Nat.ltb_spec r (dx + nx)); destruct (Z.ltb_spec (Z.of_nat r - Z.of_nat dx) (Z.of_nat nx)); try lia; cbn [andb]; [|reflexivity].
    destruct (Nat.leb_spec ins c); destruct (Z.leb_spec 0 (Z.of_nat i + (Z.of_nat c - Z.of_nat dy))); try lia; cbn [andb]; [|reflexivity].
    destruct (Nat.ltb_spec c ine); destruct (Z.ltb_spec (Z.of_nat i + (Z.of_nat c - Z.of_nat dy)) (Z.of_nat ny)); try lia; cbn [andb]; [|reflexivity].
    destruct (Nat.ltb_spec (c - ins) (stop - start)); [|lia]. rewrite FC by assumption. clear FA FB FC FD. rewrite (nth2_mval nx ny) by (auto; lia). f_equal. f_equal; lia.
Qed.
