(** * C143: the boxes in which the low pass filter of a curvilinear grid averages
    the nodes *)
From Coq Require Import List Arith Bool ZArith QArith Qround Lia Lqa.
From Verif Require Import Base Qaux Lowf_model.
Import ListNotations.
Local Close Scope Q_scope.
Local Open Scope nat_scope.

(** ** Specification *)
Definition nq (n : nat) : Q := inject_Z (Z.of_nat n).
(** [v] is in the interval of width [s] which begins at [a]; the last interval of
    an axis holds its end too. *)
Definition held (is_last : Prop) (a s v : Q) : Prop := (a <= v /\ (v < a + s \/ is_last /\ v == a + s))%Q.
(** A box, given by its column and its row. *)
Definition in_box_of (xs ys : list Q) (s : Q) (i j : nat) (p : Q * Q) : Prop :=
  i < length xs /\ j < length ys /\
  held (S i = length xs) (nth i xs 0%Q) s (fst p) /\ held (S j = length ys) (nth j ys 0%Q) s (snd p).
(** The value of a box: masked without sample, else the mean of the samples. *)
Definition mean_of (l : list Q) (v : option Q) : Prop :=
  match l with [] => v = None | _ => exists m, v = Some m /\ (m * nq (length l) == Qsum l)%Q end.
(** The samples: position and value of the nodes which are not masked. *)
Definition sample_of (l : list node) (p : Q * Q) (z : Q) : Prop := In (p, Some z) l.

(** ** Proofs *)
Lemma arange_len : forall a b s, length (arange a b s) = Z.to_nat (Qceiling ((b - a) / s)%Q).
Proof. intros. unfold arange. rewrite map_length, seq_length. reflexivity. Qed.
Lemma arange_nth : forall a b s i, i < length (arange a b s) -> nth i (arange a b s) 0%Q = (a + nq i * s)%Q.
Proof.
  intros a b s i H. rewrite arange_len in H. unfold arange.
  rewrite (nth_indep _ 0%Q (a + inject_Z (Z.of_nat 0) * s)%Q) by (rewrite map_length, seq_length; exact H).
  rewrite (map_nth (fun i => a + inject_Z (Z.of_nat i) * s)%Q). rewrite seq_nth by exact H. reflexivity.
Qed.
Lemma nq_S : forall n, (nq (S n) == nq n + 1)%Q.
Proof. intros. unfold nq. rewrite Nat2Z.inj_succ. unfold Z.succ. rewrite inject_Z_plus. reflexivity. Qed.
Lemma nq_le : forall a b, a <= b -> (nq a <= nq b)%Q.
Proof. intros. unfold nq. rewrite <- Zle_Qle. lia. Qed.
Lemma nq_lt : forall a b, a < b -> (nq a + 1 <= nq b)%Q.
Proof. intros. rewrite <- nq_S. apply nq_le. lia. Qed.

Lemma count_spec : forall a s v, (0 < s)%Q -> forall n, let k := length (filter (fun e => Qle_bool e v) (map (fun i => a + inject_Z (Z.of_nat i) * s)%Q (seq 0 n))) in
  k <= n /\ forall i, i < n -> (i < k <-> (a + nq i * s <= v)%Q).
Proof.
  intros a s v S0. induction n as [|n IH]; cbn zeta in *.
  - cbn. split; [lia|]. intros i Hi. lia.
  - rewrite seq_S, map_app, filter_app, app_length. destruct IH as [K IH].
    set (k := length (filter _ (map _ (seq 0 n)))) in *. cbn [map filter Nat.add].
    destruct (Qle_bool (a + inject_Z (Z.of_nat n) * s) v) eqn:E; cbn [length].
    + apply Qle_bool_iff in E. fold (nq n) in E.
      assert (k = n) as ->.
      { destruct (Nat.eq_dec k n) as [|NE]; [assumption|]. exfalso. assert (k < n) by lia.
        pose proof (proj2 (IH k H)) as Q1. assert ((a + nq k * s <= v)%Q); [|specialize (Q1 H0); lia].
        pose proof (nq_lt k n H). nra. }
      split; [lia|]. intros i Hi. split; [intros _|intros _; lia].
      assert ((nq i <= nq n)%Q) by (apply nq_le; lia). nra.
    + assert (~ (a + nq n * s <= v)%Q) as E' by (intros X; apply Qle_bool_iff in X; unfold nq in X; congruence).
      rewrite Nat.add_0_r. split; [lia|]. intros i Hi. destruct (Nat.eq_dec i n) as [->|NE].
      * split; [lia|]. intros X. contradiction.
      * apply IH. lia.
Qed.

Lemma last_nth : forall (l : list Q), last l 0%Q = nth (length l - 1) l 0%Q.
Proof.
  induction l as [|a l IH]; [reflexivity|]. destruct l as [|b l]; [reflexivity|].
  change (last (a :: b :: l) 0%Q) with (last (b :: l) 0%Q). rewrite IH. cbn [length].
  replace (S (S (length l)) - 1) with (S (S (length l) - 1)) by lia. reflexivity.
Qed.

Lemma bin_spec : forall a b s v i, (0 < s)%Q -> let e := arange a b s in
  bin e v = Some i <-> (S i < length e /\ held (S (S i) = length e) (a + nq i * s) s v).
Proof.
  intros a b s v i S0 e. unfold bin.
  destruct (count_spec a s v S0 (Z.to_nat (Qceiling ((b - a) / s)%Q))) as [K C].
  fold (arange a b s) in K, C. fold e in K, C. rewrite <- (arange_len a b s) in K, C. fold e in K, C. cbn zeta.
  set (k := length (filter _ e)) in *.
  destruct (length e) as [|n] eqn:LE.
  { replace k with 0 by lia. destruct (Qeq_bool v (last e 0%Q)); cbn; split; try discriminate; intros [X _]; lia. }
  assert (LS : last e 0%Q = (a + nq n * s)%Q).
  { rewrite last_nth, LE. replace (S n - 1) with n by lia. apply arange_nth. fold e. lia. }
  rewrite LS. unfold held.
  assert (NL : forall j, j < S n -> (v < a + nq j * s)%Q <-> k <= j).
  { intros j Hj. specialize (C j Hj). split; intros X.
    - destruct (le_lt_dec k j) as [|G]; [assumption|]. apply C in G. lra.
    - apply Qnot_le_lt. intros G. apply C in G. lia. }
  destruct (Qeq_bool v (a + nq n * s)) eqn:EQ.
  - apply Qeq_bool_iff in EQ.
    assert (k = S n) as -> by (assert (n < k); [apply C; [lia|lra]|lia]).
    replace (S n - 1) with n by lia.
    destruct n as [|n].
    + cbn. split; [discriminate|]. intros [X _]. lia.
    + replace ((1 <=? S n) && (S n <? S (S n))) with true by (symmetry; apply andb_true_iff; split; [apply Nat.leb_le|apply Nat.ltb_lt]; lia).
      replace (S n - 1) with n by lia. split.
      * intros [= <-]. split; [lia|]. pose proof (nq_S n). split; [nra|]. right. split; [lia|]. nra.
      * intros (L & A & [B|[B1 B2]]); [|f_equal; lia]. f_equal. destruct (Nat.eq_dec n i) as [|NE]; [assumption|].
        exfalso. pose proof (nq_S i). pose proof (nq_lt (S i) (S n)). assert ((nq (S i) + 1 <= nq (S n))%Q) by (apply H0; lia). nra.
  - assert (NEQ : ~ (v == a + nq n * s)%Q) by (intros X; apply Qeq_bool_iff in X; congruence).
    destruct ((1 <=? k) && (k <? S n)) eqn:G.
    + apply andb_true_iff in G. destruct G as [G1 G2]. apply Nat.leb_le in G1. apply Nat.ltb_lt in G2.
      pose proof (nq_S i). split.
      * intros [= <-]. split; [lia|]. split; [apply C; lia|]. left.
        assert ((v < a + nq k * s)%Q) by (apply NL; lia).
        replace k with (S (k - 1)) in H0 at 1 by lia. nra.
      * intros (L & A & [B|[B1 B2]]).
        -- f_equal. apply C in A; [|lia]. assert (k <= S i); [apply NL; [lia|]; nra|]. lia.
        -- exfalso. apply NEQ. replace n with (S i) by lia. nra.
    + split; [discriminate|]. intros (L & A & B). exfalso. apply andb_false_iff in G.
      apply C in A; [|lia]. destruct G as [G|G]; [apply Nat.leb_gt in G; lia|]. apply Nat.ltb_ge in G.
      pose proof (nq_S i). destruct B as [B|[B1 B2]].
      * assert (k <= S i); [apply NL; [lia|]; nra|]. lia.
      * apply NEQ. replace n with (S i) by lia. nra.
Qed.

Definition is_bound (low : bool) (m : Q) (l : list Q) : Prop := In m l /\ forall v, In v l -> (if low then m <= v else v <= m)%Q.
Lemma lowest_spec : forall l a, is_bound true (lowest a l) (a :: l).
Proof.
  induction l as [|b l IH]; intros a; cbn [lowest].
  - split; [left; reflexivity|]. intros v [<-|[]]. lra.
  - destruct (Qle_bool a b) eqn:E.
    + apply Qle_bool_iff in E. destruct (IH a) as [I L]. split.
      * destruct I as [I|I]; [left; exact I|right; right; exact I].
      * intros v [<-|[<-|V]]; [apply L; left; reflexivity| |apply L; right; exact V].
        assert (lowest a l <= a)%Q by (apply L; left; reflexivity). lra.
    + assert (b <= a)%Q by (destruct (Qlt_le_dec a b) as [X|X]; [apply Qlt_le_weak in X; apply Qle_bool_iff in X; congruence|exact X]).
      destruct (IH b) as [I L]. split.
      * right. exact I.
      * intros v [<-|V]; [|apply L; exact V]. assert (lowest b l <= b)%Q by (apply L; left; reflexivity). lra.
Qed.
Lemma highest_spec : forall l a, is_bound false (highest a l) (a :: l).
Proof.
  induction l as [|b l IH]; intros a; cbn [highest].
  - split; [left; reflexivity|]. intros v [<-|[]]. lra.
  - destruct (Qle_bool b a) eqn:E.
    + apply Qle_bool_iff in E. destruct (IH a) as [I L]. split.
      * destruct I as [I|I]; [left; exact I|right; right; exact I].
      * intros v [<-|[<-|V]]; [apply L; left; reflexivity| |apply L; right; exact V].
        assert (a <= highest a l)%Q by (apply L; left; reflexivity). lra.
    + assert (a <= b)%Q by (destruct (Qlt_le_dec b a) as [X|X]; [apply Qlt_le_weak in X; apply Qle_bool_iff in X; congruence|exact X]).
      destruct (IH b) as [I L]. split.
      * right. exact I.
      * intros v [<-|V]; [|apply L; exact V]. assert (b <= highest b l)%Q by (apply L; left; reflexivity). lra.
Qed.

Lemma step_pos : forall w f, (0 < w -> 0 < f -> 0 < regrid_step w f)%Q.
Proof. intros. unfold regrid_step. apply Qlt_shift_div_l; [assumption|]. rewrite Qmult_0_l. apply Qlt_shift_div_l; lra. Qed.

Lemma removelast_len : forall (l : list Q), length (removelast l) = length l - 1.
Proof. intros. rewrite removelast_firstn_len, firstn_length. lia. Qed.
Lemma removelast_nth : forall (l : list Q) i, i < length l - 1 -> nth i (removelast l) 0%Q = nth i l 0%Q.
Proof.
  induction l as [|a l IH]; intros i H; [reflexivity|]. destruct l as [|b l]; [cbn in H; lia|].
  destruct i; [reflexivity|]. cbn [removelast nth]. apply IH. cbn [length] in *. lia.
Qed.

(** Number of steps from [a] to the last edge below [b]. *)
Lemma arange_end : forall a b s, (0 < s -> a < b)%Q -> (0 < s)%Q -> let n := length (arange a b s) in
  0 < n /\ (a + nq (n - 1) * s < b)%Q /\ (b <= a + nq n * s)%Q.
Proof.
  intros a b s H0 S0 n. specialize (H0 S0). unfold n. rewrite arange_len. set (q := ((b - a) / s)%Q).
  assert (q * s == b - a)%Q as E by (unfold q; field; lra).
  assert (0 < q)%Q by (unfold q; apply Qlt_shift_div_l; lra).
  pose proof (Qle_ceiling q) as C1. pose proof (Qceiling_lt q) as C2.
  assert (0 < Qceiling q)%Z as P by (rewrite Zlt_Qlt; change (inject_Z 0) with 0%Q; lra).
  assert (nq (Z.to_nat (Qceiling q)) == inject_Z (Qceiling q))%Q as N1 by (unfold nq; rewrite Z2Nat.id by lia; reflexivity).
  assert (nq (Z.to_nat (Qceiling q) - 1) == inject_Z (Qceiling q - 1))%Q as N2 by (unfold nq; rewrite Nat2Z.inj_sub by lia; rewrite Z2Nat.id by lia; reflexivity).
  split; [lia|]. rewrite N1, N2. split; nra.
Qed.

Definition xs_of (l : list node) := map (fun n : node => fst (fst n)) l.
Definition ys_of (l : list node) := map (fun n : node => snd (fst n)) l.
Lemma regrid_inv : forall w f l xs ys z, regrid w f l = Some (xs, ys, z) -> exists x0 x1 y0 y1,
  is_bound true x0 (xs_of l) /\ is_bound false x1 (xs_of l) /\ is_bound true y0 (ys_of l) /\ is_bound false y1 (ys_of l) /\
  let e := edges x0 x1 y0 y1 (regrid_step w f) in
  xs = removelast (fst e) /\ ys = removelast (snd e) /\
  z = map (fun i => map (fun j => z_box e (valid l) i j) (seq 0 (length ys))) (seq 0 (length xs)).
Proof.
  intros w f [|n l'] xs ys z H; [discriminate|]. cbn [regrid] in H. unfold xs_of, ys_of. cbn [map].
  set (lx := map (fun n : node => fst (fst n)) l'). set (ly := map (fun n : node => snd (fst n)) l').
  exists (lowest (fst (fst n)) lx), (highest (fst (fst n)) lx), (lowest (snd (fst n)) ly), (highest (snd (fst n)) ly).
  split; [apply lowest_spec|]. split; [apply highest_spec|]. split; [apply lowest_spec|]. split; [apply highest_spec|].
  cbn zeta. injection H as <- <- <-. split; [reflexivity|]. split; [reflexivity|].
  rewrite !removelast_len. reflexivity.
Qed.

Lemma bin_held : forall a b s v i, (0 < s)%Q -> let e := arange a b s in
  bin e v = Some i <-> (i < length (removelast e) /\ held (S i = length (removelast e)) (nth i (removelast e) 0%Q) s v).
Proof.
  intros a b s v i S0 e. pose proof (bin_spec a b s v i S0) as BS. cbn zeta in BS. fold e in BS. rewrite BS. rewrite removelast_len. split.
  - intros [L H]. split; [lia|]. rewrite removelast_nth by lia. unfold e at 2. rewrite (arange_nth a b s i) by (fold e; lia).
    destruct H as [A B]. split; [exact A|]. destruct B as [B|[B1 B2]]; [left; exact B|right; split; [lia|exact B2]].
  - intros [L H]. split; [lia|]. rewrite removelast_nth in H by lia. unfold e at 2 in H. rewrite (arange_nth a b s i) in H by (fold e; lia).
    destruct H as [A B]. split; [exact A|]. destruct B as [B|[B1 B2]]; [left; exact B|right; split; [lia|exact B2]].
Qed.

Lemma in_box_iff : forall x0 x1 y0 y1 s i j p, (0 < s)%Q -> let e := edges x0 x1 y0 y1 s in
  in_box e i j p = true <-> in_box_of (removelast (fst e)) (removelast (snd e)) s i j (fst p).
Proof.
  intros x0 x1 y0 y1 s i j p S0 e. unfold in_box, in_box_of.
  pose proof (fun i => bin_held x0 (x1 + s) s (fst (fst p)) i S0) as BX. cbn zeta in BX.
  pose proof (fun i => bin_held y0 (if Qle_bool 89 (y1 + s) then 89 else y1 + s)%Q s (snd (fst p)) i S0) as BY. cbn zeta in BY.
  change (arange x0 (x1 + s) s) with (fst e) in BX.
  change (arange y0 (if Qle_bool 89 (y1 + s) then 89 else y1 + s)%Q s) with (snd e) in BY.
  split.
  - destruct (bin (fst e) _) as [a|]; [|discriminate]. destruct (bin (snd e) _) as [b|]; [|discriminate].
    intros H. apply andb_true_iff in H. destruct H as [H1 H2]. apply Nat.eqb_eq in H1, H2. subst a b.
    destruct (proj1 (BX i) eq_refl). destruct (proj1 (BY j) eq_refl). tauto.
  - intros (A & B & C & D). rewrite (proj2 (BX i) (conj A C)), (proj2 (BY j) (conj B D)). rewrite !Nat.eqb_refl. reflexivity.
Qed.

Lemma valid_in : forall l p z, In (p, z) (valid l) <-> sample_of l p z.
Proof.
  unfold sample_of. induction l as [|[q [y|]] l IH]; intros p z; cbn [valid In].
  - tauto.
  - rewrite IH. split; intros [E|I]; auto; left; injection E as -> ->; reflexivity.
  - rewrite IH. split; [intros I; right; exact I|]. intros [E|I]; [discriminate|exact I].
Qed.

Lemma grid_nth : forall {A} (g : nat -> nat -> A) n m i j c v, nth_error (map (fun i => map (g i) (seq 0 m)) (seq 0 n)) i = Some c -> nth_error c j = Some v -> i < n /\ j < m /\ v = g i j.
Proof.
  intros A g n m i j c v H1 H2.
  assert (i < n) as Hi by (assert (i < length (map (fun i => map (g i) (seq 0 m)) (seq 0 n))) by (apply nth_error_Some; congruence); rewrite map_length, seq_length in *; assumption).
  rewrite nth_error_map, (nth_error_nth' _ 0), seq_nth in H1 by (try rewrite seq_length; lia). cbn in H1. injection H1 as <-.
  assert (j < m) as Hj by (assert (j < length (map (g i) (seq 0 m))) by (apply nth_error_Some; congruence); rewrite map_length, seq_length in *; assumption).
  rewrite nth_error_map, (nth_error_nth' _ 0), seq_nth in H2 by (try rewrite seq_length; lia). cbn in H2. injection H2 as <-. auto.
Qed.

(** ** C143 *)

(** The boxes: regular corners from the lowest node, as many as needed to reach
    the highest one; in latitude, they stop before 89. *)
Theorem C143_corners : forall w f l xs ys z, (0 < w)%Q -> (0 < f)%Q -> regrid w f l = Some (xs, ys, z) ->
  let s := (w / 111 / f)%Q in
  length z = length xs /\ (forall c, In c z -> length c = length ys) /\
  exists x0 x1 y0 y1,
    is_bound true x0 (xs_of l) /\ is_bound false x1 (xs_of l) /\ is_bound true y0 (ys_of l) /\ is_bound false y1 (ys_of l) /\
    (forall i, i < length xs -> nth i xs 0%Q = (x0 + nq i * s)%Q) /\ (forall j, j < length ys -> nth j ys 0%Q = (y0 + nq j * s)%Q) /\
    (x1 <= x0 + nq (length xs) * s < x1 + s)%Q /\
    (y1 + s <= 89 -> y1 <= y0 + nq (length ys) * s < y1 + s)%Q /\
    (89 < y1 + s -> y0 < 89 -> y0 + nq (length ys) * s < 89 <= y0 + nq (length ys) * s + s)%Q.
Proof.
  intros w f l xs ys z W F H s. pose proof (step_pos w f W F) as S0. fold s in S0. change (regrid_step w f) with s in *.
  destruct (regrid_inv _ _ _ _ _ _ H) as (x0 & x1 & y0 & y1 & BX0 & BX1 & BY0 & BY1 & EX & EY & EZ).
  change (regrid_step w f) with s in *. unfold edges in EX, EY. cbn [fst snd] in EX, EY.
  split; [rewrite EZ, map_length, seq_length; reflexivity|].
  split; [intros c I; rewrite EZ in I; apply in_map_iff in I; destruct I as (i & <- & _); rewrite map_length, seq_length; reflexivity|].
  exists x0, x1, y0, y1. do 4 (split; [assumption|]).
  assert (x0 <= x1)%Q as LX by (apply BX0; apply BX1).
  assert (y0 <= y1)%Q as LY by (apply BY0; apply BY1).
  split; [intros i Hi; rewrite EX in *; rewrite removelast_len in Hi; rewrite removelast_nth by exact Hi; apply arange_nth; lia|].
  split; [intros i Hi; rewrite EY in *; rewrite removelast_len in Hi; rewrite removelast_nth by exact Hi; apply arange_nth; lia|].
  assert (G : forall a b, (a < b)%Q -> let n := length (removelast (arange a b s)) in (a + nq n * s < b)%Q /\ (b <= a + nq n * s + s)%Q).
  { intros a b L n. unfold n. rewrite removelast_len. destruct (arange_end a b s (fun _ => L) S0) as (P & A & B).
    split; [exact A|]. pose proof (nq_S (length (arange a b s) - 1)) as N. replace (S (length (arange a b s) - 1)) with (length (arange a b s)) in N by lia. nra. }
  split; [destruct (G x0 (x1 + s)%Q) as [A B]; [lra|]; rewrite <- EX in A, B; lra|].
  split; intros Y.
  - destruct (Qle_bool 89 (y1 + s)) eqn:Q1.
    + apply Qle_bool_iff in Q1. destruct (Qlt_le_dec y0 89) as [L|L]; [|lra].
      destruct (G y0 89%Q L) as [A B]. rewrite <- EY in A, B. lra.
    + destruct (G y0 (y1 + s)%Q) as [A B]; [lra|]. rewrite <- EY in A, B. lra.
  - intros L. destruct (Qle_bool 89 (y1 + s)) eqn:Q1; [|assert (89 <= y1 + s)%Q as X by lra; apply Qle_bool_iff in X; congruence].
    destruct (G y0 89%Q L) as [A B]. rewrite <- EY in A, B. lra.
Qed.
Print Assumptions C143_corners.

(** The value of each box is the mean of the nodes it holds which are not masked;
    it lies between the smallest and the largest of them; a box without such a
    node is masked. *)
Theorem C143_value : forall w f l xs ys z, (0 < w)%Q -> (0 < f)%Q -> regrid w f l = Some (xs, ys, z) ->
  forall i j c v, nth_error z i = Some c -> nth_error c j = Some v ->
  let s := (w / 111 / f)%Q in
  (exists p : Q * Q * Q -> bool, (forall a, p a = true <-> in_box_of xs ys s i j (fst a)) /\ mean_of (map snd (filter p (valid l))) v) /\
  (v = None <-> forall p y, sample_of l p y -> ~ in_box_of xs ys s i j p) /\
  (forall m lo hi, v = Some m -> (forall p y, sample_of l p y -> in_box_of xs ys s i j p -> lo <= y <= hi)%Q -> (lo <= m <= hi)%Q).
Proof.
  intros w f l xs ys z W F H i j c v Hi Hj s. pose proof (step_pos w f W F) as S0. fold s in S0. change (regrid_step w f) with s in *.
  destruct (regrid_inv _ _ _ _ _ _ H) as (x0 & x1 & y0 & y1 & _ & _ & _ & _ & EX & EY & EZ). change (regrid_step w f) with s in *.
  set (e := edges x0 x1 y0 y1 s) in *. rewrite EZ in Hi. destruct (grid_nth _ _ _ _ _ _ _ Hi Hj) as (Li & Lj & V).
  assert (P : forall a, in_box e i j a = true <-> in_box_of xs ys s i j (fst a)) by (intros a; rewrite EX, EY; apply in_box_iff; exact S0).
  unfold z_box, nb_value, sum_value in V.
  assert (M : mean_of (map snd (filter (in_box e i j) (valid l))) v).
  { destruct (filter (in_box e i j) (valid l)) as [|a r] eqn:E; [exact V|]. cbn [map mean_of].
    change (snd a :: map snd r) with (map snd (a :: r)). rewrite map_length. set (T := Qsum (map snd (a :: r))) in *.
    cbn [length] in V. eexists. split; [exact V|]. change (inject_Z (Z.of_nat (S (length r)))) with (nq (length (a :: r))).
    assert (0 < nq (length (a :: r)))%Q by (unfold nq; rewrite (Zlt_Qlt 0 _) || idtac; change 0%Q with (inject_Z 0); rewrite <- Zlt_Qlt; cbn [length]; lia).
    field. lra. }
  split; [exists (in_box e i j); split; assumption|].
  assert (IN : forall a, In a (filter (in_box e i j) (valid l)) <-> sample_of l (fst a) (snd a) /\ in_box_of xs ys s i j (fst a)).
  { intros [p y]. rewrite filter_In, P, valid_in. reflexivity. }
  split.
  - split.
    + intros -> p y A B. destruct (filter (in_box e i j) (valid l)) as [|a r] eqn:E.
      * apply (proj2 (IN (p, y))). split; assumption.
      * destruct M as (m & X & _). discriminate.
    + intros N. destruct (filter (in_box e i j) (valid l)) as [|a r] eqn:E; [exact M|]. exfalso.
      destruct (proj1 (IN a) (or_introl eq_refl)) as [A B]. exact (N _ _ A B).
  - intros m lo hi -> Y. set (r := filter (in_box e i j) (valid l)) in *.
    assert (Bd : forall r', (forall a, In a r' -> In a r) -> (nq (length r') * lo <= Qsum (map snd r') <= nq (length r') * hi)%Q).
    { induction r' as [|a r' IH]; intros I; [cbn [map Qsum length]; assert (nq 0 == 0)%Q as N0 by reflexivity; rewrite N0; split; lra|]. cbn [map Qsum length].
      destruct (IH (fun b Hb => I b (or_intror Hb))) as [A B]. pose proof (nq_S (length r')).
      destruct (proj1 (IN a) (I a (or_introl eq_refl))) as [C D]. destruct (Y _ _ C D). split; nra. }
    specialize (Bd r (fun _ h => h)). rewrite <- (map_length snd r) in Bd. destruct (map snd r) as [|q t] eqn:E; [discriminate M|].
    destruct M as (m' & X & Y'). injection X as <-.
    assert (1 <= nq (length (q :: t)))%Q by (unfold nq; change 1%Q with (inject_Z 1); rewrite <- Zle_Qle; cbn [length]; lia).
    split; nra.
Qed.
Print Assumptions C143_value.

Lemma bin_exists : forall a b s v, (0 < s)%Q -> let e := arange a b s in
  2 <= length e -> (a <= v)%Q -> (v <= a + nq (length e - 1) * s)%Q -> exists i, bin e v = Some i.
Proof.
  intros a b s v S0 e L A B. unfold bin.
  destruct (count_spec a s v S0 (Z.to_nat (Qceiling ((b - a) / s)%Q))) as [K C].
  fold (arange a b s) in K, C. fold e in K, C. rewrite <- (arange_len a b s) in K, C. fold e in K, C. cbn zeta.
  set (k := length (filter _ e)) in *.
  assert (K1 : 1 <= k). { assert (0 < k); [|lia]. apply C; [lia|]. assert (nq 0 == 0)%Q as N0 by reflexivity. rewrite N0. lra. }
  assert (LS : last e 0%Q = (a + nq (length e - 1) * s)%Q) by (rewrite last_nth; apply arange_nth; fold e; lia).
  rewrite LS. destruct (Qeq_bool v (a + nq (length e - 1) * s)) eqn:EQ.
  - apply Qeq_bool_iff in EQ. assert (length e - 1 < k) by (apply C; [lia|lra]).
    replace k with (length e) by lia.
    replace ((1 <=? length e - 1) && (length e - 1 <? length e)) with true by (symmetry; apply andb_true_iff; split; [apply Nat.leb_le|apply Nat.ltb_lt]; lia).
    eexists. reflexivity.
  - assert (k <> length e).
    { intros E. assert (a + nq (length e - 1) * s <= v)%Q by (apply C; lia).
      assert (v == a + nq (length e - 1) * s)%Q as X by lra. apply Qeq_bool_iff in X. congruence. }
    replace ((1 <=? k) && (k <? length e)) with true by (symmetry; apply andb_true_iff; split; [apply Nat.leb_le|apply Nat.ltb_lt]; lia).
    eexists. reflexivity.
Qed.
Lemma last_removelast : forall a b s, (0 < s)%Q -> let e := arange a b s in removelast e <> [] -> 2 <= length e /\ last (removelast e) 0%Q = (a + nq (length e - 2) * s)%Q.
Proof.
  intros a b s S0 e NE. assert (1 <= length (removelast e)) as L by (destruct (removelast e); [contradiction|cbn; lia]).
  rewrite removelast_len in L. split; [lia|]. rewrite last_nth, removelast_len, removelast_nth by lia.
  replace (length e - 1 - 1) with (length e - 2) by lia. apply arange_nth. fold e. lia.
Qed.

(** No position is in two boxes; every node is in a box as soon as its latitude
    does not pass the end of the last row; no box holds a position at 89 or above. *)
Theorem C143_one_box : forall w f l xs ys z, (0 < w)%Q -> (0 < f)%Q -> regrid w f l = Some (xs, ys, z) ->
  let s := (w / 111 / f)%Q in
  (forall i j i' j' p, in_box_of xs ys s i j p -> in_box_of xs ys s i' j' p -> i = i' /\ j = j') /\
  (xs <> [] -> ys <> [] -> forall n, In n l -> (snd (fst n) <= last ys 0 + s)%Q -> exists i j, in_box_of xs ys s i j (fst n)) /\
  (forall i j p, in_box_of xs ys s i j p -> (snd p <= last ys 0 + s /\ snd p < 89)%Q).
Proof.
  intros w f l xs ys z W F H s. pose proof (step_pos w f W F) as S0. fold s in S0. change (regrid_step w f) with s in *.
  destruct (C143_corners _ _ _ _ _ _ W F H) as (_ & _ & a0 & a1 & b0 & b1 & A0 & A1 & B0 & B1 & NX & NY & CX & CY1 & CY2). fold s in NX, NY, CX, CY1, CY2.
  destruct (regrid_inv _ _ _ _ _ _ H) as (x0 & x1 & y0 & y1 & BX0 & BX1 & BY0 & BY1 & EX & EY & EZ). change (regrid_step w f) with s in *.
  unfold edges in EX, EY. cbn [fst snd] in EX, EY. set (yb := (if Qle_bool 89 (y1 + s) then 89 else y1 + s)%Q) in *.
  assert (UX : forall v i, bin (arange x0 (x1 + s) s) v = Some i <-> i < length xs /\ held (S i = length xs) (nth i xs 0%Q) s v) by (intros; rewrite EX; apply bin_held; exact S0).
  assert (UY : forall v i, bin (arange y0 yb s) v = Some i <-> i < length ys /\ held (S i = length ys) (nth i ys 0%Q) s v) by (intros; rewrite EY; apply bin_held; exact S0).
  split; [|split].
  - intros i j i' j' p (P1 & P2 & P3 & P4) (P1' & P2' & P3' & P4').
    pose proof (proj2 (UX _ _) (conj P1 P3)). pose proof (proj2 (UX _ _) (conj P1' P3')).
    pose proof (proj2 (UY _ _) (conj P2 P4)). pose proof (proj2 (UY _ _) (conj P2' P4')). split; congruence.
  - intros NX0 NY0 n I Y.
    assert (In (fst (fst n)) (xs_of l)) as IX by (apply (in_map (fun n : node => fst (fst n)) _ _ I)).
    assert (In (snd (fst n)) (ys_of l)) as IY by (apply (in_map (fun n : node => snd (fst n)) _ _ I)).
    rewrite EX in NX0. rewrite EY in NY0.
    destruct (last_removelast x0 (x1 + s) s S0 NX0) as [LX _]. destruct (last_removelast y0 yb s S0 NY0) as [LY LASTY].
    assert (x0 <= x1)%Q as XX by (apply BX0; apply BX1).
    destruct (bin_exists x0 (x1 + s) s (fst (fst n)) S0 LX) as [i Hi]; [apply BX0; exact IX| |].
    { assert (fst (fst n) <= x1)%Q by (apply BX1; exact IX).
      destruct (arange_end x0 (x1 + s) s (fun _ => ltac:(lra)) S0) as (P & _ & Q2).
      pose proof (nq_S (length (arange x0 (x1 + s) s) - 1)) as N. replace (S (length (arange x0 (x1 + s) s) - 1)) with (length (arange x0 (x1 + s) s)) in N by lia. nra. }
    destruct (bin_exists y0 yb s (snd (fst n)) S0 LY) as [j Hj]; [apply BY0; exact IY| |].
    { rewrite EY, LASTY in Y. pose proof (nq_S (length (arange y0 yb s) - 2)) as N. replace (S (length (arange y0 yb s) - 2)) with (length (arange y0 yb s) - 1) in N by lia. nra. }
    exists i, j. apply UX in Hi. apply UY in Hj. unfold in_box_of. tauto.
  - intros i j p (P1 & P2 & P3 & P4).
    assert (last ys 0%Q = (b0 + nq (length ys - 1) * s)%Q) as LL by (rewrite last_nth; apply NY; lia).
    assert (nth j ys 0%Q = (b0 + nq j * s)%Q) as NJ by (apply NY; exact P2).
    pose proof (nq_S (length ys - 1)) as N. replace (S (length ys - 1)) with (length ys) in N by lia.
    assert (nq j <= nq (length ys - 1))%Q as J by (apply nq_le; lia).
    destruct P4 as [P4 P5].
    assert (snd p <= last ys 0 + s)%Q as Q1 by (rewrite LL; rewrite NJ in P5; destruct P5 as [P5|[_ P5]]; nra).
    split; [exact Q1|].
    assert (y0 < yb /\ yb <= 89)%Q as [YB YB'].
    { assert (L1 : 1 <= length ys) by lia. rewrite EY, removelast_len, arange_len in L1. split.
      - apply Qnot_le_lt. intros G. assert ((yb - y0) / s <= 0)%Q as G' by (apply Qle_shift_div_r; lra).
        apply Qceiling_resp_le in G'. change (Qceiling 0) with 0%Z in G'. lia.
      - unfold yb. destruct (Qle_bool 89 (y1 + s)) eqn:E; [lra|]. apply Qnot_lt_le. intros G. apply Qlt_le_weak in G. apply Qle_bool_iff in G. congruence. }
    destruct (arange_end y0 yb s (fun _ => YB) S0) as (P & Q2 & _).
    assert (ys <> []) as NE by (destruct ys; [cbn in P2; lia|discriminate]).
    rewrite EY in NE. destruct (last_removelast y0 yb s S0 NE) as [L2 LASTY]. rewrite EY, LASTY in Q1.
    pose proof (nq_S (length (arange y0 yb s) - 2)) as N2. replace (S (length (arange y0 yb s) - 2)) with (length (arange y0 yb s) - 1) in N2 by lia. nra.
Qed.
Print Assumptions C143_one_box.

(** Two columns and two rows of boxes; one node is masked, one box holds two nodes. *)
Definition nodes : list node := [(0, 10, Some 2); (1 # 2, 10, Some 4); (3 # 2, 10, None); (0, 23 # 2, Some 5); (2, 12, Some 7)]%Q.
Example C143_case :
  exists xs ys z, regrid 111 1 nodes = Some (xs, ys, z) /\ length xs = 2 /\ length ys = 2 /\
    Forall2 (Forall2 (fun a b => match a, b with Some u, Some v => (u == v)%Q | None, None => True | _, _ => False end)) z [[Some 3; Some 5]; [None; Some 7]]%Q.
Proof.
  let r := eval vm_compute in (regrid 111 1 nodes) in
  lazymatch r with Some (?xs, ?ys, ?z) => exists xs, ys, z end.
  split; [vm_compute; reflexivity|]. split; [reflexivity|]. split; [reflexivity|]. repeat constructor.
Qed.

(** Near the pole nodes can be left out: on this grid the value at latitude 88.5
    changes nothing to what is filtered, though its node is not masked. *)
Theorem C143_pole_refuted : ~ forall w f l xs ys z, (0 < w)%Q -> (0 < f)%Q -> regrid w f l = Some (xs, ys, z) -> xs <> [] -> ys <> [] ->
  forall p v, sample_of l p v -> exists i j, in_box_of xs ys (w / 111 / f) i j p.
Proof.
  intros N. set (l := [(0, 87, Some 1); (1, 87, Some 1); (0, 177 # 2, Some 9)]%Q : list node).
  destruct (regrid 111 1 l) as [[[xs ys] z]|] eqn:E; [|vm_compute in E; discriminate].
  assert (xs <> [] /\ ys = [(87 + inject_Z (Z.of_nat 0) * (111 / 111 / 1))%Q]) as [E1 E2].
  { cbv [regrid] in E. injection E as <- <- _. split; [vm_compute; discriminate|vm_compute; reflexivity]. }
  destruct (N 111%Q 1%Q l xs ys z ltac:(lra) ltac:(lra) E E1 ltac:(rewrite E2; discriminate) (0, 177 # 2)%Q 9%Q) as (i & j & P).
  { unfold sample_of, l. right. right. left. reflexivity. }
  destruct (C143_one_box 111%Q 1%Q l xs ys z ltac:(lra) ltac:(lra) E) as (_ & _ & C). destruct (C i j _ P) as [C1 _].
  rewrite E2 in C1. revert C1. vm_compute. intros X. apply X. reflexivity.
Qed.
Print Assumptions C143_pole_refuted.
