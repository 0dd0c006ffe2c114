From Coq Require Import List Arith ZArith QArith Bool Lia Lqa.
From Verif Require Import Base Spec Qaux Generic_model Generic_proofs Solver_model TrackObs_model TrackObs_spec NetEvt_more Split_model Split_spec Split_proofs Split_more.
Import ListNotations.
Local Close Scope Q_scope.
Local Open Scope nat_scope.

(** ** Time step *)
Lemma qinsert_In : forall x l y, In y (qinsert x l) <-> y = x \/ In y l.
Proof.
  induction l as [|b l IH]; intros y; simpl; [intuition|]. destruct (Qle_bool x b); simpl; [intuition|]. rewrite IH. intuition.
Qed.
Lemma qsort_In : forall l y, In y (qsort l) <-> In y l.
Proof. induction l as [|a l IH]; intros y; simpl; [reflexivity|]. rewrite qinsert_In, IH. intuition. Qed.
Fixpoint ascending (l : list Q) : Prop := match l with a :: l' => match l' with b :: _ => (a <= b)%Q | [] => True end /\ ascending l' | [] => True end.
Lemma qinsert_asc : forall x l, ascending l -> ascending (qinsert x l).
Proof.
  intros x l. induction l as [|b l IH]; intros A; cbn [qinsert]; [simpl; auto|]. destruct (Qle_bool x b) eqn:E.
  - apply Qle_bool_iff in E. cbn [ascending]. auto.
  - apply Qle_bool_false in E. destruct A as [A B]. specialize (IH B). cbn [ascending]. split; [|auto]. destruct l as [|c l]; cbn [qinsert]; [lra|]. destruct (Qle_bool x c); [lra|auto].
Qed.
Lemma qsort_asc : forall l, ascending (qsort l).
Proof. induction l as [|a l IH]; [exact I|]. simpl. apply qinsert_asc. auto. Qed.
Lemma drop_equal_cons : forall a b l, drop_equal (a :: b :: l) = if Qeq_bool a b then drop_equal (b :: l) else a :: drop_equal (b :: l).
Proof. reflexivity. Qed.
Lemma differences_pos : forall l, ascending l -> forall d, In d (differences (drop_equal l)) -> (0 < d)%Q.
Proof.
  assert (H0 : forall l a, ascending (a :: l) -> exists b l', drop_equal (a :: l) = b :: l' /\ (b == a)%Q).
  { induction l as [|b l IH]; intros a A; [exists a, []; split; [auto|reflexivity]|]. rewrite drop_equal_cons. destruct (Qeq_bool a b) eqn:E.
    - apply Qeq_bool_iff in E. destruct (IH b) as (x & l' & -> & EX); [apply A|]. exists x, l'. split; [auto|lra].
    - exists a, (drop_equal (b :: l)). split; [auto|reflexivity]. }
  induction l as [|a [|b l] IH]; intros A d; [intros []|intros []|]. rewrite drop_equal_cons. destruct (Qeq_bool a b) eqn:E; [apply IH; apply A|].
  assert (N : ~ (a == b)%Q) by (intros X; apply Qeq_bool_iff in X; congruence). destruct (H0 l b) as (x & l' & EX & XB); [apply A|]. specialize (IH (proj2 A)).
  rewrite EX in *. cbn [differences]. intros [<-|I]; [|apply IH; auto]. destruct A as [A _]. destruct (Qlt_le_dec a b); [lra|]. exfalso. apply N. lra.
Qed.
Lemma timestep_pos : forall time dt, timestep_of time = Some dt -> (0 < dt)%Q.
Proof.
  intros time dt E. unfold timestep_of in E. pose proof (differences_pos _ (qsort_asc time)) as P. destruct (differences (drop_equal (qsort time))) as [|d l]; [discriminate|]. apply Some_inj in E. subst dt.
  unfold np_median. set (s := qsort (d :: l)). assert (PS : forall k, k < length s -> (0 < nth k s 0)%Q). { intros k K. apply P, qsort_In. apply nth_In. auto. }
  assert (L : 0 < length s). { assert (I : In d s) by (apply qsort_In; left; auto). destruct s; [destruct I|simpl; lia]. }
  assert (A : (0 < nth ((length s - 1) / 2) s 0)%Q) by (apply PS; apply Nat.le_lt_trans with (length s - 1); [apply Nat.div_le_upper_bound; lia|lia]).
  assert (B : (0 < nth (length s / 2) s 0)%Q) by (apply PS; apply Nat.div_lt; lia).
  apply Qlt_shift_div_l; lra.
Qed.
Lemma timestep_Some : forall time t t', In t time -> In t' time -> ~ (t == t')%Q -> exists dt, timestep_of time = Some dt.
Proof.
  intros time t t' I I' N. unfold timestep_of. destruct (differences (drop_equal (qsort time))) as [|d l] eqn:E; [|eauto]. exfalso.
  assert (ONE : forall l, differences (drop_equal l) = [] -> forall x y, In x l -> In y l -> (x == y)%Q).
  { clear. intros l. induction l as [|a [|b l] IH]; intros E x y X Y; [destruct X|destruct X as [<-|[]]; destruct Y as [<-|[]]; reflexivity|].
    rewrite drop_equal_cons in E. destruct (Qeq_bool a b) eqn:Q.
    - apply Qeq_bool_iff in Q. specialize (IH E). assert (H : forall z, In z (a :: b :: l) -> (z == b)%Q) by (intros z [<-|Z]; [auto|apply IH; [auto|left; auto]]). rewrite (H x X), (H y Y). reflexivity.
    - exfalso. assert (NE : drop_equal (b :: l) <> []). { clear. revert b. induction l as [|c l IH]; intros b; [discriminate|]. rewrite drop_equal_cons. destruct (Qeq_bool b c); [apply IH|discriminate]. }
      destruct (drop_equal (b :: l)); [congruence|discriminate]. }
  apply N. apply (ONE _ E); apply qsort_In; auto.
Qed.
Lemma trunc_mono : forall a b, (a <= b)%Q -> (trunc a <= trunc b)%Z.
Proof.
  intros [a c] [b d] L. unfold trunc, Qle in *. cbn [Qnum Qden] in *. rewrite <- (Z.quot_mul_cancel_r a (Zpos c) (Zpos d)) by discriminate. rewrite <- (Z.quot_mul_cancel_r b (Zpos d) (Zpos c)) by discriminate.
  rewrite (Z.mul_comm (Zpos d) (Zpos c)). apply Z.quot_le_mono; lia.
Qed.

(** ** Columns *)
Lemma length_slice : forall {A} (l : list A) a b, a <= b -> b <= length l -> length (slice l a b) = b - a.
Proof. intros A l a b AB BL. unfold slice. rewrite firstn_length, skipn_length. lia. Qed.
Lemma slice_firstn : forall {A} (l l' : list A) a b c, b <= c -> firstn c l = firstn c l' -> slice l a b = slice l' a b.
Proof.
  intros A l l' a b c BC E. apply nth_error_ext. intros k. rewrite !nth_slice. destruct (Nat.ltb_spec k (b - a)); [|auto].
  assert (H1 : forall x : list A, nth_error (firstn c x) (a + k) = nth_error x (a + k)).
  { intros x. rewrite <- (firstn_skipn c x) at 2. destruct (Nat.lt_ge_cases (a + k) (length (firstn c x))) as [L|L]; [rewrite nth_error_app1; auto|].
    rewrite firstn_length in L. rewrite firstn_all2 by lia. rewrite skipn_all2 by lia. rewrite app_nil_r. auto. }
  rewrite <- H1, E, H1. auto.
Qed.
Lemma write_len : forall {A} (l x : list A) a b, a <= b -> b <= length l -> length x = b - a -> length (write_back l x a b) = length l.
Proof. intros A l x a b AB BL L. unfold write_back. rewrite !app_length, firstn_length, skipn_length. lia. Qed.
Lemma write_firstn : forall {A} (l x : list A) a b c, a <= length l -> c <= a -> firstn c (write_back l x a b) = firstn c l.
Proof. intros A l x a b c AL CA. unfold write_back. rewrite firstn_app, firstn_firstn, firstn_length. replace (c - Nat.min a (length l)) with 0 by lia. rewrite firstn_O, app_nil_r. f_equal. lia. Qed.
Lemma write_slice : forall {A} (l x : list A) a b, a <= b -> b <= length l -> length x = b - a -> slice (write_back l x a b) a b = x.
Proof.
  intros A l x a b AB BL L. unfold write_back, slice. rewrite skipn_app, firstn_length. rewrite skipn_all2 by (rewrite firstn_length; lia). replace (a - Nat.min a (length l)) with 0 by lia. simpl.
  rewrite firstn_app, L. replace (b - a - (b - a)) with 0 by lia. rewrite firstn_O, app_nil_r. rewrite firstn_all2 by lia. auto.
Qed.
Lemma write_skipn : forall {A} (l x : list A) a b, a <= b -> b <= length l -> length x = b - a -> skipn b (write_back l x a b) = skipn b l.
Proof.
  intros A l x a b AB BL L. unfold write_back. rewrite skipn_app, firstn_length. rewrite skipn_all2 by (rewrite firstn_length; lia). simpl. rewrite skipn_app, L. rewrite skipn_all2 by lia. simpl.
  replace (b - Nat.min a (length l) - (b - a)) with 0 by lia. auto.
Qed.
Lemma skipn_repeat : forall {A} (x : A) n k, skipn k (repeat x n) = repeat x (n - k).
Proof. intros A x. induction n as [|n IH]; intros [|k]; simpl; auto. Qed.
Lemma init_slice : forall {A} (l : list A) n a b x, length l = n -> skipn a l = repeat x (n - a) -> a <= b -> b <= n -> slice l a b = repeat x (b - a).
Proof.
  intros A l n a b x L S AB BN. unfold slice. rewrite S. replace (n - a) with ((b - a) + (n - b)) by lia. rewrite repeat_app, firstn_app, repeat_length. replace (b - a - (b - a)) with 0 by lia.
  rewrite firstn_O, app_nil_r. apply firstn_all2. rewrite repeat_length. lia.
Qed.
Lemma skipn_skipn_le : forall {A} (l : list A) a b, a <= b -> skipn b l = skipn (b - a) (skipn a l).
Proof. induction l as [|x l IH]; intros a b AB; [rewrite !skipn_nil; auto|]. destruct a as [|a]; [rewrite Nat.sub_0_r; auto|]. destruct b as [|b]; [lia|]. simpl. apply IH. lia. Qed.

Lemma firstn_firstn_le : forall {A} (l : list A) a b, a <= b -> firstn a (firstn b l) = firstn a l.
Proof. intros A l a b AB. rewrite firstn_firstn. f_equal. lia. Qed.
Section Whole.
Variables (meet : nat -> nat -> bool) (overlap : nat -> nat -> Q) (rnd : Q -> Q) (window : Z) (tracks : list nat) (time : list Z).
Hypothesis NN : forall i j, (0 <= overlap i j)%Q.
Hypothesis RN : rounding rnd.
Hypothesis LT : length time = length tracks.
Let n := length tracks.
Definition cost_at a i j := cost_of meet overlap (a + i) (a + j).
(** Rows from [a] to [b] are a group with its result. *)
Definition group_ok (s : ids) (a b : nat) : Prop := exists lp ln,
  segmented (slice time a b) (cost_at a) rnd window (slice (i_track s) a b) lp ln /\
  slice (i_prev s) a b = map (option_map (fun k => k + a)) lp /\ slice (i_next s) a b = map (option_map (fun k => k + a)) ln.
Definition left_ok (s : ids) (a b : nat) : Prop :=
  slice (i_track s) a b = repeat 0 (b - a) /\ slice (i_prev s) a b = repeat None (b - a) /\ slice (i_next s) a b = repeat None (b - a).
Definition fresh_from (a : nat) (s : ids) : Prop :=
  skipn a (i_track s) = repeat 0 (n - a) /\ skipn a (i_pcost s) = repeat 0%Q (n - a) /\ skipn a (i_ncost s) = repeat 0%Q (n - a) /\ skipn a (i_prev s) = repeat None (n - a) /\ skipn a (i_next s) = repeat None (n - a).
Definition same_before (a : nat) (s s' : ids) : Prop :=
  firstn a (i_track s') = firstn a (i_track s) /\ firstn a (i_prev s') = firstn a (i_prev s) /\ firstn a (i_next s') = firstn a (i_next s).
Fixpoint tiling (a : nat) (bounds : list (nat * nat)) : Prop :=
  match bounds with
  | [] => a = n
  | (x, y) :: bounds' => x = a /\ x <= y /\ y <= n /\ tiling y bounds'
  end.

Lemma split_loop_spec : forall bounds a s, tiling a bounds -> a <= n -> wide n s -> fresh_from a s ->
  (forall x y g, In (x, y) bounds -> x < y -> nth_error tracks x = Some g -> g <> 0 -> zsorted (slice time x y)) ->
  exists s', split_loop meet overlap rnd window tracks time bounds s = Some s' /\ wide n s' /\ same_before a s s' /\
    forall x y g, In (x, y) bounds -> x < y -> nth_error tracks x = Some g -> if g =? 0 then left_ok s' x y else group_ok s' x y.
Proof.
  induction bounds as [|[x y] bounds IH]; intros a s TI AN W FR SO; cbn [split_loop].
  - exists s. split; [auto|]. split; [auto|]. split; [unfold same_before; auto|]. intros x y g [].
  - destruct TI as (-> & XY & YN & TI). pose proof W as (W1 & W2 & W3 & W4 & W5). pose proof FR as (F1 & F2 & F3 & F4 & F5).
    assert (FRY : fresh_from y s). { unfold fresh_from. rewrite !(skipn_skipn_le _ a y) by auto. rewrite F1, F2, F3, F4, F5, !skipn_repeat. replace (n - a - (y - a)) with (n - y) by lia. auto 10. }
    assert (SOT : forall x0 y0 g, In (x0, y0) bounds -> x0 < y0 -> nth_error tracks x0 = Some g -> g <> 0 -> zsorted (slice time x0 y0)) by (intros; eapply SO; eauto; right; auto).
    assert (SB : forall s1 s2, same_before y s1 s2 -> same_before a s1 s2).
    { intros s1 s2 (A & B & C). assert (H : forall {X} (l l' : list X), firstn y l = firstn y l' -> firstn a l = firstn a l') by (intros X l l' E; rewrite <- (firstn_firstn_le l a y), <- (firstn_firstn_le l' a y), E by auto; auto). unfold same_before. auto. }
    assert (LK : forall s1 s2, same_before y s1 s2 -> left_ok s1 a y -> left_ok s2 a y).
    { intros s1 s2 (A & B & C) (L1 & L2 & L3). unfold left_ok. rewrite (slice_firstn (i_track s2) (i_track s1) a y y), (slice_firstn (i_prev s2) (i_prev s1) a y y), (slice_firstn (i_next s2) (i_next s1) a y y) by auto. auto. }
    assert (GK : forall s1 s2, same_before y s1 s2 -> group_ok s1 a y -> group_ok s2 a y).
    { intros s1 s2 (A & B & C) (lp & ln & L1 & L2 & L3). exists lp, ln. rewrite (slice_firstn (i_track s2) (i_track s1) a y y), (slice_firstn (i_prev s2) (i_prev s1) a y y), (slice_firstn (i_next s2) (i_next s1) a y y) by auto. auto. }
    destruct (Nat.eqb_spec a y) as [E|NE].
    { subst y. destruct (IH a s TI AN W FR SOT) as (s' & E1 & W' & SB' & R). exists s'. split; [auto|]. split; [auto|]. split; [auto|]. intros u v g [I|I] UV; [injection I as <- <-; lia|intros H; apply (R u v g I UV H)]. }
    destruct (nth_error_lt_Some tracks a) as [g G]; [fold n; lia|]. rewrite G. cbn [bind]. destruct (Nat.eqb_spec g 0) as [G0|G0].
    + destruct (IH y s TI YN W FRY SOT) as (s' & E1 & W' & SB' & R). exists s'. split; [auto|]. split; [auto|]. split; [auto|]. intros u v h [I|I] UV H; [|apply (R u v h I UV H)]. injection I as <- <-. rewrite G in H. injection H as <-. rewrite G0. cbn.
      apply (LK s s' SB'). unfold left_ok. rewrite (init_slice (i_track s) n a y 0), (init_slice (i_prev s) n a y None), (init_slice (i_next s) n a y None) by auto. auto.
    + assert (LS : length (slice time a y) = y - a) by (apply length_slice; [auto|rewrite LT; auto]).
      destruct (set_tracks_spec (fun i j => meet (a + i) (a + j)) (fun i j => overlap (a + i) (a + j)) rnd (slice time a y) window) as (l & EL & LPC & LNC & SEG); auto.
      { intros E. rewrite E in LS. simpl in LS. lia. }
      { eapply SO; [left; reflexivity|lia|eauto|auto]. }
      replace (ids_slice s a y) with (ids_init (length (slice time a y))).
      2:{ unfold ids_slice, ids_init. rewrite LS. rewrite (init_slice (i_track s) n a y 0), (init_slice (i_pcost s) n a y 0%Q), (init_slice (i_ncost s) n a y 0%Q), (init_slice (i_prev s) n a y None), (init_slice (i_next s) n a y None) by auto. auto. }
      rewrite EL. cbn [bind]. pose proof SEG as (LTR & LPV & LNX & _). rewrite LS in *.
      match goal with |- context [split_loop _ _ _ _ _ _ bounds ?x] => set (s1 := x) end.
      assert (W' : wide n s1). { unfold wide, s1. cbn. unfold shift_links. rewrite !write_len by (rewrite ?map_length; lia). auto. }
      assert (FRY' : fresh_from y s1). { unfold fresh_from, s1. cbn. unfold shift_links. rewrite !write_skipn by (rewrite ?map_length; lia). exact FRY. }
      destruct (IH y s1 TI YN W' FRY' SOT) as (s' & E1 & W'' & SB' & R). exists s'. split; [auto|]. split; [auto|]. split.
      { destruct (SB _ _ SB') as (A & B & C). unfold same_before. rewrite A, B, C. unfold s1. cbn. rewrite !write_firstn by lia. auto. }
      intros u v h [I|I] UV H; [|apply (R u v h I UV H)]. injection I as <- <-. rewrite G in H. injection H as <-. destruct (Nat.eqb_spec g 0); [congruence|]. apply (GK s1 s' SB'). exists (i_prev l), (i_next l). unfold s1. cbn. unfold shift_links.
      rewrite !write_slice by (rewrite ?map_length; lia). split; [exact SEG|auto].
Qed.
End Whole.

(** ** The whole dataset *)
Lemma combine_nth_inv : forall {A B} (a : list A) (b : list B) i x y, nth_error (combine a b) i = Some (x, y) -> nth_error a i = Some x /\ nth_error b i = Some y.
Proof.
  induction a as [|u a IH]; intros [|v b] [|i] x y E; simpl in E; try discriminate; [injection E as -> ->; auto|exact (IH b i x y E)].
Qed.
Lemma tables_tiling : forall n f l a, length l = length f -> nth_error f 0 = Some a ->
  (forall k x y, nth_error f k = Some x -> nth_error l k = Some y -> x <= y) ->
  (forall k, S k < length f -> nth_error f (S k) = nth_error l k) -> nth_error l (length f - 1) = Some n ->
  a <= n /\ forall tracks, length tracks = n -> tiling tracks a (combine f l).
Proof.
  intros n. induction f as [|x f IH]; intros [|y l] a L H0 LE CH LA; try discriminate. simpl in H0. injection H0 as ->. cbn [combine tiling].
  pose proof (LE 0 a y eq_refl eq_refl) as AY. destruct f as [|x' f].
  - destruct l; [|discriminate]. simpl in LA. injection LA as ->. split; [auto|]. intros tracks E. cbn [tiling combine]. rewrite E. auto.
  - pose proof (CH 0 ltac:(simpl; lia)) as C0. simpl in C0. injection C0 as ->. destruct (IH l y) as [YN T]; auto.
    + intros k u v A B. apply (LE (S k) u v A B).
    + intros k K. apply (CH (S k)). simpl in *. lia.
    + simpl in LA |- *. rewrite Nat.sub_0_r in *. auto.
    + split; [lia|]. intros tracks E. split; [auto|]. split; [auto|]. split; [lia|auto].
Qed.

Theorem split_network_spec : forall meet overlap rnd window tracks time dt,
  length time = length tracks -> nsorted tracks -> timestep_of time = Some dt ->
  (forall i j a b g, i < j -> nth_error tracks i = Some g -> nth_error tracks j = Some g -> nth_error time i = Some a -> nth_error time j = Some b -> (a <= b)%Q) ->
  (forall i j, (0 <= overlap i j)%Q) -> rounding rnd ->
  let steps := map (fun t => trunc (t / dt)) time in
  exists s, split_network meet overlap rnd window tracks time = Some (map (fun z => inject_Z z * dt)%Q steps, s) /\ wide (length tracks) s /\
    (forall r, nth_error tracks r = Some 0 -> nth_error (i_track s) r = Some 0 /\ nth_error (i_prev s) r = Some None /\ nth_error (i_next s) r = Some None) /\
    (forall g a b, g <> 0 -> a < b -> (forall k, a <= k < b <-> nth_error tracks k = Some g) -> group_ok meet overlap rnd window steps s a b).
Proof.
  intros meet overlap rnd window tracks time dt LT NS TS SO NN RN steps. unfold split_network. rewrite TS. cbn [bind]. fold steps.
  assert (DT : (0 < dt)%Q) by (eapply timestep_pos; eauto).
  assert (NE : map Z.of_nat tracks <> []). { intros E. apply map_eq_nil in E. subst tracks. destruct time; [discriminate|discriminate]. }
  assert (ZS : zsorted (map Z.of_nat tracks)). { intros i j a b IJ A B. rewrite nth_error_map in A, B. destruct (nth_error tracks i) as [u|] eqn:U; [|discriminate]. destruct (nth_error tracks j) as [v|] eqn:V; [|discriminate].
    simpl in A, B. apply Some_inj in A. apply Some_inj in B. specialize (NS i j u v IJ U V). lia. }
  destruct (build_index_tile _ NE ZS) as (f & l & i0 & BI & LL & _ & BD & TB & F0 & CH & LA). rewrite BI. cbn [bind]. rewrite map_length in LA.
  destruct (tables_tiling (length tracks) f l 0) as [_ TI]; auto. { intros k x y A B. exact (proj1 (TB k x y A B)). }
  assert (LS : length steps = length tracks) by (unfold steps; rewrite map_length; auto).
  assert (ROWS : forall k x y, nth_error f k = Some x -> nth_error l k = Some y -> forall j, x <= j < y <-> exists g, nth_error tracks j = Some g /\ Z.of_nat g = (i0 + Z.of_nat k)%Z).
  { intros k x y A B j. destruct (TB k x y A B) as [_ H]. rewrite H, nth_error_map. split; [destruct (nth_error tracks j) as [g|]; [|discriminate]; intros E; apply Some_inj in E; eauto|intros (g & -> & E); simpl; congruence]. }
  assert (INB : forall x y, In (x, y) (combine f l) -> exists k, nth_error f k = Some x /\ nth_error l k = Some y).
  { intros x y I. apply In_nth_error in I as (k & K). exists k. apply combine_nth_inv in K. auto. }
  destruct (split_loop_spec meet overlap rnd window tracks steps NN RN LS (combine f l) 0 (ids_init (length tracks))) as (s & E & W & _ & R).
  - apply TI. auto.
  - lia.
  - unfold wide. cbn. rewrite !repeat_length. auto.
  - unfold fresh_from. cbn [skipn ids_init i_track i_pcost i_ncost i_prev i_next]. rewrite Nat.sub_0_r. auto.
  - intros x y g I XY G GN i j a b IJ A B. destruct (INB x y I) as (k & K1 & K2). pose proof (ROWS k x y K1 K2) as RW.
    rewrite nth_slice in A, B. destruct (Nat.ltb_spec i (y - x)); [|discriminate]. destruct (Nat.ltb_spec j (y - x)); [|discriminate]. unfold steps in A, B. rewrite nth_error_map in A, B.
    destruct (nth_error time (x + i)) as [ta|] eqn:TA; [|discriminate]. destruct (nth_error time (x + j)) as [tb|] eqn:TBB; [|discriminate]. simpl in A, B. apply Some_inj in A. apply Some_inj in B. subst a b.
    apply trunc_mono. apply Qmult_le_compat_r; [|apply Qinv_le_0_compat; lra]. destruct (proj1 (RW (x + i)) ltac:(lia)) as (g1 & G1 & Z1). destruct (proj1 (RW (x + j)) ltac:(lia)) as (g2 & G2 & Z2).
    assert (g1 = g2) by lia. subst g2. eapply SO; [|exact G1|exact G2|exact TA|exact TBB]. lia.
  - rewrite E. cbn [bind]. exists s. split; [auto|]. split; [auto|].
    assert (FIND : forall r g, nth_error tracks r = Some g -> exists x y, In (x, y) (combine f l) /\ x <= r < y /\ nth_error tracks x = Some g /\ forall j, x <= j < y <-> nth_error tracks j = Some g).
    { intros r g G. assert (IG : In (Z.of_nat g) (map Z.of_nat tracks)) by (apply in_map; eapply nth_error_In; eauto). specialize (BD _ IG). set (k := Z.to_nat (Z.of_nat g - i0)).
      destruct (nth_error_lt_Some f k) as [x X]; [unfold k; lia|]. destruct (nth_error_lt_Some l k) as [y Y]; [unfold k; lia|]. pose proof (ROWS k x y X Y) as RW.
      assert (RG : forall j, x <= j < y <-> nth_error tracks j = Some g). { intros j. rewrite RW. split; [intros (g' & -> & Z'); f_equal; unfold k in Z'; lia|intros ->; exists g; split; [auto|unfold k; lia]]. }
      exists x, y. assert (RR : x <= r < y) by (apply RG; auto). split; [|split; [auto|split; [apply RG; lia|auto]]].
      apply (nth_error_In _ k). apply Corr_merge.nth_error_combine; auto. }
    split.
    + intros r G. destruct (FIND r 0 G) as (x & y & I & RR & GX & RG). pose proof (R x y 0 I ltac:(lia) GX) as (L1 & L2 & L3).
      assert (H : forall {X} (c : list X) v, slice c x y = repeat v (y - x) -> nth_error c r = Some v).
      { intros X c v EQ. assert (N : nth_error (slice c x y) (r - x) = Some v) by (rewrite EQ, nth_error_repeat_lt; destruct (Nat.ltb_spec (r - x) (y - x)); [auto|lia]). rewrite nth_slice in N. destruct (r - x <? y - x); [|discriminate]. replace (x + (r - x)) with r in N by lia. auto. }
      auto.
    + intros g a b GN AB RG. assert (GA : nth_error tracks a = Some g) by (apply RG; lia). destruct (FIND a g GA) as (x & y & I & RR & GX & RG').
      assert (x = a). { destruct (Nat.lt_trichotomy x a) as [H|[H|H]]; [|auto|lia]. assert (X : a <= x < b) by (apply RG; auto). lia. }
      assert (y = b). { destruct (Nat.lt_trichotomy y b) as [H1|[H1|H1]]; [|auto|].
        - assert (X : x <= y < y) by (apply RG', RG; lia). lia.
        - assert (X : a <= b < b) by (apply RG, RG'; lia). lia. }
      subst x y. pose proof (R a b g I AB GX) as X. destruct (Nat.eqb_spec g 0); [congruence|]. auto.
Qed.

Lemma group_interval : forall tracks r g, nsorted tracks -> nth_error tracks r = Some g -> exists a b, a <= r < b /\ b <= length tracks /\ forall k, a <= k < b <-> nth_error tracks k = Some g.
Proof.
  intros tracks r g NS G.
  assert (H : forall l, nsorted l -> forall r g, nth_error l r = Some g -> exists a b, a <= r < b /\ b <= length l /\ forall k, a <= k < b <-> nth_error l k = Some g).
  { clear. induction l as [|x l IH]; intros NS r g G; [destruct r; discriminate|]. assert (NS' : nsorted l) by (intros i j a b L A B; apply (NS (S i) (S j) a b); [lia|auto|auto]).
    destruct (Nat.eq_dec x g) as [->|NX].
    - destruct (in_dec Nat.eq_dec g l) as [I|I].
      + apply In_nth_error in I as (q & Q). destruct (IH NS' q g Q) as (a & b & AB & BL & R). assert (a = 0).
        { destruct a as [|a]; [auto|]. exfalso. assert (G1 : nth_error l (S a) = Some g) by (apply R; lia). destruct (nth_error_lt_Some l a) as [u U]; [apply nth_error_Some_lt in G1; lia|].
          pose proof (NS 0 (S a) g u ltac:(lia) eq_refl U). pose proof (NS (S a) (S (S a)) u g ltac:(lia) U G1). assert (u = g) by lia. subst u. apply R in U. lia. }
        subst a. exists 0, (S b). assert (RR : forall k, 0 <= k < S b <-> nth_error (g :: l) k = Some g) by (intros [|k]; [simpl; split; [auto|lia]|]; simpl; rewrite <- R; lia). split; [apply RR; auto|]. split; [simpl; lia|auto].
      + exists 0, 1. assert (RR : forall k, 0 <= k < 1 <-> nth_error (g :: l) k = Some g). { intros [|k]; [simpl; split; [auto|lia]|]. simpl. split; [lia|]. intros X. apply nth_error_In in X. contradiction. } split; [apply RR; auto|]. split; [simpl; lia|auto].
    - destruct r as [|r]; [simpl in G; congruence|]. destruct (IH NS' r g G) as (a & b & AB & BL & R). exists (S a), (S b). split; [lia|]. split; [simpl; lia|]. intros [|k]; [simpl; split; [lia|congruence]|]. simpl. rewrite <- R. lia. }
  apply H; auto.
Qed.
