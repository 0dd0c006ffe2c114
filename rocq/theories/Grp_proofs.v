(** Lemmas on virtual rows. *)
From Coq Require Import List Arith ZArith QArith Bool Lia Lqa.
From Verif Require Import Base Spec Qaux Corr_model Corr_spec Corr_merge Corr_more TrackObs_model TrackObs_proofs Split_model Split_net Obs_model NetEvt_model Net_links Grp_model Grp_spec.
Import ListNotations.
Local Close Scope Q_scope.
Local Open Scope nat_scope.

(** ** Blocks *)
Lemma map_repeat : forall {A B} (f : A -> B) x n, map f (repeat x n) = repeat (f x) n.
Proof. induction n; simpl; auto. f_equal. auto. Qed.
Definition layout (g : list nat) : list bool := concat (map (fun m => false :: repeat true m) g).
Fixpoint starts (s : nat) (g : list nat) : list nat := match g with [] => [] | m :: g' => s :: starts (s + 1 + m) g' end.
Fixpoint expand_blocks {A} (z : A) (g : list nat) (col : list A) : list (list A) :=
  match g, col with m :: g', v :: col' => (v :: repeat z m) :: expand_blocks z g' col' | _, _ => [] end.
Fixpoint between (v w : Q) (m k n : nat) : list Q :=
  match n with 0 => [] | S n' => (v + (w - v) * inject_Z (Z.of_nat k) / inject_Z (Z.of_nat (m + 1)))%Q :: between v w m (S k) n' end.
Fixpoint values (g : list nat) (col : list Q) : list (list Q) :=
  match g, col with m :: g', v :: col' => (match col' with [] => [] | w :: _ => between v w m 1 m end) :: values g' col' | _, _ => [] end.
Fixpoint filled_blocks (g : list nat) (col : list Q) : list (list Q) :=
  match g, col with m :: g', v :: col' => (v :: match col' with [] => [] | w :: _ => between v w m 1 m end) :: filled_blocks g' col' | _, _ => [] end.

Lemma length_between : forall v w m n k, length (between v w m k n) = n.
Proof. induction n; intros; simpl; auto. Qed.
Lemma nth_between : forall v w m n k i, i < n -> nth_error (between v w m k n) i = Some (v + (w - v) * inject_Z (Z.of_nat (k + i)) / inject_Z (Z.of_nat (m + 1)))%Q.
Proof.
  induction n; intros k i L; [lia|]. destruct i as [|i]; cbn [between nth_error]; [rewrite Nat.add_0_r; auto|]. rewrite IHn by lia. replace (S k + i) with (k + S i) by lia. auto.
Qed.

Lemma layout_cons : forall m g, layout (m :: g) = false :: repeat true m ++ layout g.
Proof. reflexivity. Qed.
Lemma length_layout : forall g, length (layout g) = length g + sum_list g.
Proof. induction g as [|m g IH]; auto. rewrite layout_cons. cbn [length sum_list]. rewrite app_length, repeat_length, IH. lia. Qed.

Lemma where_from_app : forall a b s, where_from s (a ++ b) = where_from s a ++ where_from (s + length a) b.
Proof.
  induction a as [|x a IH]; intros b s; simpl; [f_equal; lia|]. rewrite IH. replace (s + S (length a)) with (S s + length a) by lia. destruct x; auto.
Qed.
Lemma where_true : forall m s, where_from s (repeat true m) = seq s m.
Proof. induction m; intros; simpl; auto. f_equal. auto. Qed.
Lemma where_false : forall m s, where_from s (repeat false m) = [].
Proof. induction m; intros; simpl; auto. Qed.
Lemma where_layout : forall m g s, where_from s (layout (m :: g)) = seq (s + 1) m ++ where_from (s + 1 + m) (layout g).
Proof.
  intros. rewrite layout_cons. cbn [where_from]. rewrite where_from_app, where_true, repeat_length. repeat f_equal; lia.
Qed.
Lemma where_known : forall g s, where_from s (map negb (layout g)) = starts s g.
Proof.
  induction g as [|m g IH]; intros s; auto. rewrite layout_cons. cbn [map negb where_from starts]. f_equal. rewrite map_app, map_repeat. cbn [negb]. rewrite where_from_app, where_false, repeat_length, IH. simpl. f_equal. lia.
Qed.

Lemma combine_app' : forall {A B} (a c : list A) (b d : list B), length a = length b -> combine (a ++ c) (b ++ d) = combine a b ++ combine c d.
Proof. induction a as [|x a IH]; intros c [|y b] d L; simpl in *; try discriminate; auto. f_equal. apply IH. lia. Qed.
Lemma corrected_layout : forall g a j, 1 <= a ->
  map (fun p => fst p + snd p) (combine (repeat_by (seq a (length g)) g) (seq j (sum_list g))) = where_from (a - 1 + j) (layout g).
Proof.
  induction g as [|m g IH]; intros a j L; auto. cbn [length seq repeat_by sum_list]. rewrite seq_app, combine_app', map_app, IH, where_layout by (rewrite ?repeat_length, ?seq_length; lia).
  f_equal; [|f_equal; lia]. clear - L. revert j. induction m as [|m IHm]; intros j; [reflexivity|]. cbn [seq repeat combine map fst snd]. rewrite IHm. replace (a + j) with (a - 1 + j + 1) by lia. f_equal. f_equal; lia.
Qed.

Lemma stores_repeat : forall {A} ix (l l' : list A) v, stores l ix (repeat v (length ix)) = Some l' ->
  length l' = length l /\ (forall j, In j ix -> nth_error l' j = Some v) /\ (forall j, ~ In j ix -> nth_error l' j = nth_error l j).
Proof.
  induction ix as [|i ix IH]; intros l l' v H; cbn [length repeat stores] in H.
  - injection H as <-. simpl. split; [auto|]. split; [tauto|auto].
  - apply bind_Some in H as (l1 & H1 & H2). apply store_Some in H1 as [L ->]. destruct (IH _ _ _ H2) as (X & B & C). rewrite length_upd in X. split; [auto|]. split.
    + intros j [->|I]; [|auto]. destruct (in_dec Nat.eq_dec j ix) as [I|I]; [auto|]. rewrite C by auto. apply nth_error_upd_eq. auto.
    + intros j N. simpl in N. rewrite C by tauto. apply nth_error_upd_neq. tauto.
Qed.
Lemma stores_where : forall m, stores (repeat false (length m)) (where_ m) (repeat true (length (where_ m))) = Some m.
Proof.
  intros m. destruct (stores_total (where_ m) (repeat false (length m)) (repeat true (length (where_ m)))) as [l' E]; [rewrite repeat_length; auto| |].
  { intros i I. apply In_where in I. rewrite repeat_length. eapply nth_error_Some_lt; eauto. }
  rewrite E. f_equal. destruct (stores_repeat _ _ _ _ E) as (L & T & F). rewrite repeat_length in L. apply nth_error_ext. intros j.
  destruct (nth_error m j) as [[|]|] eqn:N.
  - apply T. apply In_where. auto.
  - rewrite F by (rewrite In_where; congruence). rewrite nth_error_repeat_lt. apply nth_error_Some_lt in N. destruct (Nat.ltb_spec j (length m)); [auto|lia].
  - apply nth_error_None. apply nth_error_None in N. lia.
Qed.

Lemma mask_store_keep : forall {A} m (a : list A) M L vs, length a = m -> mask_store (repeat false m ++ M) (a ++ L) vs = bind (mask_store M L vs) (fun r => Some (a ++ r)).
Proof.
  induction m as [|m IH]; intros [|x a] M L vs E; simpl in *; try discriminate.
  - destruct (mask_store M L vs); auto.
  - rewrite IH by lia. destruct (mask_store M L vs); auto.
Qed.
Lemma mask_store_put : forall {A} m (a b : list A) M L vs, length a = m -> length b = m -> mask_store (repeat true m ++ M) (a ++ L) (b ++ vs) = bind (mask_store M L vs) (fun r => Some (b ++ r)).
Proof.
  induction m as [|m IH]; intros [|x a] [|y b] M L vs E E'; simpl in *; try discriminate.
  - destruct (mask_store M L vs); auto.
  - rewrite IH by lia. destruct (mask_store M L vs); auto.
Qed.
Lemma spread_layout : forall {A} (z : A) g col, length col = length g -> spread z (layout g) col = Some (concat (expand_blocks z g col)).
Proof.
  intros A z. unfold spread. induction g as [|m g IH]; intros [|v col] L; simpl in L; try discriminate; auto. injection L as L. rewrite layout_cons. cbn [map negb length repeat mask_store]. rewrite map_app, map_repeat, app_length, repeat_length, repeat_app. cbn [negb].
  rewrite mask_store_keep by apply repeat_length. rewrite (IH col L). reflexivity.
Qed.
Lemma select_app : forall {A} m1 m2 (a b : list A), length m1 = length a -> select (m1 ++ m2) (a ++ b) = select m1 a ++ select m2 b.
Proof. induction m1 as [|x m1 IH]; intros m2 [|y a] b L; simpl in *; try discriminate; auto. destruct x; simpl; rewrite IH by lia; auto. Qed.
Lemma select_none : forall {A} m (a : list A), select (repeat false m) a = [].
Proof. induction m; intros [|x a]; simpl; auto. Qed.
Lemma select_expand : forall {A} (z : A) g col, length col = length g -> select (map negb (layout g)) (concat (expand_blocks z g col)) = col.
Proof.
  induction g as [|m g IH]; intros [|v col] L; simpl in L; try discriminate; auto. injection L as L. rewrite layout_cons. cbn [map negb expand_blocks concat app select]. f_equal.
  rewrite map_app, map_repeat. cbn [negb]. rewrite select_app by (rewrite !repeat_length; auto). rewrite select_none. apply IH. auto.
Qed.

(** ** Interpolation *)
Lemma interp_values : forall g col s, length col = length g -> (forall m, nth_error g (length g - 1) = Some m -> m = 0) ->
  sequence (map (fun x => np_interp x (starts s g) col) (where_from s (layout g))) = Some (concat (values g col)).
Proof.
  induction g as [|m g IH]; intros [|v col] s L Z; simpl in L; try discriminate; auto. injection L as L. rewrite where_layout. destruct g as [|m2 g].
  { rewrite (Z m eq_refl). destruct col; [|discriminate]. reflexivity. }
  destruct col as [|w col]; [discriminate|]. change (concat (values (m :: m2 :: g) (v :: w :: col))) with (between v w m 1 m ++ concat (values (m2 :: g) (w :: col))). set (rest := concat (values (m2 :: g) (w :: col))).
  assert (R : sequence (map (fun x => np_interp x (starts (s + 1 + m) (m2 :: g)) (w :: col)) (where_from (s + 1 + m) (layout (m2 :: g)))) = Some rest).
  { apply IH; [auto|]. intros k K. apply Z. cbn [length] in *. replace (S (S (length g)) - 1) with (S (S (length g) - 1)) by lia. exact K. }
  rewrite map_app. rewrite (map_ext_in _ (fun x => np_interp x (starts (s + 1 + m) (m2 :: g)) (w :: col)) (where_from (s + 1 + m) (layout (m2 :: g)))).
  2: { intros x I. rewrite where_layout in I. assert (X : s + 1 + m < x). { apply in_app_iff in I as [I|I]; [apply in_seq in I; lia|]. apply In_where_from in I. lia. }
       change (starts s (m :: m2 :: g)) with (s :: starts (s + 1 + m) (m2 :: g)). cbn [np_interp]. destruct (Nat.leb_spec x s); [lia|]. cbn [starts]. destruct (Nat.ltb_spec x (s + 1 + m)); [lia|]. reflexivity. }
  assert (K : forall n k, 1 <= k -> k + n <= m + 1 -> forall l r, sequence l = Some r ->
    sequence (map (fun x => np_interp x (starts s (m :: m2 :: g)) (v :: w :: col)) (seq (s + k) n) ++ l) = Some (between v w m k n ++ r)).
  { induction n as [|n IHn]; intros k K1 K2 l r E; [exact E|]. cbn [seq map app sequence between].
    replace (np_interp (s + k) (starts s (m :: m2 :: g)) (v :: w :: col)) with (Some (v + (w - v) * inject_Z (Z.of_nat k) / inject_Z (Z.of_nat (m + 1)))%Q).
    - cbn [bind]. replace (S (s + k)) with (s + S k) by lia. rewrite (IHn (S k) ltac:(lia) ltac:(lia) l r E). reflexivity.
    - cbn [starts np_interp]. destruct (Nat.leb_spec (s + k) s); [lia|]. destruct (Nat.ltb_spec (s + k) (s + 1 + m)); [|lia]. replace (s + k - s) with k by lia. replace (s + 1 + m - s) with (m + 1) by lia. reflexivity. }
  apply K; auto; lia.
Qed.
Lemma fill_layout : forall g col, length col = length g -> (forall m, nth_error g (length g - 1) = Some m -> m = 0) ->
  fill_field (layout g) (concat (expand_blocks 0%Q g col)) = Some (concat (filled_blocks g col)).
Proof.
  intros g col L Z. unfold fill_field, where_. rewrite where_known, select_expand by auto. rewrite interp_values by auto. cbn [bind].
  revert col L Z. induction g as [|m g IH]; intros [|v col] L Z; simpl in L; try discriminate; auto. injection L as L. rewrite layout_cons. cbn [expand_blocks concat app mask_store values filled_blocks].
  assert (Z' : forall k, nth_error g (length g - 1) = Some k -> k = 0). { intros k K. apply Z. cbn [length]. destruct g; [discriminate|]. cbn [length] in *. replace (S (S (length g)) - 1) with (S (S (length g) - 1)) by lia. exact K. }
  destruct col as [|w col].
  - destruct g; [|discriminate]. rewrite (Z m eq_refl). reflexivity.
  - rewrite mask_store_put by (rewrite ?repeat_length, ?length_between; auto). rewrite (IH (w :: col) L Z'). reflexivity.
Qed.

(** ** Positions *)
Lemma nth_concat : forall {A} (L : list (list A)) i b k, nth_error L i = Some b -> k < length b -> nth_error (concat L) (sum_list (map (@length A) (firstn i L)) + k) = nth_error b k.
Proof.
  induction L as [|a L IH]; intros [|i] b k E K; simpl in *; try discriminate.
  - injection E as ->. apply nth_error_app1. auto.
  - rewrite <- Nat.add_assoc, nth_error_app2 by lia. replace (length a + _ - length a) with (sum_list (map (@length A) (firstn i L)) + k) by lia. auto.
Qed.
Lemma nth_blocks : forall {A} g (L : list (list A)) i b k, map (@length A) L = map S g -> nth_error L i = Some b -> k < length b -> nth_error (concat L) (moved g i + k) = nth_error b k.
Proof.
  intros A g L i b k E B K. rewrite <- (nth_concat L i b k B K). f_equal. f_equal. unfold moved, block.
  assert (IL : i <= length g). { apply nth_error_Some_lt in B. apply (f_equal (@length nat)) in E. rewrite !map_length in E. lia. }
  replace (map (@length A) (firstn i L)) with (firstn i (map S g)) by (rewrite <- E, firstn_map; auto). clear - IL. revert i IL. induction g as [|m g IH]; intros [|i] IL; simpl in *; try lia. specialize (IH i ltac:(lia)). lia.
Qed.
Lemma length_concat_blocks : forall {A} g (L : list (list A)), map (@length A) L = map S g -> length (concat L) = length g + sum_list g.
Proof. induction g as [|m g IH]; intros [|a L] E; simpl in *; try discriminate; auto. injection E as E1 E2. rewrite app_length, (IH L E2). lia. Qed.

Lemma expand_lengths : forall {A} (z : A) g col, length col = length g -> map (@length A) (expand_blocks z g col) = map S g.
Proof. induction g as [|m g IH]; intros [|v col] L; simpl in *; try discriminate; auto. rewrite repeat_length. f_equal. auto. Qed.
Lemma filled_lengths : forall g col, length col = length g -> (forall m, nth_error g (length g - 1) = Some m -> m = 0) -> map (@length Q) (filled_blocks g col) = map S g.
Proof.
  induction g as [|m g IH]; intros [|v col] L Z; simpl in L; try discriminate; auto. injection L as L. cbn [filled_blocks map length]. f_equal.
  - f_equal. destruct col as [|w col]; [|apply length_between]. destruct g; [|discriminate]. rewrite (Z m eq_refl). auto.
  - apply IH; [auto|]. intros k K. apply Z. cbn [length]. destruct g; [discriminate|]. cbn [length] in *. replace (S (S (length g)) - 1) with (S (S (length g) - 1)) by lia. exact K.
Qed.
Lemma layout_lengths : forall g, map (@length bool) (map (fun m => false :: repeat true m) g) = map S g.
Proof. induction g as [|m g IH]; simpl; auto. rewrite repeat_length. f_equal. auto. Qed.
Lemma nth_expand : forall {A} (z : A) g col i m v, nth_error g i = Some m -> nth_error col i = Some v -> nth_error (expand_blocks z g col) i = Some (v :: repeat z m).
Proof. induction g as [|n g IH]; intros [|u col] [|i] m v G C; simpl in *; try discriminate; [congruence|auto]. Qed.
Lemma nth_filled : forall g col i m v, nth_error g i = Some m -> nth_error col i = Some v ->
  nth_error (filled_blocks g col) i = Some (v :: match nth_error col (S i) with None => [] | Some w => between v w m 1 m end).
Proof. induction g as [|n g IH]; intros [|u col] [|i] m v G C; simpl in G, C; try discriminate; [injection G as ->; injection C as ->; destruct col; reflexivity|]. cbn [filled_blocks nth_error]. rewrite (IH col i m v G C). reflexivity. Qed.

(** ** What is inserted *)
Lemma layout_inserted : forall g i m, nth_error g i = Some m ->
  nth_error (layout g) (moved g i) = Some false /\ forall k, 1 <= k <= m -> nth_error (layout g) (moved g i + k) = Some true.
Proof.
  intros g i m G. assert (B : nth_error (map (fun m => false :: repeat true m) g) i = Some (false :: repeat true m)) by (rewrite nth_error_map, G; auto). split.
  - unfold layout. rewrite <- (Nat.add_0_r (moved g i)). rewrite (nth_blocks g _ i _ 0 (layout_lengths g) B); [auto|simpl; lia].
  - intros k K. unfold layout. rewrite (nth_blocks g _ i _ k (layout_lengths g) B) by (simpl; rewrite repeat_length; lia). destruct k; [lia|]. simpl. rewrite nth_error_repeat_lt. destruct (Nat.ltb_spec k m); [auto|lia].
Qed.
Lemma spread_inserted : forall {A} (z : A) g col, length col = length g -> inserted g col (concat (expand_blocks z g col)) (fun _ _ x => x = z).
Proof.
  intros A z g col L. pose proof (expand_lengths z g col L) as E. split; [rewrite (length_concat_blocks g _ E); lia|].
  intros i m v G C. pose proof (nth_expand z g col i m v G C) as B. split.
  - rewrite <- (Nat.add_0_r (moved g i)), (nth_blocks g _ i _ 0 E B); [auto|simpl; lia].
  - intros k K. exists z. split; [|auto]. rewrite (nth_blocks g _ i _ k E B) by (simpl; rewrite repeat_length; lia). destruct k; [lia|]. simpl. rewrite nth_error_repeat_lt. destruct (Nat.ltb_spec k m); [auto|lia].
Qed.
Lemma filled_inserted : forall g col, length col = length g -> (forall m, nth_error g (length g - 1) = Some m -> m = 0) -> inserted g col (concat (filled_blocks g col)) (spaced g col).
Proof.
  intros g col L Z. pose proof (filled_lengths g col L Z) as E. split; [rewrite (length_concat_blocks g _ E); lia|].
  intros i m v G C. pose proof (nth_filled g col i m v G C) as B. split.
  - rewrite <- (Nat.add_0_r (moved g i)), (nth_blocks g _ i _ 0 E B); [auto|simpl; lia].
  - intros k K. destruct (nth_error col (S i)) as [w|] eqn:W.
    + exists (v + (w - v) * inject_Z (Z.of_nat k) / inject_Z (Z.of_nat m + 1))%Q. split.
      * rewrite (nth_blocks g _ i _ k E B) by (simpl; rewrite length_between; lia). destruct k; [lia|]. cbn [nth_error]. rewrite nth_between by lia. replace (Z.of_nat (m + 1)) with (Z.of_nat m + 1)%Z by lia. reflexivity.
      * exists m, v, w. split; [auto|]. split; [auto|]. split; [auto|]. reflexivity.
    + exfalso. apply nth_error_None in W. assert (i < length col) by (eapply nth_error_Some_lt; eauto). assert (m = 0); [|lia]. apply Z. replace (length g - 1) with i by lia. auto.
Qed.
