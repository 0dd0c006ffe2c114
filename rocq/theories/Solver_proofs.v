(** Lemmas about the association solvers of [Solver_model]. *)
From Coq Require Import List Arith Bool QArith Lia Lqa.
From Verif Require Import Base Qaux Solver_model.
Import ListNotations.
Local Close Scope Q_scope.
Local Open Scope nat_scope.

(** ** Shapes and cells *)
Definition shaped {A} (n m : nat) (M : mat A) : Prop :=
  length M = n /\ Forall (fun r => length r = m) M.

Lemma shaped_get : forall {A} n m (M : mat A) i j,
  shaped n m M -> i < n -> j < m -> exists v, get M i j = Some v.
Proof.
  intros A n m M i j [L F] Hi Hj. unfold get. rewrite <- L in Hi.
  destruct (nth_error_lt_Some M i Hi) as [r Hr]. rewrite Hr.
  rewrite Forall_forall in F. apply nth_error_lt_Some.
  rewrite (F r (nth_error_In _ _ Hr)). exact Hj.
Qed.

Lemma shaped_bound : forall {A} n m (M : mat A) i j v,
  shaped n m M -> get M i j = Some v -> i < n /\ j < m.
Proof.
  intros A n m M i j v [L F] H. unfold get in H.
  destruct (nth_error M i) as [r|] eqn:E; [|discriminate].
  pose proof (nth_error_Some_lt _ _ _ E). rewrite Forall_forall in F.
  pose proof (F r (nth_error_In _ _ E)). apply nth_error_Some_lt in H. lia.
Qed.

Lemma nth_error_upd_with : forall {A} (f : A -> A) l i k,
  nth_error (upd_with f l i) k =
  option_map (fun a => if k =? i then f a else a) (nth_error l k).
Proof.
  induction l as [|a l IH]; intros i k; simpl.
  - destruct k; reflexivity.
  - destruct i as [|i], k as [|k]; simpl; auto.
    destruct (nth_error l k); reflexivity.
Qed.

Lemma length_upd_with : forall {A} (f : A -> A) l i, length (upd_with f l i) = length l.
Proof. induction l; intros [|i]; simpl; auto. Qed.

Lemma nth_error_upd_map : forall {A} (l : list A) i k x,
  nth_error (upd l i x) k = option_map (fun a => if k =? i then x else a) (nth_error l k).
Proof.
  intros. rewrite nth_error_upd. destruct (Nat.eqb_spec k i) as [->|N].
  - destruct (Nat.ltb_spec i (length l)).
    + destruct (nth_error_lt_Some l i H) as [a ->]. reflexivity.
    + apply nth_error_None in H. now rewrite H.
  - now destruct (nth_error l k).
Qed.

Lemma get_set_row : forall {A} (M : mat A) i v a b,
  get (set_row M i v) a b = option_map (fun x => if a =? i then v else x) (get M a b).
Proof.
  intros. unfold get, set_row. rewrite nth_error_upd_with.
  destruct (nth_error M a) as [r|]; simpl; auto.
  destruct (a =? i).
  - rewrite nth_error_map. now destruct (nth_error r b).
  - now destruct (nth_error r b).
Qed.

Lemma get_set_col : forall {A} (M : mat A) j v a b,
  get (set_col M j v) a b = option_map (fun x => if b =? j then v else x) (get M a b).
Proof.
  intros. unfold get, set_col. rewrite nth_error_map.
  destruct (nth_error M a) as [r|]; simpl; auto. apply nth_error_upd_map.
Qed.

Lemma get_set_cell : forall {A} (M : mat A) i j v a b,
  get (set_cell M i j v) a b =
  option_map (fun x => if (a =? i) && (b =? j) then v else x) (get M a b).
Proof.
  intros. unfold get, set_cell. rewrite nth_error_upd_with.
  destruct (nth_error M a) as [r|]; simpl; auto.
  destruct (a =? i); simpl.
  - apply nth_error_upd_map.
  - now destruct (nth_error r b).
Qed.

Lemma Forall_upd_with : forall {A} (P : A -> Prop) f l i,
  (forall a, P a -> P (f a)) -> Forall P l -> Forall P (upd_with f l i).
Proof.
  intros A P f l i Hf H. revert i. induction H; intros [|i]; simpl; auto.
Qed.

Lemma shaped_set_row : forall {A} n m (M : mat A) i v, shaped n m M -> shaped n m (set_row M i v).
Proof.
  intros A n m M i v [L F]. split; unfold set_row.
  - now rewrite length_upd_with.
  - apply Forall_upd_with; auto. intros; now rewrite map_length.
Qed.
Lemma shaped_set_col : forall {A} n m (M : mat A) i v, shaped n m M -> shaped n m (set_col M i v).
Proof.
  intros A n m M i v [L F]. split; unfold set_col.
  - now rewrite map_length.
  - apply Forall_map. eapply Forall_impl; [|exact F]. intros; simpl. now rewrite length_upd.
Qed.
Lemma shaped_set_cell : forall {A} n m (M : mat A) i j v, shaped n m M -> shaped n m (set_cell M i j v).
Proof.
  intros A n m M i j v [L F]. split; unfold set_cell.
  - now rewrite length_upd_with.
  - apply Forall_upd_with; auto. intros; now rewrite length_upd.
Qed.

(** ** Flat positions *)
Lemma nth_error_concat : forall {A} w (M : mat A) n p,
  shaped n w M -> 0 < w ->
  nth_error (concat M) p = get M (p / w) (p mod w).
Proof.
  intros A w M n p [L F] Hw. revert n p L. induction F as [|r M Hr F IH]; intros n p L.
  - simpl. unfold get. destruct (p / w); destruct p; reflexivity.
  - simpl concat. destruct (Nat.lt_ge_cases p w) as [H|H].
    + rewrite nth_error_app1 by lia. rewrite Nat.div_small, Nat.mod_small by auto. reflexivity.
    + rewrite nth_error_app2 by lia. rewrite Hr.
      rewrite (IH (length M) (p - w) eq_refl).
      replace p with ((p - w) + 1 * w) at 3 4 by lia.
      rewrite Nat.div_add, Nat.mod_add by lia. rewrite Nat.add_1_r. reflexivity.
Qed.

(** ** argmin *)
Lemma argmin_from_spec : forall l p best r,
  argmin_from p best l = r ->
  (r = best /\ (forall q c, nth_error l q = Some (Some c) ->
       exists b, best = Some b /\ (snd b <= c)%Q))
  \/ exists q c, nth_error l q = Some (Some c) /\ r = Some (p + q, c) /\
       (forall b, best = Some b -> (c < snd b)%Q) /\
       (forall q' c', nth_error l q' = Some (Some c') -> (c <= c')%Q) /\
       (forall q' c', q' < q -> nth_error l q' = Some (Some c') -> (c < c')%Q).
Proof.
  induction l as [|[x|] l IH]; intros p best r H; simpl in H.
  - left. split; auto. intros q c Hq. destruct q; discriminate.
  - assert (T : (exists b, best = Some b /\ (snd b <= x)%Q /\ argmin_from (S p) best l = r)
             \/ ((forall b, best = Some b -> (x < snd b)%Q) /\ argmin_from (S p) (Some (p, x)) l = r)).
    { destruct best as [[bp b]|].
      - destruct (Qlt_bool x b) eqn:E.
        + right. split; auto. intros b' [= <-]. apply Qlt_bool_iff in E. exact E.
        + left. apply Qlt_bool_false in E. eauto.
      - right. split; auto. discriminate. }
    destruct T as [(b & Eb & Hb & T)|(Hb & T)]; apply IH in T.
    + destruct T as [(T1 & T2)|(q & c & T1 & T2 & T3 & T4 & T5)].
      * left. split; auto. intros [|q] c Hq; simpl in Hq; [|eauto].
        injection Hq as <-. eauto.
      * right. exists (S q), c. split; auto. split; [rewrite T2; f_equal; f_equal; lia|].
        pose proof (T3 _ Eb) as Hc. split; auto. split.
        -- intros [|q'] c' Hq; simpl in Hq; [injection Hq as <-; lra|eauto].
        -- intros [|q'] c' Hl Hq; simpl in Hq; [injection Hq as <-; lra|]. eapply T5; eauto. lia.
    + destruct T as [(T1 & T2)|(q & c & T1 & T2 & T3 & T4 & T5)].
      * right. exists 0, x. split; auto. split; [rewrite T1; f_equal; f_equal; lia|].
        split; auto. split.
        -- intros [|q'] c' Hq; simpl in Hq; [injection Hq as <-; lra|].
           destruct (T2 _ _ Hq) as (b & [= <-] & Hle). exact Hle.
        -- intros; lia.
      * right. exists (S q), c. split; auto. split; [rewrite T2; f_equal; f_equal; lia|].
        pose proof (T3 _ eq_refl) as Hc. simpl in Hc. split.
        { intros b Eb. specialize (Hb b Eb). lra. }
        split.
        -- intros [|q'] c' Hq; simpl in Hq; [injection Hq as <-; lra|eauto].
        -- intros [|q'] c' Hl Hq; simpl in Hq; [injection Hq as <-; lra|]. eapply T5; eauto. lia.
  - apply IH in H. destruct H as [(T1 & T2)|(q & c & T1 & T2 & T3 & T4 & T5)].
    + left. split; auto. intros [|q] c Hq; simpl in Hq; [discriminate|eauto].
    + right. exists (S q), c. split; auto. split; [rewrite T2; f_equal; f_equal; lia|]. split; auto.
      split.
      * intros [|q'] c' Hq; simpl in Hq; [discriminate|eauto].
      * intros [|q'] c' Hl Hq; simpl in Hq; [discriminate|]. eapply T5; eauto. lia.
Qed.

Lemma argmin_Some : forall l p,
  argmin l = Some p ->
  exists c, nth_error l p = Some (Some c) /\
    (forall q c', nth_error l q = Some (Some c') -> (c <= c')%Q) /\
    (forall q c', q < p -> nth_error l q = Some (Some c') -> (c < c')%Q).
Proof.
  intros l p H. unfold argmin in H.
  destruct (argmin_from_spec l 0 None _ eq_refl) as [(E & N)|(q & c & H1 & H2 & _ & H4 & H5)].
  - rewrite E in H. discriminate.
  - rewrite H2 in H. simpl in H. injection H as <-. exists c. auto.
Qed.

Lemma argmin_None : forall l, argmin l = None -> forall q c, nth_error l q <> Some (Some c).
Proof.
  intros l H q c Hq. unfold argmin in H.
  destruct (argmin_from_spec l 0 None _ eq_refl) as [(E & N)|(q' & c' & H1 & H2 & _)].
  - destruct (N _ _ Hq) as (b & [=] & _).
  - rewrite H2 in H. discriminate.
Qed.

(** ** Counting *)
Lemma count_true_two : forall l,
  1 < count_true l <->
  exists i j, i < j /\ nth_error l i = Some true /\ nth_error l j = Some true.
Proof.
  assert (One : forall l, 0 < count_true l <-> exists j, nth_error l j = Some true).
  { induction l as [|b l IH]; simpl.
    - split; [lia|]. intros [j H]; destruct j; discriminate.
    - destruct b; simpl.
      + split; [|lia]. intros _. exists 0. reflexivity.
      + rewrite IH. split; intros [j H].
        * exists (S j). exact H.
        * destruct j as [|j]; [discriminate|]. exists j. exact H. }
  induction l as [|b l IH]; simpl.
  - split; [lia|]. intros (i & j & _ & H & _). destruct i; discriminate.
  - destruct b; simpl.
    + split.
      * intros H. destruct (proj1 (One l) ltac:(lia)) as [j Hj]. exists 0, (S j). repeat split; auto. lia.
      * intros (i & j & Hij & Hi & Hj). destruct j as [|j]; [lia|].
        assert (0 < count_true l) by (apply One; exists j; exact Hj). lia.
    + rewrite IH. split; intros (i & j & Hij & Hi & Hj).
      * exists (S i), (S j). repeat split; auto. lia.
      * destruct i as [|i]; [discriminate|]. destruct j as [|j]; [discriminate|].
        exists i, j. repeat split; auto. lia.
Qed.

Lemma In_select : forall {A} m (l : list A) x,
  In x (select m l) <-> exists i, nth_error m i = Some true /\ nth_error l i = Some x.
Proof.
  induction m as [|b m IH]; intros l x; simpl.
  - split; [intros []|]. intros (i & H & _). destruct i; discriminate.
  - destruct l as [|a l].
    + split; [intros []|]. intros (i & _ & H). destruct i; discriminate.
    + assert (R : In x (select m l) <-> exists i, nth_error (b :: m) (S i) = Some true /\ nth_error (a :: l) (S i) = Some x)
        by apply IH.
      destruct b; simpl.
      * split.
        -- intros [->|H]; [exists 0; auto|]. apply R in H as (i & H). exists (S i). exact H.
        -- intros ([|i] & H1 & H2); [left; simpl in H2; congruence|]. right. apply R. exists i. auto.
      * rewrite R. split; intros (i & H1 & H2); [exists (S i); auto|].
        destruct i as [|i]; [discriminate|]. exists i. auto.
Qed.

Lemma cell_true_iff : forall r j, cell_true r j = true <-> nth_error r j = Some true.
Proof.
  intros. unfold cell_true. destruct (nth_error r j) as [[|]|]; split; congruence.
Qed.

(** ** Conflict rows and columns *)
Section Keep.
  Context (n m : nat) (M : mat bool).
  Context (SH : shaped n m M).

  Lemma separation_true : forall i,
    nth_error (separation M) i = Some true <->
    exists j j', j <> j' /\ get M i j = Some true /\ get M i j' = Some true.
  Proof.
    intros i. unfold separation, row_sum. rewrite !nth_error_map.
    unfold get. destruct (nth_error M i) as [r|]; simpl.
    - split.
      + intros H. injection H as H. apply Nat.ltb_lt, count_true_two in H.
        destruct H as (a & b & Hab & Ha & Hb). exists a, b. repeat split; auto. lia.
      + intros (a & b & Hab & Ha & Hb). f_equal. apply Nat.ltb_lt, count_true_two.
        destruct (Nat.lt_ge_cases a b); [exists a, b|exists b, a]; repeat split; auto; lia.
    - split; [discriminate|]. intros (a & b & _ & H & _). discriminate.
  Qed.

  Lemma merging_true : forall j,
    nth_error (merging m M) j = Some true <->
    exists i i', i <> i' /\ get M i j = Some true /\ get M i' j = Some true.
  Proof.
    intros j. unfold merging, column_sum. rewrite !nth_error_map, nth_error_seq.
    assert (G : forall i, nth_error (map (fun r => cell_true r j) M) i = Some true <-> get M i j = Some true).
    { intros i. rewrite nth_error_map. unfold get. destruct (nth_error M i) as [r|]; simpl; [|split; discriminate].
      rewrite <- cell_true_iff. split; [intros [= H]; auto|intros ->; auto]. }
    destruct (Nat.ltb_spec j m); simpl.
    - split.
      + intros E. injection E as E. apply Nat.ltb_lt, count_true_two in E.
        destruct E as (a & b & Hab & Ha & Hb). exists a, b. rewrite <- !G. repeat split; auto. lia.
      + intros (a & b & Hab & Ha & Hb). f_equal. apply Nat.ltb_lt, count_true_two.
        rewrite <- G in Ha, Hb.
        destruct (Nat.lt_ge_cases a b); [exists a, b|exists b, a]; repeat split; auto; lia.
    - split; [discriminate|]. intros (a & b & _ & Ha & _).
      apply (shaped_bound n m) in Ha; auto. lia.
  Qed.

  Lemma length_separation : length (separation M) = n.
  Proof. unfold separation, row_sum. rewrite !map_length. apply SH. Qed.
  Lemma length_merging : length (merging m M) = m.
  Proof. unfold merging, column_sum. rewrite !map_length. apply seq_length. Qed.

  Lemma nth_orb_list : forall a b k,
    length a = length b ->
    (nth_error (orb_list a b) k = Some true <-> nth_error a k = Some true \/ nth_error b k = Some true).
  Proof.
    unfold orb_list. induction a as [|x a IH]; intros [|y b] k L; simpl in *; try discriminate.
    - destruct k; simpl; intuition discriminate.
    - destruct k as [|k]; simpl.
      + destruct x, y; simpl; intuition discriminate.
      + apply IH. lia.
  Qed.

  Lemma In_self_keep : forall i,
    In i (self_keep m M) <->
    (exists j, get M i j = Some true /\ nth_error (merging m M) j = Some true) \/
    nth_error (separation M) i = Some true.
  Proof.
    intros i. unfold self_keep. rewrite In_where, nth_orb_list.
    2:{ unfold any_row. rewrite map_length, length_separation. apply SH. }
    apply or_iff_compat_r. unfold any_row. rewrite nth_error_map. unfold get.
    destruct (nth_error M i) as [r|]; simpl.
    - split.
      + intros E. injection E as E. apply existsb_exists in E as (b & Hb & ->).
        apply In_select in Hb as (j & H1 & H2). exists j. auto.
      + intros (j & H1 & H2). f_equal. apply existsb_exists. exists true. split; auto.
        apply In_select. exists j. auto.
    - split; [discriminate|]. intros (j & H & _). discriminate.
  Qed.

  Lemma In_other_keep : forall j,
    In j (other_keep m M) <->
    (exists i, get M i j = Some true /\ nth_error (separation M) i = Some true) \/
    nth_error (merging m M) j = Some true.
  Proof.
    intros j. unfold other_keep. rewrite In_where, nth_orb_list.
    2:{ unfold any_col. rewrite map_length, length_merging. apply seq_length. }
    apply or_iff_compat_r. unfold any_col. rewrite nth_error_map, nth_error_seq.
    destruct (Nat.ltb_spec j m); simpl.
    - split.
      + intros E. injection E as E. apply existsb_exists in E as (r & Hr & E).
        apply In_select in Hr as (i & H1 & H2). exists i. split; auto.
        unfold get. rewrite H2. apply cell_true_iff. exact E.
      + intros (i & H1 & H2). f_equal. apply existsb_exists. unfold get in H1.
        destruct (nth_error M i) as [r|] eqn:E; [|discriminate].
        exists r. split; [|apply cell_true_iff; exact H1].
        apply In_select. exists i. auto.
    - split; [discriminate|]. intros (i & Hi & _).
      apply (shaped_bound n m) in Hi; auto. lia.
  Qed.

  (** two links on a row: both ends are in the reduced matrix *)
  Lemma keep_row_conflict : forall i j j',
    j <> j' -> get M i j = Some true -> get M i j' = Some true ->
    In i (self_keep m M) /\ In j (other_keep m M).
  Proof.
    intros i j j' N H H'.
    assert (S : nth_error (separation M) i = Some true) by (apply separation_true; eauto).
    split; [apply In_self_keep; auto|]. apply In_other_keep. left. eauto.
  Qed.
  Lemma keep_col_conflict : forall i i' j,
    i <> i' -> get M i j = Some true -> get M i' j = Some true ->
    In i (self_keep m M) /\ In j (other_keep m M).
  Proof.
    intros i i' j N H H'.
    assert (S : nth_error (merging m M) j = Some true) by (apply merging_true; eauto).
    split; [apply In_self_keep; left; eauto|]. apply In_other_keep. auto.
  Qed.
  (** the reduced matrix is closed under links *)
  Lemma keep_closed_row : forall i j,
    In i (self_keep m M) -> get M i j = Some true -> In j (other_keep m M).
  Proof.
    intros i j Hi H. apply In_self_keep in Hi as [(j0 & H0 & Hm)|Hs].
    - destruct (Nat.eq_dec j j0) as [->|N]; [apply In_other_keep; auto|].
      eapply keep_row_conflict; eauto.
    - apply In_other_keep. left. eauto.
  Qed.
  Lemma keep_closed_col : forall i j,
    In j (other_keep m M) -> get M i j = Some true -> In i (self_keep m M).
  Proof.
    intros i j Hj H. apply In_other_keep in Hj as [(i0 & H0 & Hs)|Hm].
    - destruct (Nat.eq_dec i i0) as [->|N]; [apply In_self_keep; auto|].
      eapply keep_col_conflict; eauto.
    - apply In_self_keep. left. eauto.
  Qed.

  Lemma self_keep_bound : forall i, In i (self_keep m M) -> i < n.
  Proof.
    intros i H. apply In_self_keep in H as [(j & H & _)|H].
    - eapply shaped_bound in H; eauto. lia.
    - apply nth_error_Some_lt in H. now rewrite length_separation in H.
  Qed.
  Lemma other_keep_bound : forall j, In j (other_keep m M) -> j < m.
  Proof.
    intros j H. apply In_other_keep in H as [(i & H & _)|H].
    - eapply shaped_bound in H; eauto. lia.
    - apply nth_error_Some_lt in H. now rewrite length_merging in H.
  Qed.

  Lemma no_conflict : 
    existsb (fun b => b) (separation M) || existsb (fun b => b) (merging m M) = false ->
    (forall i j j', get M i j = Some true -> get M i j' = Some true -> j = j') /\
    (forall i i' j, get M i j = Some true -> get M i' j = Some true -> i = i').
  Proof.
    intros H. apply orb_false_iff in H as [H1 H2]. split.
    - intros i j j' A B. destruct (Nat.eq_dec j j') as [|N]; auto. exfalso.
      assert (S : nth_error (separation M) i = Some true) by (apply separation_true; eauto).
      assert (existsb (fun b => b) (separation M) = true).
      { apply existsb_exists. exists true. split; auto. eapply nth_error_In; eauto. }
      congruence.
    - intros i i' j A B. destruct (Nat.eq_dec i i') as [|N]; auto. exfalso.
      assert (S : nth_error (merging m M) j = Some true) by (apply merging_true; eauto).
      assert (existsb (fun b => b) (merging m M) = true).
      { apply existsb_exists. exists true. split; auto. eapply nth_error_In; eauto. }
      congruence.
  Qed.
End Keep.

(** ** submatrix *)
Lemma gather_rows_spec : forall {A} w (rows : mat A) ix,
  Forall (fun r => length r = w) rows -> (forall j, In j ix -> j < w) ->
  exists R, gather_rows rows ix = Some R /\ shaped (length rows) (length ix) R /\
    forall a b j, nth_error ix b = Some j -> get R a b = get rows a j.
Proof.
  induction rows as [|r rows IH]; intros ix F B; simpl.
  - exists []. split; auto. split; [split; auto|]. intros a b j _. unfold get. destruct a; reflexivity.
  - inversion F as [|? ? Lr F']; subst.
    destruct (gather_total r ix B) as [r' Hr]. rewrite Hr. simpl.
    destruct (IH ix F' B) as (R & HR & [S1 S2] & G). rewrite HR. simpl.
    pose proof (proj1 (gather_Some _ _ _) Hr) as [L' G'].
    exists (r' :: R). split; auto. split.
    + split; simpl; auto.
    + intros [|a] b j Hb.
      * unfold get. simpl. destruct (G' _ _ Hb) as (x & Hx & Hx'). congruence.
      * unfold get. simpl. apply (G a b j Hb).
Qed.

Lemma submatrix_spec : forall {A} n m (C : mat A) ki kj,
  shaped n m C -> (forall i, In i ki -> i < n) -> (forall j, In j kj -> j < m) ->
  exists R, submatrix C ki kj = Some R /\ shaped (length ki) (length kj) R /\
    forall a b i j, nth_error ki a = Some i -> nth_error kj b = Some j -> get R a b = get C i j.
Proof.
  intros A n m C ki kj [L F] Bi Bj. unfold submatrix.
  destruct (gather_total C ki) as [rows Hr]; [intros i Hi; rewrite L; auto|].
  rewrite Hr. simpl. pose proof (proj1 (gather_Some _ _ _) Hr) as [Lr Gr].
  assert (F' : Forall (fun r => length r = m) rows).
  { apply Forall_forall. intros r Hin. apply In_nth_error in Hin as [a Ha].
    destruct (nth_error_lt_Some ki a) as [i Hi]. { rewrite <- Lr. eapply nth_error_Some_lt; eauto. }
    destruct (Gr _ _ Hi) as (x & Hx & Hx'). rewrite Ha in Hx'. injection Hx' as ->.
    rewrite Forall_forall in F. apply F. eapply nth_error_In; eauto. }
  destruct (gather_rows_spec m rows kj F' Bj) as (R & HR & S & G).
  exists R. split; auto. split; [rewrite <- Lr; auto|].
  intros a b i j Ha Hb. rewrite (G a b j Hb). destruct (Gr _ _ Ha) as (r & H1 & H2).
  unfold get. rewrite H1, H2. reflexivity.
Qed.

(** ** The solver invariant *)
Definition linked (mask : mat bool) (i j : nat) : Prop := get mask i j = Some true.
Definition allowed (cost : mat (option Q)) (i j : nat) (c : Q) : Prop := get cost i j = Some (Some c).

Lemma get_is_some : forall (cost : mat (option Q)) i j,
  get (map (map is_some) cost) i j = option_map is_some (get cost i j).
Proof.
  intros. unfold get. rewrite nth_error_map. destruct (nth_error cost i); simpl; auto.
  apply nth_error_map.
Qed.

Lemma linked_init : forall cost i j,
  linked (map (map is_some) cost) i j <-> exists c, allowed cost i j c.
Proof.
  intros. unfold linked, allowed. rewrite get_is_some. destruct (get cost i j) as [[c|]|]; simpl.
  - split; eauto.
  - split; [discriminate|]. intros [c H]. discriminate.
  - split; [discriminate|]. intros [c H]. discriminate.
Qed.

Lemma shaped_is_some : forall n m (cost : mat (option Q)),
  shaped n m cost -> shaped n m (map (map is_some) cost).
Proof.
  intros n m cost [L F]. split; [now rewrite map_length|].
  apply Forall_map. eapply Forall_impl; [|exact F]. simpl. intros. now rewrite map_length.
Qed.

Section Resolve.
  Context (n m : nat) (cost : mat (option Q)) (ki kj : list nat).
  Context (SH : shaped n m cost).
  Context (NDi : NoDup ki) (NDj : NoDup kj).
  Context (Bi : forall i, In i ki -> i < n) (Bj : forall j, In j kj -> j < m).

  (** [T] lists the links taken so far. *)
  Record inv (T : list (nat * nat)) (mask : mat bool) (red : mat (option Q)) : Prop := {
    inv_mask_shape : shaped n m mask;
    inv_red_shape : shaped (length ki) (length kj) red;
    inv_red : forall a b i j, nth_error ki a = Some i -> nth_error kj b = Some j ->
      (In i (map fst T) \/ In j (map snd T) -> get red a b = Some None) /\
      (~ In i (map fst T) -> ~ In j (map snd T) -> get red a b = get cost i j);
    inv_mask : forall i j, linked mask i j <->
      In (i, j) T \/ (~ In i (map fst T) /\ ~ In j (map snd T) /\ exists c, allowed cost i j c);
    inv_rows : NoDup (map fst T); inv_cols : NoDup (map snd T);
    inv_in : forall i j, In (i, j) T -> In i ki /\ In j kj /\ exists c, allowed cost i j c;
    inv_beaten : forall i j c, allowed cost i j c -> In i ki -> In j kj ->
      In i (map fst T) \/ In j (map snd T) ->
      exists i' j' c', In (i', j') T /\ allowed cost i' j' c' /\ (i' = i \/ j' = j) /\ (c' <= c)%Q
  }.

  Lemma inv_step : forall T mask red p,
    inv T mask red -> argmin (concat red) = Some p ->
    exists i j mask' red',
      take_link ki kj (mask, red) (p / length kj) (p mod length kj) = Some (mask', red') /\
      inv ((i, j) :: T) mask' red'.
  Proof.
    intros T mask red p I E.
    destruct (argmin_Some _ _ E) as (c & Hc & Hmin & _).
    pose proof (inv_red_shape _ _ _ I) as SR.
    assert (W : 0 < length kj).
    { destruct (length kj) eqn:Z; [|lia]. exfalso.
      destruct SR as [_ F]. assert (concat red = []).
      { clear -F. induction F as [|r red Hr F IH]; simpl; auto. destruct r; [auto|discriminate]. }
      rewrite H in Hc. destruct p; discriminate. }
    rewrite (nth_error_concat (length kj) red (length ki)) in Hc by auto.
    set (a := p / length kj) in *. set (b := p mod length kj) in *.
    destruct (shaped_bound _ _ _ _ _ _ SR Hc) as [Ha Hb].
    destruct (nth_error_lt_Some _ _ Ha) as [i Hi]. destruct (nth_error_lt_Some _ _ Hb) as [j Hj].
    destruct (inv_red _ _ _ I a b i j Hi Hj) as [R1 R2].
    assert (Ni : ~ In i (map fst T)) by (intros X; rewrite R1 in Hc by auto; discriminate).
    assert (Nj : ~ In j (map snd T)) by (intros X; rewrite R1 in Hc by auto; discriminate).
    assert (Al : allowed cost i j c) by (unfold allowed; rewrite <- (R2 Ni Nj); exact Hc).
    assert (Min : forall i' j' c', In i' ki -> In j' kj -> ~ In i' (map fst T) -> ~ In j' (map snd T) ->
              allowed cost i' j' c' -> (c <= c')%Q).
    { intros i' j' c' Hi' Hj' N1 N2 A. apply In_nth_error in Hi' as [a' Ha']. apply In_nth_error in Hj' as [b' Hb'].
      destruct (inv_red _ _ _ I a' b' i' j' Ha' Hb') as [_ R]. specialize (R N1 N2).
      pose proof (nth_error_Some_lt _ _ _ Hb') as Lb'.
      apply (Hmin (a' * length kj + b') c').
      rewrite (nth_error_concat (length kj) red (length ki)) by auto.
      rewrite Nat.div_add_l, Nat.div_small, Nat.add_0_r by lia.
      rewrite Nat.add_comm, Nat.mod_add, Nat.mod_small by lia.
      rewrite R. exact A. }
    exists i, j. unfold take_link. rewrite Hi, Hj. simpl.
    eexists. eexists. split; [reflexivity|].
    assert (Ii : In i ki) by (eapply nth_error_In; eauto).
    assert (Ij : In j kj) by (eapply nth_error_In; eauto).
    constructor.
    - apply shaped_set_cell, shaped_set_col, shaped_set_row. apply (inv_mask_shape _ _ _ I).
    - apply shaped_set_col, shaped_set_row. exact SR.
    - intros a' b' i' j' Ha' Hb'. rewrite get_set_col, get_set_row.
      destruct (inv_red _ _ _ I a' b' i' j' Ha' Hb') as [R1' R2']. simpl.
      assert (Xa : a' = a <-> i' = i).
      { split; intros Eq; subst; [congruence|].
        apply (proj1 (NoDup_nth_error ki) NDi); [eapply nth_error_Some_lt; eauto|congruence]. }
      assert (Xb : b' = b <-> j' = j).
      { split; intros Eq; subst; [congruence|].
        apply (proj1 (NoDup_nth_error kj) NDj); [eapply nth_error_Some_lt; eauto|congruence]. }
      destruct (shaped_get _ _ _ a' b' SR) as [v Hv]; [eapply nth_error_Some_lt; eauto|eapply nth_error_Some_lt; eauto|].
      split.
      + intros H. rewrite Hv. simpl.
        destruct (Nat.eqb_spec b' b); [auto|]. destruct (Nat.eqb_spec a' a); [auto|].
        rewrite <- Hv. apply R1'.
        destruct H as [[H|H]|[H|H]]; auto; exfalso; [apply n1|apply n0]; apply eq_sym in H; tauto.
      + intros N1 N2. rewrite <- R2' by tauto. rewrite Hv. simpl.
        destruct (Nat.eqb_spec b' b); [exfalso; apply N2; left; symmetry; tauto|].
        destruct (Nat.eqb_spec a' a); [exfalso; apply N1; left; symmetry; tauto|]. reflexivity.
    - intros i' j'. unfold linked. rewrite get_set_cell, get_set_col, get_set_row.
      pose proof (inv_mask _ _ _ I i' j') as IM. unfold linked in IM.
      destruct (Nat.eqb_spec i' i) as [->|Na], (Nat.eqb_spec j' j) as [->|Nb]; simpl.
      + split; [left; auto|]. intros _.
        destruct (shaped_get _ _ _ i j (inv_mask_shape _ _ _ I) (Bi _ Ii) (Bj _ Ij)) as [v ->]. reflexivity.
      + split.
        * destruct (get mask i j'); discriminate.
        * intros [[[= <-]|H]|(H & _)]; [congruence| |tauto].
          exfalso. apply Ni. change i with (fst (i, j')). now apply in_map.
      + split.
        * destruct (get mask i' j); discriminate.
        * intros [[[= <-]|H]|(_ & H & _)]; [congruence| |tauto].
          exfalso. apply Nj. change j with (snd (i', j)). now apply in_map.
      + assert (O : option_map (fun x => x) (option_map (fun x => x) (option_map (fun x : bool => x) (get mask i' j'))) = get mask i' j')
          by (destruct (get mask i' j'); reflexivity).
        rewrite O, IM. split.
        * intros [H|(H1 & H2 & H3)]; [auto|]. right. repeat split; auto; intros [X|X]; auto.
        * intros [[[= <- <-]|H]|(H1 & H2 & H3)]; [congruence|auto|]. right. repeat split; auto.
    - simpl. constructor; auto. apply (inv_rows _ _ _ I).
    - simpl. constructor; auto. apply (inv_cols _ _ _ I).
    - intros i' j' [[= <- <-]|H]; [eauto|]. apply (inv_in _ _ _ I _ _ H).
    - intros i' j' c' A Hi' Hj' H. simpl in H.
      destruct (in_dec Nat.eq_dec i' (map fst T)) as [X|X].
      { destruct (inv_beaten _ _ _ I i' j' c' A Hi' Hj' (or_introl X)) as (i2 & j2 & c2 & Z). 
        exists i2, j2, c2. destruct Z; split; [now right|auto]. }
      destruct (in_dec Nat.eq_dec j' (map snd T)) as [Y|Y].
      { destruct (inv_beaten _ _ _ I i' j' c' A Hi' Hj' (or_intror Y)) as (i2 & j2 & c2 & Z). 
        exists i2, j2, c2. destruct Z; split; [now right|auto]. }
      exists i, j, c. split; [now left|]. split; auto. split; [tauto|].
      apply (Min i' j'); auto.
  Qed.

  (** The loop ends within the cap and reaches a state with nothing left. *)
  Lemma resolve_spec : forall fuel T mask red,
    inv T mask red -> length ki < fuel + length T ->
    exists mask' T' red', resolve fuel ki kj (mask, red) = Some mask' /\ inv T' mask' red' /\
      forall i j c, In i ki -> In j kj -> allowed cost i j c ->
        In i (map fst T') \/ In j (map snd T').
  Proof.
    induction fuel as [|fuel IH]; intros T mask red I HF.
    - assert (length T <= length ki).
      { rewrite <- (map_length fst). apply NoDup_incl_length; [apply (inv_rows _ _ _ I)|].
        intros i Hi. apply in_map_iff in Hi as ([i0 j0] & <- & Hij).
        apply (inv_in _ _ _ I) in Hij. tauto. }
      lia.
    - cbn [resolve snd fst]. destruct (argmin (concat red)) as [p|] eqn:E.
      + destruct (inv_step T mask red p I E) as (i & j & mask' & red' & H & I').
        rewrite H. cbn [bind]. apply (IH ((i, j) :: T)); auto. simpl. lia.
      + exists mask, T, red. split; auto. split; auto.
        intros i j c Hi Hj A.
        destruct (in_dec Nat.eq_dec i (map fst T)) as [X|X]; auto.
        destruct (in_dec Nat.eq_dec j (map snd T)) as [Y|Y]; auto. exfalso.
        apply In_nth_error in Hi as [a Ha]. apply In_nth_error in Hj as [b Hb].
        destruct (inv_red _ _ _ I a b i j Ha Hb) as [_ R]. specialize (R X Y).
        pose proof (nth_error_Some_lt _ _ _ Hb) as Lb.
        apply (argmin_None _ E (a * length kj + b) c).
        rewrite (nth_error_concat (length kj) red (length ki)) by (try apply (inv_red_shape _ _ _ I); lia).
        rewrite Nat.div_add_l, Nat.div_small, Nat.add_0_r by lia.
        rewrite Nat.add_comm, Nat.mod_add, Nat.mod_small by lia.
        rewrite R. exact A.
  Qed.
End Resolve.

(** ** solve_simultaneous *)
Definition good_links (cost : mat (option Q)) (L : nat -> nat -> Prop) : Prop :=
  (forall i j, L i j -> exists c, allowed cost i j c) /\
  (forall i j j', L i j -> L i j' -> j = j') /\
  (forall i i' j, L i j -> L i' j -> i = i') /\
  (forall i j c, allowed cost i j c -> L i j \/
     exists i' j' c', L i' j' /\ allowed cost i' j' c' /\ (i' = i \/ j' = j) /\ (c' <= c)%Q).

Lemma solve_simultaneous_spec : forall n m cost,
  shaped n m cost ->
  exists mask, solve_simultaneous m cost = Some mask /\ shaped n m mask /\ good_links cost (linked mask).
Proof.
  intros n m cost SH. unfold solve_simultaneous.
  pose proof (shaped_is_some n m cost SH) as SM.
  set (mask0 := map (map is_some) cost) in *.
  assert (L0 : forall i j, linked mask0 i j <-> exists c, allowed cost i j c) by apply linked_init.
  destruct (Nat.eqb_spec (length cost * m) 0) as [Z|Z].
  { exists mask0. split; auto. split; auto.
    assert (N : forall i j c, ~ allowed cost i j c).
    { intros i j c A. destruct (shaped_bound _ _ _ _ _ _ SH A). destruct SH as [L _]. nia. }
    repeat split.
    - intros i j H. now apply L0.
    - intros i j j' H. apply L0 in H as [c H]. exfalso. eapply N; eauto.
    - intros i i' j H. apply L0 in H as [c H]. exfalso. eapply N; eauto.
    - intros i j c A. exfalso. eapply N; eauto. }
  destruct (existsb (fun b => b) (separation mask0) || existsb (fun b => b) (merging m mask0)) eqn:T.
  - set (ki := self_keep m mask0). set (kj := other_keep m mask0).
    assert (NDi : NoDup ki) by (apply incr_NoDup, incr_where).
    assert (NDj : NoDup kj) by (apply incr_NoDup, incr_where).
    assert (Bi : forall i, In i ki -> i < n) by (apply self_keep_bound; auto).
    assert (Bj : forall j, In j kj -> j < m) by (apply (other_keep_bound n); auto).
    destruct (submatrix_spec n m cost ki kj SH Bi Bj) as (red & ER & SR & GR).
    rewrite ER. simpl.
    assert (I0 : inv n m cost ki kj [] mask0 red).
    { constructor; auto; simpl; try tauto; try constructor.
      - intros [[]|[]].
      - intros _ _. apply GR; auto.
      - intros H. right. repeat split; auto. now apply L0.
      - intros [[]|(_ & _ & H)]. now apply L0. }
    destruct (resolve_spec n m cost ki kj NDi NDj Bi Bj (Nat.max (length ki) (length kj) + 1) [] mask0 red I0) as (mask & Tk & red' & ES & I & Done).
    { simpl. lia. }
    exists mask. split; [exact ES|]. split; [apply (inv_mask_shape _ _ _ _ _ _ _ _ I)|].
    pose proof (inv_mask _ _ _ _ _ _ _ _ I) as IM.
    pose proof (inv_in _ _ _ _ _ _ _ _ I) as II.
    repeat split.
    + intros i j H. apply IM in H as [H|(_ & _ & H)]; auto. apply II in H. tauto.
    + intros i j j' H H'. destruct (Nat.eq_dec j j') as [|Nj]; auto. exfalso.
      apply IM in H. apply IM in H'.
      destruct H as [H|(H1 & H2 & c & H3)], H' as [H'|(H1' & H2' & c' & H3')].
      * clear -H H' Nj I. pose proof (inv_rows _ _ _ _ _ _ _ _ I) as ND.
        clear I. induction Tk as [|[x y] Tk IH]; [destruct H|]. simpl in ND. inversion ND; subst.
        destruct H as [[= -> ->]|H], H' as [E|H'].
        -- injection E as ->. auto.
        -- apply H2. change i with (fst (i, j')). now apply in_map.
        -- injection E as -> ->. apply H2. change i with (fst (i, j)). now apply in_map.
        -- auto.
      * apply H1'. change i with (fst (i, j)). now apply in_map.
      * apply H1. change i with (fst (i, j')). now apply in_map.
      * destruct (keep_row_conflict n m mask0 SM i j j' Nj) as [Ki Kj]; [apply L0; eauto|apply L0; eauto|].
        destruct (Done i j c Ki Kj H3); auto.
    + intros i i' j H H'. destruct (Nat.eq_dec i i') as [|Ni]; auto. exfalso.
      apply IM in H. apply IM in H'.
      destruct H as [H|(H1 & H2 & c & H3)], H' as [H'|(H1' & H2' & c' & H3')].
      * clear -H H' Ni I. pose proof (inv_cols _ _ _ _ _ _ _ _ I) as ND.
        clear I. induction Tk as [|[x y] Tk IH]; [destruct H|]. simpl in ND. inversion ND; subst.
        destruct H as [[= -> ->]|H], H' as [E|H'].
        -- injection E as ->. auto.
        -- apply H2. change j with (snd (i', j)). now apply in_map.
        -- injection E as -> ->. apply H2. change j with (snd (i, j)). now apply in_map.
        -- auto.
      * apply H2'. change j with (snd (i, j)). now apply in_map.
      * apply H2. change j with (snd (i', j)). now apply in_map.
      * destruct (keep_col_conflict n m mask0 SM i i' j Ni) as [Ki Kj]; [apply L0; eauto|apply L0; eauto|].
        destruct (Done i j c Ki Kj H3); auto.
    + intros i j c A.
      destruct (in_dec Nat.eq_dec i (map fst Tk)) as [X|X].
      { right. assert (Ki : In i ki).
        { apply in_map_iff in X as ([i0 j0] & <- & Hij). apply II in Hij. tauto. }
        assert (Kj : In j kj) by (eapply (keep_closed_row n); eauto; apply L0; eauto).
        destruct (inv_beaten _ _ _ _ _ _ _ _ I i j c A Ki Kj (or_introl X)) as (i' & j' & c' & Z1 & Z2).
        exists i', j', c'. split; auto. apply IM. auto. }
      destruct (in_dec Nat.eq_dec j (map snd Tk)) as [Y|Y].
      { right. assert (Kj : In j kj).
        { apply in_map_iff in Y as ([i0 j0] & <- & Hij). apply II in Hij. tauto. }
        assert (Ki : In i ki) by (eapply (keep_closed_col n); eauto; apply L0; eauto).
        destruct (inv_beaten _ _ _ _ _ _ _ _ I i j c A Ki Kj (or_intror Y)) as (i' & j' & c' & Z1 & Z2).
        exists i', j', c'. split; auto. apply IM. auto. }
      left. apply IM. right. eauto.
  - exists mask0. split; auto. split; auto.
    destruct (no_conflict n m mask0 SM T) as [N1 N2]. repeat split; auto.
    + intros i j H. now apply L0.
    + intros i j c A. left. apply L0. eauto.
Qed.

(** ** where2 and the returned link list *)
Lemma In_where_rows : forall M k i j,
  In (i, j) (where_rows k M) <-> k <= i /\ get M (i - k) j = Some true.
Proof.
  induction M as [|r M IH]; intros k i j; simpl.
  - split; [intros []|]. intros [_ H]. unfold get in H. destruct (i - k); discriminate.
  - rewrite in_app_iff, IH, in_map_iff. split.
    + intros [(j0 & [= <- <-] & H)|[H1 H2]].
      * split; auto. rewrite Nat.sub_diag. unfold get. simpl. now apply In_where.
      * split; [lia|]. replace (i - k) with (S (i - S k)) by lia. exact H2.
    + intros [H1 H2]. destruct (Nat.eq_dec i k) as [->|N].
      * left. exists j. split; auto. rewrite Nat.sub_diag in H2. now apply In_where.
      * right. split; [lia|]. replace (i - k) with (S (i - S k)) in H2 by lia. exact H2.
Qed.

Lemma In_where2 : forall M i j, In (i, j) (where2 M) <-> linked M i j.
Proof. intros. unfold where2. rewrite In_where_rows, Nat.sub_0_r. unfold linked. intuition lia. Qed.

Definition lex_lt (p q : nat * nat) : Prop := fst p < fst q \/ (fst p = fst q /\ snd p < snd q).

Inductive lex_sorted : list (nat * nat) -> Prop :=
| lex_nil : lex_sorted []
| lex_cons : forall a l, (forall b, In b l -> lex_lt a b) -> lex_sorted l -> lex_sorted (a :: l).

Lemma lex_sorted_app : forall a b,
  lex_sorted a -> lex_sorted b -> (forall x y, In x a -> In y b -> lex_lt x y) -> lex_sorted (a ++ b).
Proof.
  induction a as [|x a IH]; intros b Ha Hb H; simpl; auto.
  inversion Ha; subst. constructor.
  - intros y. rewrite in_app_iff. intros [Hy|Hy]; [auto|]. apply H; auto. now left.
  - apply IH; auto. intros; apply H; auto. now right.
Qed.

Lemma lex_sorted_where_rows : forall M k, lex_sorted (where_rows k M).
Proof.
  induction M as [|r M IH]; intros k; simpl; [constructor|].
  apply lex_sorted_app; auto.
  - pose proof (incr_where r) as I. induction I; simpl; [constructor|].
    constructor; auto. intros b Hb. apply in_map_iff in Hb as (j & <- & Hj).
    right. split; simpl; auto.
  - intros [a b] [c d] H1 H2. apply in_map_iff in H1 as (j & [= <- <-] & _).
    apply In_where_rows in H2 as [H2 _]. left. simpl. lia.
Qed.

Lemma lex_sorted_NoDup : forall l, lex_sorted l -> NoDup l.
Proof.
  induction 1; constructor; auto. intros X. apply H in X. unfold lex_lt in X. lia.
Qed.

Lemma all_distinct_iff : forall l, all_distinct l = true <-> NoDup l.
Proof.
  induction l as [|a l IH]; simpl.
  - split; constructor.
  - rewrite andb_true_iff, IH, negb_true_iff. split.
    + intros [H1 H2]. constructor; auto. intros X.
      assert (existsb (Nat.eqb a) l = true) by (apply existsb_exists; exists a; rewrite Nat.eqb_refl; auto).
      congruence.
    + intros H. inversion H; subst. split; auto.
      destruct (existsb (Nat.eqb a) l) eqn:E; auto.
      apply existsb_exists in E as (b & Hb & Eb). apply Nat.eqb_eq in Eb. subst. contradiction.
Qed.

Lemma NoDup_map_inj_in : forall {A B} (f : A -> B) l,
  NoDup l -> (forall x y, In x l -> In y l -> f x = f y -> x = y) -> NoDup (map f l).
Proof.
  induction 1 as [|a l Ha ND IH]; intros H; simpl; constructor.
  - intros X. apply in_map_iff in X as (b & E & Hb). apply H in E; [|now right|now left]. subst. auto.
  - apply IH. intros; apply H; auto; now right.
Qed.

Lemma tracking_spec : forall n m cost,
  shaped n m cost ->
  exists links, tracking m cost = Some links /\
    NoDup (map fst links) /\ NoDup (map snd links) /\ lex_sorted links /\
    (forall i j, In (i, j) links -> i < n /\ j < m) /\
    good_links cost (fun i j => In (i, j) links).
Proof.
  intros n m cost SH.
  destruct (solve_simultaneous_spec n m cost SH) as (mask & E & SM & (G1 & G2 & G3 & G4)).
  unfold tracking. rewrite E. simpl.
  pose proof (lex_sorted_where_rows mask 0) as LS. fold (where2 mask) in LS.
  pose proof (lex_sorted_NoDup _ LS) as ND.
  assert (N1 : NoDup (map fst (where2 mask))).
  { apply NoDup_map_inj_in; auto. intros [a b] [c d] H1 H2. simpl. intros ->.
    apply In_where2 in H1. apply In_where2 in H2. f_equal. eapply G2; eauto. }
  assert (N2 : NoDup (map snd (where2 mask))).
  { apply NoDup_map_inj_in; auto. intros [a b] [c d] H1 H2. simpl. intros ->.
    apply In_where2 in H1. apply In_where2 in H2. f_equal. eapply G3; eauto. }
  rewrite (proj2 (all_distinct_iff _) N2).
  exists (where2 mask). repeat split; auto.
  - apply In_where2 in H. eapply shaped_bound in H; eauto. tauto.
  - apply In_where2 in H. eapply shaped_bound in H; eauto. tauto.
  - intros i j H. apply In_where2 in H. auto.
  - intros i j j' H H'. apply In_where2 in H, H'. eauto.
  - intros i i' j H H'. apply In_where2 in H, H'. eauto.
  - intros i j c A. destruct (G4 i j c A) as [H|(i' & j' & c' & H & R)].
    + left. now apply In_where2.
    + right. exists i', j', c'. split; auto. now apply In_where2.
Qed.

(** ** Uniqueness with distinct costs *)
Lemma good_links_unique : forall n m cost (L1 L2 : nat -> nat -> Prop),
  shaped n m cost ->
  (forall i j, L1 i j \/ ~ L1 i j) -> (forall i j, L2 i j \/ ~ L2 i j) ->
  (forall i j i' j' c c', allowed cost i j c -> allowed cost i' j' c' -> (c == c')%Q -> i = i' /\ j = j') ->
  good_links cost L1 -> good_links cost L2 ->
  forall i j, L1 i j -> L2 i j.
Proof.
  intros n m cost L1 L2 SH D1 D2 DC G1 G2.
  (* no link of one solution outside the other: descend on cost along the
     finite set of cells *)
  set (cells := list_prod (seq 0 n) (seq 0 m)).
  set (below := fun c (l : list (nat * nat)) =>
     length (filter (fun p => match get cost (fst p) (snd p) with Some (Some c') => Qlt_bool c' c | _ => false end) l)).
  assert (Mono : forall c c' l p cp, In p l -> allowed cost (fst p) (snd p) cp -> (cp < c')%Q -> ~ (cp < c)%Q ->
            (c <= c')%Q -> below c l < below c' l).
  { intros c c' l p cp Hp A H1 H2 Hle. unfold below.
    induction l as [|q l IH]; [destruct Hp|].
    assert (LE : forall l, length (filter (fun p => match get cost (fst p) (snd p) with Some (Some x) => Qlt_bool x c | _ => false end) l)
       <= length (filter (fun p => match get cost (fst p) (snd p) with Some (Some x) => Qlt_bool x c' | _ => false end) l)).
    { clear -Hle. induction l as [|q l IH]; simpl; auto.
      destruct (get cost (fst q) (snd q)) as [[x|]|]; auto.
      destruct (Qlt_bool x c) eqn:E1; destruct (Qlt_bool x c') eqn:E2; simpl; try lia.
      apply Qlt_bool_iff in E1. apply Qlt_bool_false in E2. lra. }
    destruct Hp as [->|Hp].
    - simpl. unfold allowed in A. rewrite A.
      rewrite (proj2 (Qlt_bool_iff cp c') H1).
      destruct (Qlt_bool cp c) eqn:E; [apply Qlt_bool_iff in E; contradiction|].
      simpl. specialize (LE l). lia.
    - specialize (IH Hp). simpl. 
      destruct (get cost (fst q) (snd q)) as [[x|]|]; auto.
      destruct (Qlt_bool x c) eqn:E1; destruct (Qlt_bool x c') eqn:E2; simpl; try lia.
      apply Qlt_bool_iff in E1. apply Qlt_bool_false in E2. lra. }
  assert (Main : forall k c, below c cells <= k ->
     forall i j, allowed cost i j c -> ((L1 i j -> L2 i j) /\ (L2 i j -> L1 i j))).
  { assert (Half : forall (A B : nat -> nat -> Prop), good_links cost A -> good_links cost B ->
      (forall i j, B i j \/ ~ B i j) ->
      forall c i j, allowed cost i j c -> A i j ->
      (forall i' j' c', allowed cost i' j' c' -> (c' < c)%Q -> B i' j' -> A i' j') -> B i j).
    { intros A B (A1 & A2 & A3 & A4) (B1 & B2 & B3 & B4) DB c i j Al HA Hrec.
      destruct (B4 i j c Al) as [H|(i' & j' & c' & HB & Al' & Sh & Le)]; auto.
      destruct (Qlt_le_dec c' c) as [Lt|Ge].
      - pose proof (Hrec i' j' c' Al' Lt HB) as HA'.
        destruct Sh as [->| ->].
        + rewrite (A2 _ _ _ HA HA'). exact HB.
        + rewrite (A3 _ _ _ HA HA'). exact HB.
      - assert (E : (c' == c)%Q) by lra. destruct (DC _ _ _ _ _ _ Al' Al E) as [-> ->]. exact HB. }
    induction k as [|k IH]; intros c Hk i j Al.
    - assert (Rec : forall i' j' c', allowed cost i' j' c' -> (c' < c)%Q -> False).
      { intros i' j' c' Al' Lt. pose proof (shaped_bound _ _ _ _ _ _ SH Al') as [X Y].
        assert (In (i', j') cells) by (apply in_prod; apply in_seq; lia).
        pose proof (Mono c' c cells (i', j') c' H Al' Lt ltac:(lra) ltac:(lra)). lia. }
      split; intros HH.
      + apply (Half L1 L2 G1 G2 D2 c i j Al HH). intros. exfalso; eauto.
      + apply (Half L2 L1 G2 G1 D1 c i j Al HH). intros. exfalso; eauto.
    - assert (Rec : forall i' j' c', allowed cost i' j' c' -> (c' < c)%Q -> (L1 i' j' -> L2 i' j') /\ (L2 i' j' -> L1 i' j')).
      { intros i' j' c' Al' Lt. apply (IH c'); auto. pose proof (shaped_bound _ _ _ _ _ _ SH Al') as [X Y].
        assert (In (i', j') cells) by (apply in_prod; apply in_seq; lia).
        pose proof (Mono c' c cells (i', j') c' H Al' Lt ltac:(lra) ltac:(lra)). lia. }
      split; intros HH.
      + apply (Half L1 L2 G1 G2 D2 c i j Al HH). intros i' j' c' X Y Z. eapply Rec; eauto.
      + apply (Half L2 L1 G2 G1 D1 c i j Al HH). intros i' j' c' X Y Z. eapply Rec; eauto. }
  intros i j H. destruct G1 as (G1 & _). destruct (G1 i j H) as [c A].
  apply (Main (below c cells) c (le_n _) i j A). exact H.
Qed.

(** ** Order independence *)
Lemma In_dec_pair : forall (l : list (nat * nat)) i j, In (i, j) l \/ ~ In (i, j) l.
Proof.
  intros. destruct (in_dec (fun a b : nat * nat => ltac:(repeat decide equality)) (i, j) l); auto.
Qed.

Lemma tracking_reorder : forall n m (cost1 cost2 : mat (option Q)) (f f' g g' : nat -> nat),
  shaped n m cost1 -> shaped n m cost2 ->
  (forall i, i < n -> f i < n /\ f' i < n /\ f' (f i) = i /\ f (f' i) = i) ->
  (forall j, j < m -> g j < m /\ g' j < m /\ g' (g j) = j /\ g (g' j) = j) ->
  (forall i j, i < n -> j < m -> get cost2 i j = get cost1 (f i) (g j)) ->
  (forall i j i' j' c c', allowed cost1 i j c -> allowed cost1 i' j' c' -> (c == c')%Q -> i = i' /\ j = j') ->
  exists l1 l2, tracking m cost1 = Some l1 /\ tracking m cost2 = Some l2 /\
    forall i j, i < n -> j < m -> (In (i, j) l2 <-> In (f i, g j) l1).
Proof.
  intros n m cost1 cost2 f f' g g' S1 S2 Hf Hg HC DC.
  destruct (tracking_spec n m cost1 S1) as (l1 & E1 & _ & _ & _ & B1 & G1).
  destruct (tracking_spec n m cost2 S2) as (l2 & E2 & _ & _ & _ & B2 & G2).
  exists l1, l2. split; auto. split; auto.
  set (L2 := fun i j => i < n /\ j < m /\ In (f' i, g' j) l2).
  assert (GL : good_links cost1 L2).
  { destruct G2 as (A1 & A2 & A3 & A4). unfold L2. repeat split.
    - intros i j (Hi & Hj & H). destruct (A1 _ _ H) as [c A]. exists c. unfold allowed in *.
      destruct (Hf i Hi) as (_ & F1 & _ & F2). destruct (Hg j Hj) as (_ & F3 & _ & F4).
      rewrite HC in A by auto. now rewrite F2, F4 in A.
    - intros i j j' (Hi & Hj & H) (_ & Hj' & H'). pose proof (A2 _ _ _ H H') as E.
      destruct (Hg j Hj) as (_ & _ & _ & F4). destruct (Hg j' Hj') as (_ & _ & _ & F4'). congruence.
    - intros i i' j (Hi & Hj & H) (Hi' & _ & H'). pose proof (A3 _ _ _ H H') as E.
      destruct (Hf i Hi) as (_ & _ & _ & F4). destruct (Hf i' Hi') as (_ & _ & _ & F4'). congruence.
    - intros i j c A. pose proof (shaped_bound _ _ _ _ _ _ S1 A) as [Hi Hj].
      destruct (Hf i Hi) as (_ & F1 & _ & F2). destruct (Hg j Hj) as (_ & F3 & _ & F4).
      assert (A' : allowed cost2 (f' i) (g' j) c) by (unfold allowed; rewrite HC by auto; now rewrite F2, F4).
      destruct (A4 _ _ _ A') as [H|(i2 & j2 & c2 & H & Al & Sh & Le)]; [left; auto|].
      right. destruct (B2 _ _ H) as [Hi2 Hj2].
      destruct (Hf i2 Hi2) as (F5 & _ & F6 & _). destruct (Hg j2 Hj2) as (F7 & _ & F8 & _).
      exists (f i2), (g j2), c2. rewrite F6, F8. split; auto. split.
      + unfold allowed in *. now rewrite <- HC.
      + split; auto. destruct Sh as [->| ->]; auto. }
  assert (DL2 : forall i j, L2 i j \/ ~ L2 i j).
  { intros i j. unfold L2. destruct (In_dec_pair l2 (f' i) (g' j)); [|tauto].
    destruct (Nat.lt_ge_cases i n); [|right; lia]. destruct (Nat.lt_ge_cases j m); [|right; lia]. auto. }
  intros i j Hi Hj.
  destruct (Hf i Hi) as (F1 & _ & F2 & _). destruct (Hg j Hj) as (F3 & _ & F4 & _).
  assert (E : L2 (f i) (g j) <-> In (i, j) l2).
  { unfold L2. rewrite F2, F4. tauto. }
  rewrite <- E. split.
  - apply (good_links_unique n m cost1 L2 (fun i j => In (i, j) l1)); auto. apply In_dec_pair.
  - apply (good_links_unique n m cost1 (fun i j => In (i, j) l1) L2); auto. apply In_dec_pair.
Qed.

Lemma tracking_transpose : forall n m (cost1 cost2 : mat (option Q)),
  shaped n m cost1 -> shaped m n cost2 ->
  (forall i j, i < n -> j < m -> get cost2 j i = get cost1 i j) ->
  (forall i j i' j' c c', allowed cost1 i j c -> allowed cost1 i' j' c' -> (c == c')%Q -> i = i' /\ j = j') ->
  exists l1 l2, tracking m cost1 = Some l1 /\ tracking n cost2 = Some l2 /\
    forall i j, In (j, i) l2 <-> In (i, j) l1.
Proof.
  intros n m cost1 cost2 S1 S2 HC DC.
  destruct (tracking_spec n m cost1 S1) as (l1 & E1 & _ & _ & _ & B1 & G1).
  destruct (tracking_spec m n cost2 S2) as (l2 & E2 & _ & _ & _ & B2 & G2).
  exists l1, l2. split; auto. split; auto.
  assert (AL : forall i j c, allowed cost2 j i c <-> allowed cost1 i j c).
  { intros i j c. split; intros A.
    - pose proof (shaped_bound _ _ _ _ _ _ S2 A) as [X Y]. unfold allowed in *. now rewrite <- HC.
    - pose proof (shaped_bound _ _ _ _ _ _ S1 A) as [X Y]. unfold allowed in *. now rewrite HC. }
  assert (GL : good_links cost1 (fun i j => In (j, i) l2)).
  { destruct G2 as (A1 & A2 & A3 & A4). repeat split.
    - intros i j H. destruct (A1 _ _ H) as [c A]. exists c. now apply AL.
    - intros i j j' H H'. eauto.
    - intros i i' j H H'. eauto.
    - intros i j c A. apply AL in A.
      destruct (A4 _ _ _ A) as [H|(j2 & i2 & c2 & H & Al & Sh & Le)]; [left; auto|].
      right. exists i2, j2, c2. split; auto. split; [now apply AL|]. split; auto. tauto. }
  intros i j. split.
  - apply (good_links_unique n m cost1 (fun i j => In (j, i) l2) (fun i j => In (i, j) l1)); auto;
      intros; apply In_dec_pair.
  - apply (good_links_unique n m cost1 (fun i j => In (i, j) l1) (fun i j => In (j, i) l2)); auto;
      intros; apply In_dec_pair.
Qed.

(** ** solve_first with several links per target *)
(** [(i, j)] is the cheapest allowed cell of row [i], the first one on ties. *)
Definition cheapest (cost : mat (option Q)) (i j : nat) : Prop :=
  exists c, allowed cost i j c /\
    forall j' c', allowed cost i j' c' -> (c <= c')%Q /\ (j' < j -> (c < c')%Q).

Section First.
  Context (n m : nat) (cost : mat (option Q)) (ki kj : list nat).
  Context (SH : shaped n m cost).
  Context (NDi : NoDup ki) (Ij : incr kj).
  Context (Bi : forall i, In i ki -> i < n) (Bj : forall j, In j kj -> j < m).
  Context (Closed : forall i j c, In i ki -> allowed cost i j c -> In j kj).
  Context (NonEmpty : forall i, In i ki -> exists j c, allowed cost i j c).

  (** state after the rows [0 .. a-1] of the reduced matrix *)
  Record finv (a : nat) (mask : mat bool) (red : mat (option Q)) : Prop := {
    finv_shape : shaped n m mask;
    finv_red_shape : shaped (length ki) (length kj) red;
    finv_red : forall k b i j, a <= k -> nth_error ki k = Some i -> nth_error kj b = Some j ->
      get red k b = get cost i j;
    finv_mask : forall i j, linked mask i j <->
      (In i (firstn a ki) /\ cheapest cost i j) \/ (~ In i (firstn a ki) /\ exists c, allowed cost i j c)
  }.

  Lemma cheapest_unique : forall i j j', cheapest cost i j -> cheapest cost i j' -> j = j'.
  Proof.
    intros i j j' (c & A & H) (c' & A' & H').
    destruct (H j' c' A') as [X X']. destruct (H' j c A) as [Y Y'].
    destruct (Nat.lt_trichotomy j j') as [L|[L|L]]; auto.
    - specialize (Y' L). lra.
    - specialize (X' L). lra.
  Qed.

  Lemma firstn_S : forall {A} (l : list A) a x, nth_error l a = Some x -> firstn (S a) l = firstn a l ++ [x].
  Proof.
    induction l as [|y l IH]; intros [|a] x H; simpl in *; try discriminate.
    - now injection H as ->.
    - f_equal. now apply IH.
  Qed.

  Lemma finv_step : forall a mask red,
    a < length ki -> finv a mask red ->
    exists mask' red', take_first true ki kj (mask, red) a = Some (mask', red') /\ finv (S a) mask' red'.
  Proof.
    intros a mask red Ha I. unfold take_first.
    destruct (nth_error_lt_Some ki a Ha) as [i Hi].
    pose proof (finv_red_shape _ _ _ I) as [RL RF].
    destruct (nth_error_lt_Some red a) as [r Hr]; [lia|]. rewrite Hr. cbn [bind].
    assert (Ii : In i ki) by (eapply nth_error_In; eauto).
    assert (G : forall b, nth_error r b = get red a b) by (intros; unfold get; now rewrite Hr).
    assert (AG : forall j c, allowed cost i j c -> exists b, nth_error kj b = Some j /\ nth_error r b = Some (Some c)).
    { intros j c A. pose proof (Closed _ _ _ Ii A) as Hj. apply In_nth_error in Hj as [b Hb].
      exists b. split; auto. rewrite G, (finv_red _ _ _ I a b i j); auto. }
    destruct (argmin r) as [b|] eqn:E.
    2:{ exfalso. destruct (NonEmpty i Ii) as (j & c & A). destruct (AG _ _ A) as (b & _ & Hb).
        exact (argmin_None _ E _ _ Hb). }
    destruct (argmin_Some _ _ E) as (c & Hc & Hmin & Hfst).
    assert (Hb : b < length kj).
    { apply nth_error_Some_lt in Hc. rewrite Forall_forall in RF. rewrite (RF r (nth_error_In _ _ Hr)) in Hc. exact Hc. }
    destruct (nth_error_lt_Some kj b Hb) as [j Hj]. rewrite Hi, Hj. cbn [bind].
    eexists. eexists. split; [reflexivity|].
    assert (Al : allowed cost i j c).
    { unfold allowed. rewrite <- (finv_red _ _ _ I a b i j); auto. now rewrite <- G. }
    assert (CH : cheapest cost i j).
    { exists c. split; auto. intros j' c' A'. destruct (AG _ _ A') as (b' & Hb' & Hc').
      split; [eapply Hmin; eauto|]. intros Lj. apply (Hfst b'); auto.
      destruct (Nat.lt_trichotomy b' b) as [X|[X|X]]; auto.
      - subst. rewrite Hj in Hb'. injection Hb' as ->. lia.
      - pose proof (incr_nth kj Ij b b' j j' X Hj Hb'). lia. }
    assert (Nf : ~ In i (firstn a ki)).
    { intros X. apply In_nth_error in X as [k Hk].
      assert (k < a). { apply nth_error_Some_lt in Hk. rewrite firstn_length in Hk. lia. }
      assert (nth_error ki k = Some i).
      { rewrite <- (firstn_skipn a ki). rewrite nth_error_app1; auto. eapply nth_error_Some_lt; eauto. }
      assert (k = a); [|lia]. apply (proj1 (NoDup_nth_error ki) NDi); [lia|congruence]. }
    constructor.
    - apply shaped_set_cell, shaped_set_row, (finv_shape _ _ _ I).
    - apply shaped_set_row, (finv_red_shape _ _ _ I).
    - intros k b' i' j' Hk Hi' Hj'. rewrite get_set_row.
      rewrite (finv_red _ _ _ I k b' i' j'); auto; [|lia].
      destruct (Nat.eqb_spec k a); [lia|]. now destruct (get cost i' j').
    - intros i' j'. unfold linked. rewrite get_set_cell, get_set_row.
      rewrite (firstn_S _ _ _ Hi), in_app_iff. cbn [In].
      pose proof (finv_mask _ _ _ I i' j') as IM. unfold linked in IM.
      destruct (Nat.eqb_spec i' i) as [->|Ni].
      + destruct (Nat.eqb_spec j' j) as [->|Nj]; cbn [andb].
        * destruct (shaped_get _ _ _ i j (finv_shape _ _ _ I) (Bi _ Ii) (Bj _ (nth_error_In _ _ Hj))) as [v ->].
          split; [intros _; left; auto|reflexivity].
        * split.
          -- destruct (get mask i j'); discriminate.
          -- intros [(_ & C)|(X & _)]; [|exfalso; apply X; auto].
             exfalso. apply Nj. eapply cheapest_unique; eauto.
      + assert (O : option_map (fun x => if false && (j' =? j) then true else x) (option_map (fun x : bool => x) (get mask i' j')) = get mask i' j')
          by (destruct (get mask i' j'); reflexivity).
        rewrite O, IM. split.
        * intros [[X Y]|[X Y]]; [left; auto|right; split; auto]. intros [Z|[Z|[]]]; auto.
        * intros [[[X|[X|[]]] Y]|[X Y]]; [auto|congruence|]. right. split; auto.
  Qed.

  Lemma finv_loop : forall k a mask red,
    a + k = length ki -> finv a mask red ->
    exists st, first_loop true ki kj (seq a k) (mask, red) = Some st /\ finv (length ki) (fst st) (snd st).
  Proof.
    induction k as [|k IH]; intros a mask red Hk I.
    - exists (mask, red). split; auto. simpl. replace (length ki) with a by lia. exact I.
    - cbn [seq first_loop]. destruct (finv_step a mask red ltac:(lia) I) as (mask' & red' & E & I').
      rewrite E. cbn [bind]. apply IH; auto. lia.
  Qed.
End First.

Lemma solve_first_spec : forall n m cost,
  shaped n m cost -> 0 < n -> 0 < m ->
  exists mask, solve_first true m cost = Some mask /\ shaped n m mask /\
    forall i j, linked mask i j <-> cheapest cost i j.
Proof.
  intros n m cost SH Pn Pm. unfold solve_first.
  pose proof (shaped_is_some n m cost SH) as SM.
  set (mask0 := map (map is_some) cost) in *.
  assert (L0 : forall i j, linked mask0 i j <-> exists c, allowed cost i j c) by apply linked_init.
  destruct (Nat.eqb_spec (length cost * m) 0) as [Z|Z].
  { exfalso. destruct SH as [L _]. rewrite L in Z. nia. }
  destruct (existsb (fun b => b) (separation mask0) || existsb (fun b => b) (merging m mask0)) eqn:T.
  - set (ki := self_keep m mask0). set (kj := other_keep m mask0).
    assert (NDi : NoDup ki) by (apply incr_NoDup, incr_where).
    assert (Ij : incr kj) by apply incr_where.
    assert (Bi : forall i, In i ki -> i < n) by (apply self_keep_bound; auto).
    assert (Bj : forall j, In j kj -> j < m) by (apply (other_keep_bound n); auto).
    destruct (submatrix_spec n m cost ki kj SH Bi Bj) as (red & ER & SR & GR).
    rewrite ER. cbn [bind].
    assert (Closed : forall i j c, In i ki -> allowed cost i j c -> In j kj).
    { intros i j c Hi A. eapply (keep_closed_row n); eauto. apply L0. eauto. }
    assert (NonEmpty : forall i, In i ki -> exists j c, allowed cost i j c).
    { intros i Hi. apply (In_self_keep n) in Hi; auto. destruct Hi as [(j & H & _)|H].
      - exists j. now apply L0.
      - apply separation_true in H as (j & _ & _ & H & _). exists j. now apply L0. }
    destruct (finv_loop n m cost ki kj NDi Ij Bi Bj Closed NonEmpty (length ki) 0 mask0 red eq_refl) as ([mask red'] & EL & I).
    { constructor; auto; simpl. intros i j. rewrite L0. tauto. }
    exists mask. split.
    { change (list (list bool)) with (mat bool) in *. 
      transitivity (bind (first_loop true ki kj (seq 0 (length ki)) (mask0, red)) (fun st => Some (fst st))); [reflexivity|].
      rewrite EL. reflexivity. }
    split; [apply (finv_shape _ _ _ _ _ _ _ _ I)|].
    intros i j. rewrite (finv_mask _ _ _ _ _ _ _ _ I). rewrite firstn_all. split.
    + intros [(_ & H)|(Ni & c & A)]; auto.
      exists c. split; auto. intros j' c' A'.
      assert (j' = j).
      { destruct (Nat.eq_dec j' j); auto. exfalso. apply Ni.
        eapply (keep_row_conflict n m mask0 SM i j j'); auto; apply L0; eauto. }
      subst. unfold allowed in *. assert (c = c') by congruence. subst. split; [lra|lia].
    + intros H. destruct (in_dec Nat.eq_dec i ki); [auto|]. right. split; auto.
      destruct H as (c & A & _). eauto.
  - exists mask0. split; auto. split; auto.
    destruct (no_conflict n m mask0 SM T) as [N1 N2].
    intros i j. rewrite L0. split.
    + intros [c A]. exists c. split; auto. intros j' c' A'.
      assert (j' = j) by (apply (N1 i); apply L0; eauto). subst.
      unfold allowed in *. assert (c = c') by congruence. subst. split; [lra|lia].
    + intros (c & A & _). eauto.
Qed.

(** ** Chelton post-processing *)
Lemma argmax_from_spec : forall l p best q c,
  argmax_from p best l = (q, c) ->
  (forall x, In x l -> (x <= c)%Q) /\ (snd best <= c)%Q /\
  (((q, c) = best) \/
   exists k, nth_error l k = Some c /\ q = p + k /\ (snd best < c)%Q /\
     forall k' x, k' < k -> nth_error l k' = Some x -> (x < c)%Q).
Proof.
  induction l as [|x l IH]; intros p best q c H; simpl in H.
  - subst best. simpl. split; [intros x []|]. split; [lra|]. left. auto.
  - destruct (Qlt_bool (snd best) x) eqn:E.
    + apply Qlt_bool_iff in E. apply IH in H as (A & B & D). simpl in B. split.
      { intros y [<-|Hy]; auto. }
      split; [lra|]. right. destruct D as [D|(k & D1 & D2 & D3 & D4)].
      * injection D as -> ->. exists 0. repeat split; auto; try lia.
      * simpl in D3. exists (S k). split; auto. split; [lia|]. split; [lra|].
        intros [|k'] y Hk Hy; simpl in Hy; [injection Hy as <-; exact D3|]. eapply D4; [|eauto]. lia.
    + apply Qlt_bool_false in E. apply IH in H as (A & B & D). split.
      { intros y [<-|Hy]; auto. lra. }
      split; auto. destruct D as [D|(k & D1 & D2 & D3 & D4)]; [auto|].
      right. exists (S k). split; auto. split; [lia|]. split; auto.
      intros [|k'] y Hk Hy; simpl in Hy; [injection Hy as <-; lra|]. eapply D4; [|eauto]. lia.
Qed.

Lemma argmax_spec : forall l k, argmax l = Some k ->
  exists c, nth_error l k = Some c /\ (forall x, In x l -> (x <= c)%Q) /\
    forall k' x, k' < k -> nth_error l k' = Some x -> (x < c)%Q.
Proof.
  intros [|a l] k H; [discriminate|]. simpl in H.
  destruct (argmax_from 1 (0, a) l) as [q c] eqn:E. simpl in H. injection H as <-.
  apply argmax_from_spec in E as (A & B & D). simpl in B. exists c.
  destruct D as [D|(k & D1 & -> & D3 & D4)].
  - injection D as -> ->. split; auto. split; [intros x [<-|Hx]; [lra|auto]|]. intros; lia.
  - simpl. split; auto. split; [intros x [<-|Hx]; auto|].
    intros [|k'] x Hk Hx; simpl in Hx; [injection Hx as <-; exact D3|]. eapply D4; [|eauto]. lia.
Qed.

Lemma argmax_total : forall l, l <> [] -> exists k, argmax l = Some k.
Proof. intros [|a l] H; [congruence|]. simpl. eauto. Qed.

(** k-th selected element is at the k-th true position *)
Lemma nth_error_select : forall {A} m (l : list A) s k p,
  length m = length l ->
  nth_error (where_from s m) k = Some p -> nth_error (select m l) k = nth_error l (p - s).
Proof.
  induction m as [|b m IH]; intros [|a l] s k p L H; simpl in *; try discriminate.
  - destruct k; discriminate.
  - assert (PG : forall k p, nth_error (where_from (S s) m) k = Some p -> S s <= p).
    { intros k0 p0 H0. apply nth_error_In, In_where_from in H0. tauto. }
    destruct b.
    + destruct k as [|k]; simpl in *.
      * injection H as <-. now rewrite Nat.sub_diag.
      * pose proof (PG _ _ H). rewrite (IH l (S s) k p) by (auto; lia).
        replace (p - s) with (S (p - S s)) by lia. reflexivity.
    + pose proof (PG _ _ H). rewrite (IH l (S s) k p) by (auto; lia).
      replace (p - s) with (S (p - S s)) by lia. reflexivity.
Qed.

Section Chelton.
  Context (amplitude : list Q) (links : list (nat * nat)).
  Context (InRange : forall i o, In (i, o) links -> i < length amplitude).

  (** position [q] holds the preferred link of its target *)
  Definition preferred (q : nat) : Prop :=
    exists i o a, nth_error links q = Some (i, o) /\ nth_error amplitude i = Some a /\
      forall q' i' a', nth_error links q' = Some (i', o) -> nth_error amplitude i' = Some a' ->
        (a' <= a)%Q /\ (q' < q -> (a' < a)%Q).

  Lemma preferred_unique : forall q q' i i' o,
    preferred q -> preferred q' -> nth_error links q = Some (i, o) -> nth_error links q' = Some (i', o) -> q = q'.
  Proof.
    intros q q' i i' o (i1 & o1 & a & H1 & H2 & H3) (i2 & o2 & a' & H1' & H2' & H3') E E'.
    rewrite E in H1. injection H1 as <- <-. rewrite E' in H1'. injection H1' as <- <-.
    destruct (H3 _ _ _ E' H2') as [X X']. destruct (H3' _ _ _ E H2) as [Y Y'].
    destruct (Nat.lt_trichotomy q q') as [L|[L|L]]; auto; exfalso.
    - specialize (Y' L). lra.
    - specialize (X' L). lra.
  Qed.

  Lemma drop_for_spec : forall o mask,
    length mask = length links -> (exists i, In (i, o) links) ->
    exists mask', drop_for amplitude links o mask = Some mask' /\ length mask' = length links /\
      forall q, nth_error mask' q = Some true <->
        nth_error mask q = Some true /\
        (forall i, nth_error links q = Some (i, o) -> preferred q).
  Proof.
    intros o mask L (i0 & H0). unfold drop_for.
    set (m := map (fun l => o =? snd l) links).
    assert (Lm : length m = length links) by (unfold m; now rewrite map_length).
    assert (Mm : forall q, nth_error m q = Some true <-> exists i, nth_error links q = Some (i, o)).
    { intros q. unfold m. rewrite nth_error_map. destruct (nth_error links q) as [[i o']|]; simpl.
      - destruct (Nat.eqb_spec o o') as [->|N]; split; intros H; eauto.
        + discriminate.
        + destruct H as [i' [= _ E]]. congruence.
      - split; [discriminate|]. intros [i H]. discriminate. }
    assert (SE : select m links = map (fun p => nth p links (0, 0)) (where_ m)).
    { apply nth_error_ext. intros k. rewrite nth_error_map.
      destruct (nth_error (where_ m) k) as [p|] eqn:Ep; simpl.
      - rewrite (nth_error_select m links 0 k p) by auto. rewrite Nat.sub_0_r.
        apply nth_error_nth'.
        apply nth_error_In, In_where, nth_error_Some_lt in Ep. lia.
      - apply nth_error_None. apply nth_error_None in Ep.
        rewrite length_select by auto. unfold where_ in Ep. rewrite length_where_from in Ep. exact Ep. }
    destruct (gather_total amplitude (map fst (select m links))) as [a Ga].
    { intros i Hi. apply in_map_iff in Hi as ([i' o'] & <- & H). apply In_select in H as (q & _ & Hq).
      eapply InRange. eapply nth_error_In; eauto. }
    rewrite Ga. cbn [bind].
    pose proof (proj1 (gather_Some _ _ _) Ga) as [La Gn]. rewrite map_length in La.
    assert (LS : length (select m links) = length (where_ m)).
    { rewrite SE. now rewrite map_length. }
    destruct (argmax_total a) as [k Ek].
    { intros ->. simpl in La. 
      assert (In (i0, o) (select m links)).
      { apply In_nth_error in H0 as [q Hq]. apply In_select. exists q. split; auto. apply Mm. eauto. }
      destruct (select m links); [contradiction|discriminate]. }
    rewrite Ek. cbn [bind].
    destruct (argmax_spec _ _ Ek) as (c & Hc & Hmax & Hfst).
    assert (Hk : k < length (where_ m)) by (rewrite <- LS, <- La; eapply nth_error_Some_lt; eauto).
    destruct (nth_error_lt_Some _ _ Hk) as [p Hp]. rewrite Hp. cbn [bind].
    assert (Pm : nth_error m p = Some true) by (apply In_where; eapply nth_error_In; eauto).
    unfold store. rewrite (proj2 (Nat.ltb_lt p (length m)) (nth_error_Some_lt _ _ _ Pm)). cbn [bind].
    eexists. split; [reflexivity|].
    split. { rewrite map_length, combine_length, length_upd. lia. }
    (* amplitude read at position k of the selection *)
    assert (AK : forall k' p', nth_error (where_ m) k' = Some p' ->
              exists i x, nth_error links p' = Some (i, o) /\ nth_error a k' = Some x /\ nth_error amplitude i = Some x).
    { intros k' p' H'. assert (Pm' : nth_error m p' = Some true) by (apply In_where; eapply nth_error_In; eauto).
      apply Mm in Pm' as [i Hi].
      assert (S : nth_error (map fst (select m links)) k' = Some i).
      { rewrite nth_error_map, (nth_error_select m links 0 k' p') by auto. rewrite Nat.sub_0_r, Hi. reflexivity. }
      destruct (Gn _ _ S) as (x & X1 & X2). eauto. }
    assert (PP : preferred p).
    { destruct (AK _ _ Hp) as (i & x & X1 & X2 & X3). rewrite Hc in X2. injection X2 as <-.
      exists i, o, c. split; auto. split; auto.
      intros q' i' a' Hq' Ha'.
      assert (Mq : nth_error m q' = Some true) by (apply Mm; eauto).
      apply In_where, In_nth_error in Mq as [k' Hk'].
      destruct (AK _ _ Hk') as (i2 & x2 & Y1 & Y2 & Y3).
      rewrite Hq' in Y1. injection Y1 as <-. rewrite Ha' in Y3. injection Y3 as <-.
      split; [apply Hmax; eapply nth_error_In; eauto|].
      intros Lq. apply (Hfst k'); auto.
      destruct (Nat.lt_trichotomy k' k) as [Z|[Z|Z]]; auto.
      - subst. rewrite Hp in Hk'. injection Hk' as ->. lia.
      - pose proof (incr_nth _ (incr_where m) k k' p q' Z Hp Hk'). lia. }
    assert (NC : forall q, nth_error (map (fun x => fst x && negb (snd x)) (combine mask (upd m p false))) q = Some true <->
               nth_error mask q = Some true /\ nth_error (upd m p false) q = Some false).
    { assert (LL : length mask = length (upd m p false)) by (rewrite length_upd; lia).
      revert LL. generalize (upd m p false). clear. induction mask as [|b mask IH]; intros [|b' m'] LL q; simpl in *; try discriminate.
      - destruct q; simpl; split; [discriminate| |discriminate|]; intros [X _]; discriminate.
      - destruct q as [|q]; simpl.
        + destruct b, b'; simpl; intuition discriminate.
        + apply IH. lia. }
    intros q. rewrite NC.
    destruct (nth_error mask q) as [bm|] eqn:Em; [|split; intros [X _]; discriminate].
    apply and_iff_compat_l.
    rewrite nth_error_upd_map.
    destruct (nth_error m q) as [b|] eqn:Eq; simpl.
    - destruct (Nat.eqb_spec q p) as [->|Nq].
      + split; auto.
      + split.
        * intros E. injection E as ->. intros i Hi.
          assert (nth_error m q = Some true) by (apply Mm; eauto). congruence.
        * intros H. destruct b; auto. exfalso.
          apply Mm in Eq as [i Hi]. specialize (H i Hi).
          apply Mm in Pm as [i' Hi']. apply Nq. eapply preferred_unique; eauto.
    - exfalso. apply nth_error_None in Eq. apply nth_error_Some_lt in Em. lia.
  Qed.

  Lemma drop_all_spec : forall os mask,
    length mask = length links -> (forall o, In o os -> exists i, In (i, o) links) ->
    exists mask', drop_all amplitude links os mask = Some mask' /\ length mask' = length links /\
      forall q, nth_error mask' q = Some true <->
        nth_error mask q = Some true /\
        (forall i o, In o os -> nth_error links q = Some (i, o) -> preferred q).
  Proof.
    induction os as [|o os IH]; intros mask L H; simpl.
    - exists mask. split; auto. split; auto. intros q. split; [|tauto]. intros X. split; auto. intros i o [].
    - destruct (drop_for_spec o mask L (H o (or_introl eq_refl))) as (m1 & E1 & L1 & H1).
      rewrite E1. cbn [bind]. destruct (IH m1 L1) as (m2 & E2 & L2 & H2); [intros; apply H; right; auto|].
      exists m2. split; auto. split; auto. intros q. rewrite H2, H1. split.
      + intros ((A & B) & C). split; auto. intros i o' [<-|Ho] Hq; eauto.
      + intros (A & B). split; [split; auto|].
        * intros i Hq. eapply B; eauto.
        * intros i o' Ho Hq. eapply B; eauto.
  Qed.
End Chelton.

Lemma all_distinct_NoDup : forall l, all_distinct l = true <-> NoDup l.
Proof.
  induction l as [|a l IH]; simpl.
  - split; auto. constructor.
  - rewrite andb_true_iff, negb_true_iff, IH. split.
    + intros [A B]. constructor; auto. intros H.
      assert (existsb (Nat.eqb a) l = true); [|congruence]. apply existsb_exists. exists a. split; auto. apply Nat.eqb_refl.
    + intros H. inversion H as [|? ? A B]; subst. split; auto.
      apply not_true_iff_false. intros C. apply existsb_exists in C as (x & Hx & E).
      apply Nat.eqb_eq in E. congruence.
Qed.

Lemma list_max_nat_ge : forall l a, In a l -> a <= list_max_nat l.
Proof.
  induction l as [|b l IH]; simpl; [tauto|]. intros a [->|H]; [lia|]. specialize (IH a H). lia.
Qed.

Lemma preferred_alone : forall amplitude links q i o,
  (forall i o, In (i, o) links -> i < length amplitude) ->
  nth_error links q = Some (i, o) ->
  (forall q' i', nth_error links q' = Some (i', o) -> q' = q) -> preferred amplitude links q.
Proof.
  intros amplitude links q i o R H U.
  destruct (nth_error_lt_Some amplitude i) as [a Ha]; [eapply R, nth_error_In; eauto|].
  exists i, o, a. split; auto. split; auto. intros q' i' a' H' Ha'.
  assert (q' = q) by eauto. subst. rewrite H in H'. injection H' as <-.
  rewrite Ha in Ha'. injection Ha' as <-. split; [lra|lia].
Qed.

Lemma chelton_post_process_spec : forall amplitude links,
  (forall i o, In (i, o) links -> i < length amplitude) ->
  exists mask, length mask = length links /\
    chelton_post_process amplitude links = Some (select mask links) /\
    forall q, nth_error mask q = Some true <-> preferred amplitude links q.
Proof.
  intros amplitude links R. unfold chelton_post_process.
  destruct (all_distinct (map snd links)) eqn:E.
  - apply all_distinct_NoDup in E. exists (repeat true (length links)).
    split; [apply repeat_length|]. split.
    + f_equal. clear. induction links; simpl; congruence.
    + intros q. split.
      * intros H. assert (q < length links). { apply nth_error_Some_lt in H. now rewrite repeat_length in H. }
        destruct (nth_error_lt_Some links q H0) as [[i o] Hq].
        eapply preferred_alone; eauto. intros q' i' Hq'.
        apply (proj1 (NoDup_nth_error _) E).
        -- rewrite map_length. eapply nth_error_Some_lt; eauto.
        -- rewrite !nth_error_map, Hq, Hq'. reflexivity.
      * intros (i & o & a & H & _). rewrite nth_error_repeat_lt. rewrite (proj2 (Nat.ltb_lt _ _)); auto. eapply nth_error_Some_lt; eauto.
  - set (nb := fun o => count_true (map (fun l : nat * nat => snd l =? o) links)).
    set (os := filter (fun o => 1 <? nb o) (seq 0 (S (list_max_nat (map snd links))))).
    assert (NB : forall o, 1 <= nb o -> exists i, In (i, o) links).
    { intros o. unfold nb. clear. induction links as [|[i o'] links IH]; simpl; [unfold count_true; simpl; lia|].
      destruct (Nat.eqb_spec o' o) as [->|N]; [intros _; exists i; auto|].
      intros H. destruct IH as [i' H']; [exact H|]. eauto. }
    destruct (drop_all_spec amplitude links R os (repeat true (length links))) as (mask & Em & Lm & Hm).
    { apply repeat_length. }
    { intros o Ho. apply filter_In in Ho as [_ Ho]. apply Nat.ltb_lt in Ho. apply NB. lia. }
    exists mask. split; auto. split.
    { transitivity (bind (drop_all amplitude links os (repeat true (length links))) (fun mk => Some (select mk links))); [reflexivity|].
      rewrite Em. reflexivity. }
    intros q. rewrite Hm. split.
    + intros [Q P]. assert (Lq : q < length links). { apply nth_error_Some_lt in Q. now rewrite repeat_length in Q. }
      destruct (nth_error_lt_Some links q Lq) as [[i o] Hq].
      destruct (in_dec Nat.eq_dec o os) as [Ho|Ho]; [eauto|].
      eapply preferred_alone; eauto. intros q' i' Hq'.
      destruct (Nat.eq_dec q' q) as [->|N]; auto. exfalso. apply Ho.
      apply filter_In. split.
      * apply in_seq. simpl. split; [lia|]. apply le_n_S, list_max_nat_ge.
        apply in_map_iff. exists (i, o). split; auto. eapply nth_error_In; eauto.
      * apply Nat.ltb_lt. apply count_true_two.
        assert (T : forall q i, nth_error links q = Some (i, o) ->
                  nth_error (map (fun l : nat * nat => snd l =? o) links) q = Some true).
        { intros q0 i0 H0. rewrite nth_error_map, H0. simpl. now rewrite Nat.eqb_refl. }
        destruct (Nat.lt_ge_cases q q'); [exists q, q'|exists q', q]; (split; [lia|split; eauto]).
    + intros P. split; auto. destruct P as (i & o & a & H & _).
      rewrite nth_error_repeat_lt. rewrite (proj2 (Nat.ltb_lt _ _)); auto. eapply nth_error_Some_lt; eauto.
Qed.

Lemma lex_sorted_nth : forall l p q a b, lex_sorted l ->
  p < q -> nth_error l p = Some a -> nth_error l q = Some b -> lex_lt a b.
Proof.
  induction l as [|x l IH]; intros [|p] [|q] a b H L A B; simpl in *; try discriminate; try lia;
    inversion H; subst.
  - injection A as <-. apply nth_error_In in B. auto.
  - eapply (IH p q); eauto. lia.
Qed.

(** The link kept for a target: cheapest for its source, and of the sources
    whose cheapest target it is, the one of greatest amplitude. *)
Lemma chelton_tracking_spec : forall n m amplitude cost,
  shaped n m cost -> length amplitude = n -> 0 < n -> 0 < m ->
  exists links, chelton_tracking amplitude m cost = Some links /\
    NoDup (map fst links) /\ NoDup (map snd links) /\ lex_sorted links /\
    forall i j, In (i, j) links <->
      cheapest cost i j /\
      exists a, nth_error amplitude i = Some a /\
        forall i' a', cheapest cost i' j -> nth_error amplitude i' = Some a' ->
          (a' <= a)%Q /\ (i' < i -> (a' < a)%Q).
Proof.
  intros n m amplitude cost SH LA Pn Pm. unfold chelton_tracking.
  destruct (solve_first_spec n m cost SH Pn Pm) as (mask & E & SM & HM).
  rewrite E. cbn [bind].
  set (links := where2 mask).
  assert (HL : forall i j, In (i, j) links <-> cheapest cost i j).
  { intros. unfold links. rewrite In_where2. apply HM. }
  assert (LS : lex_sorted links) by apply lex_sorted_where_rows.
  assert (R : forall i o, In (i, o) links -> i < length amplitude).
  { intros i o H. apply HL in H as (c & A & _). rewrite LA. apply (shaped_bound _ _ _ _ _ _ SH A). }
  destruct (chelton_post_process_spec amplitude links R) as (mk & Lk & Ek & Hk).
  exists (select mk links). split; auto.
  assert (IS : forall i j, In (i, j) (select mk links) <->
     exists q, nth_error links q = Some (i, j) /\ preferred amplitude links q).
  { intros i j. rewrite In_select. split; intros (q & A & B); exists q.
    - split; auto. now apply Hk.
    - split; auto. now apply Hk. }
  assert (SubS : lex_sorted (select mk links)).
  { clear - LS Lk. revert mk Lk. induction LS as [|a l Ha Hl IH]; intros [|b mk] Lk; simpl in *; try discriminate.
    - constructor.
    - injection Lk as Lk. destruct b; auto. constructor; auto.
      intros x Hx. apply In_select in Hx as (q & _ & Hq). apply Ha. eapply nth_error_In; eauto. }
  assert (U1 : forall i j j', In (i, j) (select mk links) -> In (i, j') (select mk links) -> j = j').
  { intros i j j' H H'. apply IS in H as (q & H & _). apply IS in H' as (q' & H' & _).
    apply nth_error_In, HL in H. apply nth_error_In, HL in H'. eapply cheapest_unique; eauto. }
  assert (U2 : forall i i' j, In (i, j) (select mk links) -> In (i', j) (select mk links) -> i = i').
  { intros i i' j H H'. apply IS in H as (q & H & P). apply IS in H' as (q' & H' & P').
    assert (q = q') by (eapply preferred_unique; eauto). subst. congruence. }
  pose proof (lex_sorted_NoDup _ SubS) as ND.
  split. { apply NoDup_map_inj_in; auto. intros [i j] [i' j'] A B EQ. simpl in EQ. subst. f_equal. eauto. }
  split. { apply NoDup_map_inj_in; auto. intros [i j] [i' j'] A B EQ. simpl in EQ. subst. f_equal. eauto. }
  split; auto.
  intros i j. rewrite IS. split.
  - intros (q & H & (i1 & o & a & H1 & H2 & H3)). rewrite H in H1. injection H1 as <- <-.
    split; [apply HL; eapply nth_error_In; eauto|]. exists a. split; auto.
    intros i' a' C Ha'. apply HL in C. apply In_nth_error in C as [q' Hq'].
    destruct (H3 _ _ _ Hq' Ha') as [X Y]. split; auto. intros Li. apply Y.
    destruct (Nat.lt_trichotomy q q') as [Z|[Z|Z]]; auto.
    + pose proof (lex_sorted_nth _ _ _ _ _ LS Z H Hq') as K. unfold lex_lt in K. simpl in K. lia.
    + subst. rewrite H in Hq'. injection Hq' as ->. lia.
  - intros (C & a & Ha & H). apply HL, In_nth_error in C as [q Hq]. exists q. split; auto.
    exists i, j, a. split; auto. split; auto.
    intros q' i' a' Hq' Ha'. destruct (H i' a') as [X Y]; auto.
    { apply HL. eapply nth_error_In; eauto. }
    split; auto. intros Lq. apply Y.
    pose proof (lex_sorted_nth _ _ _ _ _ LS Lq Hq' Hq) as K. unfold lex_lt in K. simpl in K. lia.
Qed.

(** ** Overlap tracker *)
Lemma get_mask_cmin : forall cmin n m cand cost, shaped n m cost ->
  NoDup (map fst cand) ->
  (forall i j c, In (i, j, c) cand -> i < n /\ j < m) ->
  shaped n m (mask_cmin cmin cand cost) /\
  (forall i j c, In (i, j, c) cand -> (cmin < c)%Q -> get (mask_cmin cmin cand cost) i j = Some (Some (1 - c)%Q)) /\
  (forall i j, (forall c, In (i, j, c) cand -> (c <= cmin)%Q) -> get (mask_cmin cmin cand cost) i j = get cost i j).
Proof.
  intros cmin n m. induction cand as [|[[i0 j0] c0] cand IH]; intros cost SH ND R; simpl.
  - split; auto. split; auto. intros i j c [].
  - inversion ND as [|? ? N1 N2]; subst. simpl in N1.
    set (cost' := if Qlt_bool cmin c0 then set_cell cost i0 j0 (Some (1 - c0)%Q) else cost).
    assert (SH' : shaped n m cost') by (unfold cost'; destruct (Qlt_bool cmin c0); [apply shaped_set_cell|]; auto).
    destruct (IH cost' SH' N2) as (A & B & C); [intros; eapply R; right; eauto|].
    split; auto. split.
    + intros i j c [H|H] Hc; [|eauto]. injection H as -> -> ->.
      rewrite C.
      * unfold cost'. rewrite (proj2 (Qlt_bool_iff _ _) Hc). rewrite get_set_cell, !Nat.eqb_refl. simpl.
        destruct (R i j c (or_introl eq_refl)) as [Ri Rj].
        destruct (shaped_get _ _ _ i j SH Ri Rj) as [v ->]. reflexivity.
      * intros c' Hc'. exfalso. apply N1. apply in_map_iff. exists (i, j, c'). auto.
    + intros i j H. rewrite C by (intros; apply H; right; auto). unfold cost'.
      destruct (Qlt_bool cmin c0) eqn:E; auto. rewrite get_set_cell.
      destruct (Nat.eqb_spec i i0) as [->|]; simpl; [|destruct (get cost i j); auto].
      destruct (Nat.eqb_spec j j0) as [->|]; simpl; [|destruct (get cost i0 j); auto].
      apply Qlt_bool_iff in E. specialize (H c0 (or_introl eq_refl)). lra.
Qed.

Lemma shaped_none : forall n m, shaped n m (repeat (repeat (@None Q) m) n).
Proof.
  intros. split; [apply repeat_length|]. apply Forall_forall. intros r H.
  apply repeat_spec in H. subst. apply repeat_length.
Qed.

Lemma allowed_none : forall n m i j c, ~ allowed (repeat (repeat None m) n) i j c.
Proof.
  intros n m i j c H. unfold allowed, get in H.
  destruct (nth_error (repeat (repeat None m) n) i) eqn:E; [|discriminate].
  apply nth_error_In, repeat_spec in E. subst. apply nth_error_In, repeat_spec in H. discriminate.
Qed.

Lemma area_tracking_spec : forall cmin n m cand,
  NoDup (map fst cand) -> (forall i j c, In (i, j, c) cand -> i < n /\ j < m) ->
  exists links, area_tracking cmin n m cand = Some links /\
    NoDup (map fst links) /\ NoDup (map snd links) /\
    (forall i j, In (i, j) links -> exists c, In (i, j, c) cand /\ (cmin < c)%Q) /\
    (forall i j c, In (i, j, c) cand -> (cmin < c)%Q ->
       In (i, j) links \/
       exists i' j' c', In (i', j') links /\ In (i', j', c') cand /\ (i' = i \/ j' = j) /\ (c <= c')%Q).
Proof.
  intros cmin n m cand ND R. unfold area_tracking, area_cost.
  destruct (get_mask_cmin cmin n m cand _ (shaped_none n m) ND R) as (SH & H1 & H2).
  destruct (tracking_spec n m _ SH) as (links & E & N1 & N2 & _ & _ & (G1 & _ & _ & G4)).
  assert (AL : forall i j c, allowed (mask_cmin cmin cand (repeat (repeat None m) n)) i j c ->
    exists c', In (i, j, c') cand /\ (cmin < c')%Q /\ c = (1 - c')%Q).
  { intros i j c A.
    assert (D : (exists c', In (i, j, c') cand /\ (cmin < c')%Q) \/ forall c', In (i, j, c') cand -> (c' <= cmin)%Q).
    { clear. induction cand as [|[[i0 j0] c0] cand IH]; [right; intros c' []|].
      destruct IH as [(c' & A & B)|IH]; [left; exists c'; split; auto; right; auto|].
      destruct (Nat.eq_dec i0 i) as [->|]; [|right; intros c' [X|X]; [congruence|auto]].
      destruct (Nat.eq_dec j0 j) as [->|]; [|right; intros c' [X|X]; [congruence|auto]].
      destruct (Qlt_le_dec cmin c0) as [X|X]; [left; exists c0; split; auto; left; auto|].
      right. intros c' [Y|Y]; [injection Y as <-; exact X|auto]. }
    destruct D as [(c' & A1 & A2)|D].
    - exists c'. unfold allowed in A. rewrite (H1 _ _ _ A1 A2) in A. split; auto. split; auto. congruence.
    - exfalso. apply (allowed_none n m i j c). unfold allowed. now rewrite <- (H2 i j D). }
  exists links. split; auto. split; auto. split; auto. split.
  - intros i j H. destruct (G1 _ _ H) as [c A]. destruct (AL _ _ _ A) as (c' & A1 & A2 & _). eauto.
  - intros i j c HC Hc. destruct (G4 i j (1 - c)%Q) as [H|(i' & j' & c' & K1 & K2 & K3 & K4)].
    + unfold allowed. auto.
    + auto.
    + right. destruct (AL _ _ _ K2) as (c2 & A1 & A2 & ->). exists i', j', c2. repeat split; auto. lra.
Qed.
