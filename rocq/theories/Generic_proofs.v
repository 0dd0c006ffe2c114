(** Lemmas about the functions of [Generic_model]. *)
From Coq Require Import List Arith ZArith Bool QArith Qround Qabs Lia Lqa Permutation.
From Verif Require Import Base Qaux Spec Generic_model.
Import ListNotations.

(** ** count_consecutive *)
Lemma count_consecutive_from_spec : forall mask c i k,
  (0 <= c)%Z ->
  nth_error (count_consecutive_from c mask) i = Some k ->
  exists b, nth_error mask i = Some b /\
  if b then
    (1 <= k)%Z /\
    ((k <= Z.of_nat i /\ (forall j, (i - Z.to_nat k < j <= i)%nat -> nth_error mask j = Some true)
       /\ nth_error mask (i - Z.to_nat k) = Some false)%Z
     \/ (k = Z.of_nat i + 1 + c /\ forall j, (j <= i)%nat -> nth_error mask j = Some true))%Z
  else k = 0%Z.
Proof.
  induction mask as [|m mask IH]; intros c i k Hc H; simpl in H.
  - destruct i; discriminate.
  - destruct i as [|i].
    + destruct m; simpl in H; injection H as <-; eexists; (split; [reflexivity|]); cbv iota; auto.
      split; [lia|]. right. split; [lia|].
      intros [|j] Hj; [reflexivity|lia].
    + destruct m; simpl in H.
      * destruct (IH (c + 1)%Z i k ltac:(lia) H) as ([|] & Hb & R); [|exists false; split; auto].
        exists true. split; [exact Hb|]. destruct R as [R1 [R|R]]; split; auto.
        -- left. destruct R as (R2 & R3 & R4). split; [lia|]. split.
           ++ intros [|j] Hj; [lia|]. apply R3. lia.
           ++ replace (S i - Z.to_nat k)%nat with (S (i - Z.to_nat k)) by lia. exact R4.
        -- right. destruct R as (R2 & R3). split; [lia|].
           intros [|j] Hj; [reflexivity|]. apply R3. lia.
      * destruct (IH 0%Z i k ltac:(lia) H) as ([|] & Hb & R); [|exists false; split; auto].
        exists true. split; [exact Hb|]. destruct R as [R1 [R|R]]; split; auto; left.
        -- destruct R as (R2 & R3 & R4). split; [lia|]. split.
           ++ intros [|j] Hj; [lia|]. apply R3. lia.
           ++ replace (S i - Z.to_nat k)%nat with (S (i - Z.to_nat k)) by lia. exact R4.
        -- destruct R as (R2 & R3). split; [lia|]. split.
           ++ intros [|j] Hj; [lia|]. apply R3. lia.
           ++ replace (S i - Z.to_nat k)%nat with 0%nat by lia. reflexivity.
Qed.

Lemma length_count_consecutive_from : forall mask c,
  length (count_consecutive_from c mask) = length mask.
Proof. induction mask as [|[|] mask IH]; intros; simpl; auto. Qed.

(** ** reverse_index *)
Lemma clear_all_spec : forall index m m',
  clear_all m index = Some m' ->
  length m' = length m /\ (forall i, In i index -> (i < length m)%nat) /\
  forall j, nth_error m' j = Some true <-> nth_error m j = Some true /\ ~ In j index.
Proof.
  induction index as [|i index IH]; intros m m' H; simpl in H.
  - injection H as <-. simpl. intuition.
  - apply bind_Some in H as (m1 & H1 & H2).
    apply store_Some in H1 as [B ->].
    apply IH in H2 as (L & B2 & S). rewrite length_upd in *.
    split; auto. split.
    + intros k [->|Hk]; auto.
    + intros j. rewrite S. rewrite nth_error_upd. simpl.
      destruct (Nat.eqb_spec j i) as [->|N].
      * apply Nat.ltb_lt in B. rewrite B. split; [intros [E _]; discriminate|]. tauto.
      * split; intros [A B']; split; auto. intros [E|E]; auto.
Qed.

Lemma clear_all_total : forall index m,
  (forall i, In i index -> (i < length m)%nat) -> exists m', clear_all m index = Some m'.
Proof.
  induction index as [|i index IH]; intros m B; simpl; eauto.
  unfold store. destruct (Nat.ltb_spec i (length m)).
  - simpl. apply IH. intros. rewrite length_upd. apply B. now right.
  - specialize (B i (or_introl eq_refl)). lia.
Qed.

Lemma reverse_index_spec : forall index nb,
  (forall i, In i index -> (i < nb)%nat) ->
  exists r, reverse_index index nb = Some r /\ incr r /\
            forall j, In j r <-> (j < nb)%nat /\ ~ In j index.
Proof.
  intros index nb B. unfold reverse_index.
  destruct (clear_all_total index (repeat true nb)) as [m H].
  { rewrite repeat_length. exact B. }
  rewrite H. simpl. exists (where_ m). split; auto. split; [apply incr_where|].
  intros j. rewrite In_where. apply clear_all_spec in H as (_ & _ & S). rewrite S.
  rewrite nth_error_repeat_lt. destruct (Nat.ltb_spec j nb); intuition (try lia; try discriminate).
Qed.

(** ** build_index *)
Lemma zsorted_tail : forall a l, zsorted (a :: l) -> zsorted l.
Proof. intros a l H i j x y Hij Hi Hj. apply (H (S i) (S j)); auto. lia. Qed.

Lemma zsorted_head : forall a l b, zsorted (a :: l) -> In b l -> (a <= b)%Z.
Proof.
  intros a l b H Hb. apply In_nth_error in Hb as [n Hn].
  apply (H 0%nat (S n)); auto. lia.
Qed.

Lemma zmin_from_spec : forall l a,
  (In (zmin_from a l) (a :: l)) /\ forall b, In b (a :: l) -> (zmin_from a l <= b)%Z.
Proof.
  induction l as [|c l IH]; intros a; simpl.
  - split; [auto|]. intros b [->|[]]. lia.
  - destruct (IH (Z.min a c)) as [I M]. split.
    + destruct I as [E|I]; [|auto]. rewrite <- E.
      destruct (Z.min_spec a c) as [[_ ->]|[_ ->]]; auto.
    + intros b Hb. assert (B : (zmin_from (Z.min a c) l <= Z.min a c)%Z) by (apply M; now left).
      destruct Hb as [->|[->|Hb]]; try lia. apply M. now right.
Qed.

Lemma zmax_from_spec : forall l a,
  (In (zmax_from a l) (a :: l)) /\ forall b, In b (a :: l) -> (b <= zmax_from a l)%Z.
Proof.
  induction l as [|c l IH]; intros a; simpl.
  - split; [auto|]. intros b [->|[]]. lia.
  - destruct (IH (Z.max a c)) as [I M]. split.
    + destruct I as [E|I]; [|auto]. rewrite <- E.
      destruct (Z.max_spec a c) as [[_ ->]|[_ ->]]; auto.
    + intros b Hb. assert (B : (Z.max a c <= zmax_from (Z.max a c) l)%Z) by (apply M; now left).
      destruct Hb as [->|[->|Hb]]; try lia. apply M. now right.
Qed.

Fixpoint count_lt (v : Z) (l : list Z) : nat :=
  match l with [] => 0 | a :: l' => (if (a <? v)%Z then 1 else 0) + count_lt v l' end.

Lemma count_lt_all : forall v l, (forall a, In a l -> (v <= a)%Z) -> count_lt v l = 0%nat.
Proof.
  induction l as [|a l IH]; intros H; simpl; auto.
  destruct (Z.ltb_spec a v). { specialize (H a (or_introl eq_refl)). lia. }
  apply IH. intros; apply H; now right.
Qed.

Lemma sorted_count_lt : forall l v j a,
  zsorted l -> nth_error l j = Some a -> ((a < v)%Z <-> (j < count_lt v l)%nat).
Proof.
  induction l as [|b l IH]; intros v j a S H.
  - destruct j; discriminate.
  - simpl. destruct j as [|j]; simpl in H.
    + injection H as ->. destruct (Z.ltb_spec a v); split; intros; try lia.
      rewrite count_lt_all in *; try lia.
      intros c Hc. pose proof (zsorted_head _ _ _ S Hc). lia.
    + specialize (IH v j a (zsorted_tail _ _ S) H).
      pose proof (zsorted_head _ _ a S (nth_error_In _ _ H)).
      destruct (Z.ltb_spec b v).
      * rewrite IH. lia.
      * split; [lia|]. intros C. rewrite count_lt_all in C; [lia|].
        intros c Hc. pose proof (zsorted_head _ _ _ S Hc). lia.
Qed.

Lemma length_build_index_loop : forall groups i0 i first,
  length (build_index_loop i0 i groups first) = length first.
Proof.
  induction groups as [|g rest IH]; intros; simpl; auto.
  destruct rest as [|n rest]; auto. rewrite IH.
  destruct (g =? n)%Z; auto. apply length_fill.
Qed.

Lemma build_index_loop_spec : forall groups g i0 i first k,
  zsorted (g :: groups) -> (i0 <= g)%Z -> (k < length first)%nat ->
  nth_error (build_index_loop i0 i (g :: groups) first) k =
  if (Z.of_nat k <=? g - i0)%Z then nth_error first k
  else if (Z.of_nat k <=? zmax_from g groups - i0)%Z
       then Some (i + count_lt (i0 + Z.of_nat k) (g :: groups))%nat
       else nth_error first k.
Proof.
  induction groups as [|n rest IH]; intros g i0 i first k S H0 Hk.
  - simpl. destruct (Z.leb_spec (Z.of_nat k) (g - i0)); reflexivity.
  - pose proof (zsorted_head _ _ n S (or_introl eq_refl)) as Hgn.
    change (build_index_loop i0 i (g :: n :: rest) first)
      with (build_index_loop i0 (Datatypes.S i) (n :: rest)
        (if (g =? n)%Z then first
         else fill first (Z.to_nat (g - i0 + 1)) (Z.to_nat (n - i0 + 1)) (Datatypes.S i))).
    rewrite IH; [|eapply zsorted_tail; eauto|lia|].
    2:{ destruct (g =? n)%Z; [auto|rewrite length_fill; auto]. }
    assert (M : zmax_from g (n :: rest) = zmax_from n rest).
    { simpl. rewrite Z.max_r by lia. reflexivity. }
    rewrite M. pose proof (proj2 (zmax_from_spec rest n) n (or_introl eq_refl)) as Hmax.
    destruct (Z.eqb_spec g n) as [->|Ngn].
    + destruct (Z.leb_spec (Z.of_nat k) (n - i0)); [reflexivity|].
      destruct (Z.leb_spec (Z.of_nat k) (zmax_from n rest - i0)); [|reflexivity].
      f_equal. simpl. destruct (Z.ltb_spec n (i0 + Z.of_nat k)); lia.
    + rewrite nth_error_fill.
      destruct (Z.leb_spec (Z.of_nat k) (n - i0)).
      * destruct (Z.leb_spec (Z.of_nat k) (g - i0)).
        -- destruct (Nat.leb_spec (Z.to_nat (g - i0 + 1)) k); [lia|]. reflexivity.
        -- destruct (Nat.leb_spec (Z.to_nat (g - i0 + 1)) k); [|lia].
           destruct (Nat.ltb_spec k (Z.to_nat (n - i0 + 1))); [|lia].
           destruct (Nat.ltb_spec k (length first)); [|lia]. simpl andb. cbn iota.
           destruct (Z.leb_spec (Z.of_nat k) (zmax_from n rest - i0)); [|lia].
           f_equal. cbn [count_lt].
           destruct (Z.ltb_spec g (i0 + Z.of_nat k)); [|lia].
           destruct (Z.ltb_spec n (i0 + Z.of_nat k)); [lia|].
           rewrite count_lt_all; [lia|].
           intros c Hc. pose proof (zsorted_head _ _ c (zsorted_tail _ _ S) Hc). lia.
      * destruct (Z.leb_spec (Z.of_nat k) (g - i0)); [lia|].
        destruct (Z.leb_spec (Z.of_nat k) (zmax_from n rest - i0)).
        -- f_equal. cbn [count_lt].
           destruct (Z.ltb_spec g (i0 + Z.of_nat k)); [|lia]. lia.
        -- destruct (Nat.ltb_spec k (Z.to_nat (n - i0 + 1))); [lia|].
           rewrite andb_false_r. reflexivity.
Qed.

(** All entries of the table: number of labels strictly below. *)
Lemma build_index_first : forall groups first last i0,
  zsorted groups -> build_index groups = Some (first, last, i0) ->
  (forall v, In v groups -> (i0 <= v < i0 + Z.of_nat (length first))%Z) /\
  In i0 groups /\ In (i0 + Z.of_nat (length first) - 1)%Z groups /\
  last = tl first ++ [length groups] /\ (0 < length first)%nat /\
  forall k, (k < length first)%nat ->
    nth_error first k = Some (count_lt (i0 + Z.of_nat k) groups).
Proof.
  intros [|g rest] first last i0 S H; [discriminate|].
  unfold build_index in H.
  remember (zmin_from g rest) as mn. remember (zmax_from g rest) as mx.
  remember (build_index_loop mn 0 (g :: rest) (repeat 0%nat (Z.to_nat (mx - mn + 1)))) as F eqn:EF.
  injection H as <- <- <-.
  pose proof (zmin_from_spec rest g) as [Imn Mmn]. rewrite <- Heqmn in *.
  pose proof (zmax_from_spec rest g) as [Imx Mmx]. rewrite <- Heqmx in *.
  assert (G : mn = g).
  { pose proof (Mmn g (or_introl eq_refl)). destruct Imn as [E|E]; [auto|].
    pose proof (zsorted_head _ _ _ S E). lia. }
  pose proof (Mmx g (or_introl eq_refl)) as Hmg.
  assert (L : length F = Z.to_nat (mx - mn + 1)).
  { subst F. rewrite length_build_index_loop. apply repeat_length. }
  rewrite L.
  repeat split.
  - apply Mmn; auto.
  - pose proof (Mmx v H). lia.
  - exact Imn.
  - replace (mn + Z.of_nat (Z.to_nat (mx - mn + 1)) - 1)%Z with mx by lia. exact Imx.
  - lia.
  - intros k Hk. rewrite EF, build_index_loop_spec; auto; try lia.
    2:{ rewrite repeat_length. exact Hk. }
    rewrite <- Heqmx, nth_error_repeat_lt.
    destruct (Nat.ltb_spec k (Z.to_nat (mx - mn + 1))); [|lia].
    destruct (Z.leb_spec (Z.of_nat k) (g - mn)).
    + f_equal. symmetry. apply count_lt_all. intros a Ha. apply Mmn in Ha. lia.
    + destruct (Z.leb_spec (Z.of_nat k) (mx - mn)); [|lia]. reflexivity.
Qed.

Lemma nth_error_tl : forall {A} (l : list A) k, nth_error (tl l) k = nth_error l (S k).
Proof. intros A [|a l] k; simpl; auto. destruct k; reflexivity. Qed.

Lemma length_tl : forall {A} (l : list A), length (tl l) = (length l - 1)%nat.
Proof. intros A [|a l]; simpl; lia. Qed.

Lemma count_lt_len : forall l v, (forall a, In a l -> (a < v)%Z) -> count_lt v l = length l.
Proof.
  induction l as [|a l IH]; intros v H; simpl; auto.
  destruct (Z.ltb_spec a v).
  - rewrite IH; [lia|]. intros; apply H; now right.
  - specialize (H a (or_introl eq_refl)). lia.
Qed.

Lemma count_lt_le : forall l v w, (v <= w)%Z -> (count_lt v l <= count_lt w l)%nat.
Proof.
  induction l as [|a l IH]; intros v w H; simpl; auto.
  specialize (IH v w H). destruct (Z.ltb_spec a v), (Z.ltb_spec a w); lia.
Qed.

Lemma build_index_last : forall groups first last i0,
  zsorted groups -> build_index groups = Some (first, last, i0) ->
  length last = length first /\
  forall k, (k < length first)%nat ->
    nth_error last k = Some (count_lt (i0 + Z.of_nat k + 1) groups).
Proof.
  intros groups first last i0 S H.
  destruct (build_index_first _ _ _ _ S H) as (R & I0 & I1 & -> & P & F).
  split. { rewrite app_length, length_tl. simpl. lia. }
  intros k Hk. destruct (Nat.eq_dec k (length first - 1)) as [->|N].
  - rewrite nth_error_app2; rewrite length_tl; [|lia].
    rewrite Nat.sub_diag. simpl. f_equal. symmetry. apply count_lt_len.
    intros a Ha. apply R in Ha. lia.
  - rewrite nth_error_app1; [|rewrite length_tl; lia].
    rewrite nth_error_tl, F by lia. f_equal. f_equal. lia.
Qed.

(** ** cumsum_by_track *)
Lemma cumsum_from_spec : forall field track tp d i c,
  nth_error (cumsum_from tp d field track) i = Some c ->
  exists s : nat, (s <= i)%nat /\
    (forall j, (s <= j <= i)%nat -> nth_error track j = nth_error track i) /\
    ((0 < s)%nat -> nth_error track (s - 1) <> nth_error track s) /\
    ((s = 0%nat /\ nth_error track 0 = Some tp /\ c == d + Qsum (firstn (i + 1) field))
     \/ ((s = 0%nat -> nth_error track 0 <> Some tp) /\
         c == Qsum (firstn (i + 1 - s) (skipn s field)))).
Proof.
  induction field as [|f field IH]; intros track tp d i c H; simpl in H.
  - destruct i; discriminate.
  - destruct track as [|tr track]; [destruct i; discriminate|].
    destruct i as [|i]; simpl in H.
    + injection H as <-. exists 0%nat. split; [lia|]. split.
      { intros j Hj. replace j with 0%nat by lia. reflexivity. }
      split; [lia|].
      destruct (Z.eqb_spec tr tp) as [->|N].
      * left. split; auto. split; auto. simpl. lra.
      * right. split. { intros _ E. injection E as ->. auto. } simpl. lra.
    + destruct (IH _ _ _ _ _ H) as (s & Hs & Hc & Hb & R).
      destruct R as [(-> & E0 & R)|(E0 & R)].
      * (* the run reaches the head of the tail, which equals tr *)
        exists 0%nat. split; [lia|]. split.
        { intros [|j] Hj; simpl.
          - rewrite <- (Hc 0%nat) by lia. rewrite E0. reflexivity.
          - apply Hc. lia. }
        split; [lia|].
        destruct (Z.eqb_spec tr tp) as [->|N].
        -- left. split; auto. split; auto. rewrite R. simpl. ring.
        -- right. split. { intros _ E. simpl in E. injection E as ->. auto. }
           rewrite R. simpl. rewrite Nat.add_comm. simpl. ring.
      * exists (S s). split; [lia|]. split.
        { intros [|j] Hj; [lia|]. simpl. apply Hc. lia. }
        split.
        { intros _. simpl. rewrite Nat.sub_0_r. destruct s as [|s].
          - intros E. simpl in E. apply E0; auto.
          - simpl. simpl in Hb. rewrite Nat.sub_0_r in Hb. apply Hb. lia. }
        right. split; [discriminate|]. exact R.
Qed.

Lemma length_cumsum_from : forall field track tp d,
  length field = length track -> length (cumsum_from tp d field track) = length field.
Proof.
  induction field as [|f field IH]; intros [|t track] tp d H; simpl in *; try discriminate; auto.
Qed.

Lemma cumsum_by_track_spec : forall field track i c,
  nth_error (cumsum_by_track field track) i = Some c ->
  exists s : nat, (s <= i)%nat /\
    (forall j, (s <= j <= i)%nat -> nth_error track j = nth_error track i) /\
    ((0 < s)%nat -> nth_error track (s - 1) <> nth_error track s) /\
    c == Qsum (firstn (i + 1 - s) (skipn s field)).
Proof.
  intros field track i c H.
  destruct (cumsum_from_spec _ _ _ _ _ _ H) as (s & H1 & H2 & H3 & [(-> & _ & R)|(_ & R)]).
  - exists 0%nat. repeat split; auto. rewrite R, Nat.sub_0_r. simpl skipn. ring.
  - exists s. repeat split; auto.
Qed.

(** ** flatten_line_matrix *)
(** Expected content: rows separated by one nan. *)
Fixpoint joined {A} (rows : list (list A)) : list (cell A) :=
  match rows with
  | [] => []
  | r :: rest =>
      match rest with
      | [] => map Val r
      | _ => map Val r ++ Nan :: joined rest
      end
  end.

Lemma upd_app2 : forall {A} (a b : list A) k x,
  upd (a ++ b) (length a + k) x = a ++ upd b k x.
Proof. induction a; intros; simpl; auto. f_equal. apply IHa. Qed.

Lemma upd_out : forall {A} (a : list A) k x, (length a <= k)%nat -> upd a k x = a.
Proof.
  induction a as [|y a IH]; intros [|k] x H; simpl in *; auto; try lia.
  f_equal. apply IH. lia.
Qed.

(** State of the buffer: [done] written, [left] cells free. *)
Definition buf_at {A} (s : outbuf A) (done : list (cell A)) (left : nat) (oob : bool) : Prop :=
  ob_cells s = done ++ repeat Uninit left /\ ob_inc s = length done /\ ob_oob s = oob.

Lemma put_at : forall {A} (s : outbuf A) done left oob c,
  buf_at s done (S left) oob -> buf_at (put s c) (done ++ [c]) left oob.
Proof.
  intros A s done left oob c (H1 & H2 & H3). unfold buf_at, put. simpl.
  rewrite H1, H2, H3. repeat split.
  - replace (length done) with (length done + 0)%nat by lia.
    rewrite upd_app2. simpl. rewrite <- app_assoc. reflexivity.
  - rewrite app_length. simpl. lia.
  - rewrite app_length, repeat_length.
    destruct (Nat.ltb_spec (length done) (length done + S left)); [|lia].
    apply orb_false_r.
Qed.

Lemma put_row_at : forall {A} (row : list A) (s : outbuf A) done left oob,
  buf_at s done (length row + left) oob ->
  buf_at (fold_left (fun s' a => put s' (Val a)) row s) (done ++ map Val row) left oob.
Proof.
  induction row as [|a row IH]; intros s done left oob H; simpl in *.
  - now rewrite app_nil_r.
  - apply (put_at _ _ _ _ (Val a)) in H. apply IH in H.
    rewrite <- app_assoc in H. exact H.
Qed.

Lemma flatten_loop : forall {A} (rows : list (list A)) n (s : outbuf A) done,
  rows <> [] -> Forall (fun r => length r = n) rows ->
  buf_at s done (length rows - 1 + length rows * n) false ->
  let s' := fold_left (fun s row => put (fold_left (fun s' a => put s' (Val a)) row s) Nan) rows s in
  ob_cells s' = done ++ joined rows /\ ob_oob s' = true.
Proof.
  induction rows as [|r rows IH]; intros n s done NE F H; [congruence|].
  inversion F as [|? ? Lr F']; subst. cbn [fold_left].
  destruct rows as [|r2 rows].
  - simpl in H. rewrite Nat.add_0_r in H.
    replace (length r) with (length r + 0)%nat in H by lia.
    apply put_row_at in H. destruct H as (H1 & H2 & H3). simpl.
    rewrite H1, H2, H3. simpl. rewrite !app_nil_r. split.
    + apply upd_out. lia.
    + rewrite Nat.ltb_irrefl. reflexivity.
  - replace (length (r :: r2 :: rows) - 1 + length (r :: r2 :: rows) * length r)%nat
      with (length r + (S (length (r2 :: rows) - 1 + length (r2 :: rows) * length r)))%nat in H
      by (simpl; lia).
    apply put_row_at in H. apply (put_at _ _ _ _ Nan) in H.
    destruct (IH (length r) _ _ ltac:(discriminate) F' H) as [E O].
    split; [|exact O]. rewrite E. cbn [joined]. rewrite <- !app_assoc. reflexivity.
Qed.

Lemma flatten_spec : forall {A} n (rows : list (list A)),
  Forall (fun r => length r = n) rows -> (2 <= length rows \/ (length rows = 1 /\ 1 <= n))%nat ->
  ob_cells (flatten_line_matrix n rows) = joined rows /\ ob_oob (flatten_line_matrix n rows) = true.
Proof.
  intros A n rows F D. unfold flatten_line_matrix.
  destruct (Z.ltb_spec (Z.of_nat (length rows) - 1 + Z.of_nat (length rows) * Z.of_nat n) 1).
  { exfalso. nia. }
  apply (flatten_loop rows n _ []); auto.
  - destruct rows; simpl in *; [lia|discriminate].
  - unfold buf_at. simpl. repeat split. f_equal. nia.
Qed.

(** ** simplify *)
Lemma length_simplify_loop : forall p pts prev ln, length (simplify_loop p prev ln pts) = length pts.
Proof.
  induction pts as [|[[x y]|] pts IH]; intros; simpl; auto.
  destruct (Qlt_bool p (x - fst prev)); simpl; auto.
  destruct (Qlt_bool p (y - snd prev)); simpl; auto.
  destruct (Qlt_bool (p * p) _); simpl; auto.
Qed.

(** The signed tests of lines 395 and 399 never change the decision. *)
Lemma simplify_keep : forall p prev x y, 0 <= p ->
  (Qlt_bool p (x - fst prev) || Qlt_bool p (y - snd prev)
   || Qlt_bool (p * p) ((x - fst prev) * (x - fst prev) + (y - snd prev) * (y - snd prev)))%bool = true
  <-> p * p < dist2 (x, y) prev.
Proof.
  intros p prev x y Hp. rewrite !orb_true_iff, !Qlt_bool_iff. unfold dist2. simpl.
  set (dx := (x - fst prev)%Q). set (dy := (y - snd prev)%Q).
  split.
  - intros [[H|H]|H]; auto; nra.
  - intros H. right. exact H.
Qed.

(** [kept_ref p prev pts k r]: scanning [pts] from reference [prev], [r] is the
    last kept valid point strictly before position [k] (or [prev]). *)
Lemma simplify_loop_spec : forall p pts prev ln i q b,
  0 <= p ->
  nth_error pts i = Some (Some q) ->
  nth_error (simplify_loop p prev ln pts) i = Some b ->
  exists r, 
    ((r = prev /\ forall j q', (j < i)%nat -> nth_error pts j = Some (Some q') ->
         nth_error (simplify_loop p prev ln pts) j = Some false)
     \/ exists j, (j < i)%nat /\ nth_error pts j = Some (Some r) /\
         nth_error (simplify_loop p prev ln pts) j = Some true /\
         forall j' q', (j < j' < i)%nat -> nth_error pts j' = Some (Some q') ->
           nth_error (simplify_loop p prev ln pts) j' = Some false)
    /\ (b = true <-> p * p < dist2 q r).
Proof.
  induction pts as [|[[x y]|] pts IH]; intros prev ln i q b Hp Hq Hb.
  - destruct i; discriminate.
  - assert (K := simplify_keep p prev x y Hp).
    destruct i as [|i].
    + simpl in Hq. injection Hq as <-. exists prev. split.
      { left. split; auto. intros j q' Hj. lia. }
      rewrite <- K. simpl in Hb.
      destruct (Qlt_bool p (x - fst prev)); [simpl in *; injection Hb as <-; simpl; tauto|].
      destruct (Qlt_bool p (y - snd prev)); [simpl in *; injection Hb as <-; simpl; tauto|].
      destruct (Qlt_bool (p * p) _); simpl in *; injection Hb as <-; simpl; tauto.
    + assert (E : simplify_loop p prev ln (@Some point (x, y) :: pts) =
        if (Qlt_bool p (x - fst prev) || Qlt_bool p (y - snd prev)
           || Qlt_bool (p * p) ((x - fst prev) * (x - fst prev) + (y - snd prev) * (y - snd prev)))%bool
        then true :: simplify_loop p (x, y) false pts else false :: simplify_loop p prev false pts).
      { simpl. destruct (Qlt_bool p (x - fst prev)); auto.
        destruct (Qlt_bool p (y - snd prev)); auto.
        }
      remember (simplify_loop p prev ln (@Some point (x, y) :: pts)) as LL eqn:ELL. clear ELL.
      simpl in Hq.
      destruct (_ || _)%bool; subst LL.
      * simpl in Hb. destruct (IH _ _ _ _ _ Hp Hq Hb) as (r & R & D).
        exists r. split; [|exact D]. right.
        destruct R as [(-> & R)|(j & Hj & Hr & Ht & R)].
        -- exists 0%nat. split; [lia|]. split; auto. split; auto.
           intros [|j'] q' Hj' Hn; [lia|]. simpl in *. eapply R; eauto. lia.
        -- exists (S j). split; [lia|]. split; auto. split; auto.
           intros [|j'] q' Hj' Hn; [lia|]. simpl in *. eapply R; eauto. lia.
      * simpl in Hb. destruct (IH _ _ _ _ _ Hp Hq Hb) as (r & R & D).
        exists r. split; [|exact D].
        destruct R as [(-> & R)|(j & Hj & Hr & Ht & R)].
        -- left. split; auto. intros [|j'] q' Hj' Hn; simpl in *; auto.
           eapply R; eauto. lia.
        -- right. exists (S j). split; [lia|]. split; auto. split; auto.
           intros [|j'] q' Hj' Hn; [lia|]. simpl in *. eapply R; eauto. lia.
  - destruct i as [|i]; simpl in Hq; [discriminate|].
    simpl in Hb. destruct (IH _ _ _ _ _ Hp Hq Hb) as (r & R & D).
    exists r. split; [|exact D].
    destruct R as [(-> & R)|(j & Hj & Hr & Ht & R)].
    + left. split; auto. intros [|j'] q' Hj' Hn; simpl in *; [discriminate|].
      eapply R; eauto. lia.
    + right. exists (S j). split; [lia|]. split; auto. split; auto.
      intros [|j'] q' Hj' Hn; [lia|]. simpl in *. eapply R; eauto. lia.
Qed.

(** ** split_line *)
(** number of label changes before position [j] *)
Definition changes (i : list Z) (j : nat) : nat := nb_jumps (firstn (S j) i).

Lemma changes_cons : forall a b i j,
  changes (a :: b :: i) (S j) = ((if (a =? b)%Z then 0 else 1) + changes (b :: i) j)%nat.
Proof. reflexivity. Qed.

Lemma put_checked_at : forall {A} (done : list (cell A)) left c,
  put_checked (done ++ repeat Uninit (S left), length done) c
  = Some ((done ++ [c]) ++ repeat Uninit left, length (done ++ [c])).
Proof.
  intros. unfold put_checked, store. cbn [fst snd].
  rewrite app_length, repeat_length.
  destruct (Nat.ltb_spec (length done) (length done + S left)); [|lia]. simpl.
  replace (length done) with (length done + 0)%nat at 1 by lia.
  rewrite upd_app2. simpl. rewrite <- app_assoc. simpl.
  rewrite app_length. simpl. do 2 f_equal. lia.
Qed.

(** Reference description of the result. *)
Fixpoint split_ref {A} (pts : list A) (i : list Z) : list (cell A) :=
  match pts, i with
  | p :: pts', a :: i' =>
      Val p :: (match i' with
                | b :: _ => if (a =? b)%Z then [] else [Nan]
                | [] => []
                end) ++ split_ref pts' i'
  | _, _ => []
  end.

Lemma split_line_loop_spec : forall {A} (pts : list A) i done left,
  length i = length pts -> left = (nb_jumps i + length pts)%nat ->
  split_line_loop pts i (done ++ repeat Uninit left, length done)
  = Some (done ++ split_ref pts i, length (done ++ split_ref pts i)).
Proof.
  induction pts as [|p pts IH]; intros [|a i] done left L E; simpl in L; try discriminate.
  - subst. simpl. rewrite app_nil_r. reflexivity.
  - cbn [split_line_loop]. subst left.
    replace (nb_jumps (a :: i) + length (p :: pts))%nat
      with (S (nb_jumps (a :: i) + length pts)) by (simpl; lia).
    rewrite put_checked_at. cbn [bind].
    destruct pts as [|p2 pts]; destruct i as [|b i]; simpl in L; try lia.
    + simpl. rewrite app_nil_r. reflexivity.
    + replace (nb_jumps (a :: b :: i)) with ((if (a =? b)%Z then 0 else 1) + nb_jumps (b :: i))%nat by reflexivity.
      destruct (Z.eqb_spec a b).
      * rewrite (IH (b :: i) (done ++ [Val p])); [|simpl; lia|reflexivity].
        cbn [split_ref]. rewrite (proj2 (Z.eqb_eq a b)) by auto. simpl app at 3.
        rewrite <- app_assoc. reflexivity.
      * replace (1 + nb_jumps (b :: i) + length (p2 :: pts))%nat
          with (S (nb_jumps (b :: i) + length (p2 :: pts)))%nat by lia.
        rewrite put_checked_at. cbn [bind].
        rewrite (IH (b :: i) ((done ++ [Val p]) ++ [Nan])); [|simpl; lia|reflexivity].
        cbn [split_ref]. rewrite (proj2 (Z.eqb_neq a b)) by auto.
        rewrite <- !app_assoc. reflexivity.
Qed.

Lemma split_line_eq : forall {A} (pts : list A) i,
  length i = length pts -> split_line pts i = Some (split_ref pts i).
Proof.
  intros. unfold split_line.
  pose proof (split_line_loop_spec pts i [] _ H eq_refl) as E. cbn [app length] in E. rewrite E. reflexivity.
Qed.

Lemma split_ref_length : forall {A} (pts : list A) i,
  length i = length pts -> length (split_ref pts i) = (length pts + nb_jumps i)%nat.
Proof.
  induction pts as [|p pts IH]; intros [|a i] L; simpl in L; try discriminate; auto.
  destruct i as [|b i].
  - destruct pts; simpl in *; [reflexivity|lia].
  - cbn [split_ref]. cbn [nb_jumps].
    destruct (a =? b)%Z; simpl; rewrite IH by lia; cbn [nb_jumps]; lia.
Qed.

Lemma split_ref_val : forall {A} (pts : list A) i j p,
  length i = length pts -> nth_error pts j = Some p ->
  nth_error (split_ref pts i) (j + changes i j) = Some (Val p).
Proof.
  induction pts as [|q pts IH]; intros [|a i] j p L H; simpl in L; try discriminate.
  - destruct j; discriminate.
  - destruct j as [|j].
    + simpl in H. injection H as ->. unfold changes. simpl. reflexivity.
    + destruct i as [|b i]. { destruct pts; simpl in L; [destruct j; discriminate|lia]. }
      rewrite changes_cons. cbn [split_ref]. simpl in H.
      specialize (IH (b :: i) j p ltac:(lia) H).
      destruct (a =? b)%Z.
      * simpl. exact IH.
      * replace (S j + (1 + changes (b :: i) j))%nat with (S (S (j + changes (b :: i) j))) by lia.
        simpl. exact IH.
Qed.

Lemma split_ref_nan : forall {A} (pts : list A) i j a b,
  length i = length pts -> nth_error i j = Some a -> nth_error i (S j) = Some b -> a <> b ->
  nth_error (split_ref pts i) (S (j + changes i j)) = Some Nan.
Proof.
  induction pts as [|q pts IH]; intros [|c i] j a b L Ha Hb N; simpl in L; try discriminate.
  - destruct j as [|j].
    + simpl in Ha. injection Ha as ->. destruct i as [|b' i]; [discriminate|].
      simpl in Hb. injection Hb as ->. cbn [split_ref]. unfold changes. simpl.
      rewrite (proj2 (Z.eqb_neq a b)) by auto. reflexivity.
    + destruct i as [|b' i]; [destruct j; discriminate|].
      rewrite changes_cons. cbn [split_ref]. simpl in Ha. 
      specialize (IH (b' :: i) j a b ltac:(lia) Ha Hb N).
      destruct (c =? b')%Z.
      * simpl. exact IH.
      * replace (S (S j + (1 + changes (b' :: i) j)))%nat with (S (S (S (j + changes (b' :: i) j)))) by lia.
        simpl. exact IH.
Qed.

Fixpoint values {A} (l : list (cell A)) : list A :=
  match l with
  | [] => []
  | Val a :: l' => a :: values l'
  | _ :: l' => values l'
  end.

Lemma split_ref_values : forall {A} (pts : list A) i,
  length i = length pts -> values (split_ref pts i) = pts.
Proof.
  induction pts as [|p pts IH]; intros [|a i] L; simpl in L; try discriminate; auto.
  cbn [split_ref]. destruct i as [|b i].
  - simpl. f_equal. apply IH. lia.
  - destruct (a =? b)%Z; simpl; f_equal; apply IH; simpl in *; lia.
Qed.

Lemma split_ref_no_uninit : forall {A} (pts : list A) i,
  ~ In Uninit (split_ref pts i).
Proof.
  induction pts as [|p pts IH]; intros [|a i] H; simpl in H; auto.
  destruct H as [H|H]; [discriminate|].
  destruct i as [|b i].
  - apply IH in H. exact H.
  - destruct (a =? b)%Z; simpl in H.
    + apply IH in H. exact H.
    + destruct H as [H|H]; [discriminate|]. apply IH in H. exact H.
Qed.

(** ** wrap_longitude *)
Lemma wrap1_range : forall ref x, ref <= wrap1 ref x /\ wrap1 ref x < ref + 360.
Proof.
  intros. unfold wrap1. destruct (Qmod_range (x - ref) 360 ltac:(lra)). split; lra.
Qed.

Lemma wrap1_cong : forall ref x, Qcong 360 (wrap1 ref x) x.
Proof.
  intros. unfold wrap1. eapply Qcong_trans.
  - apply Qcong_add. apply Qmod_cong.
  - setoid_replace (x - ref + ref) with x by ring. apply Qcong_refl.
Qed.

Lemma wrap1_canon : forall ref x y, Qcong 360 x y -> wrap1 ref x == wrap1 ref y.
Proof.
  intros ref x y H.
  destruct (wrap1_range ref x), (wrap1_range ref y).
  apply (Qcong_unique 360 ref); try (split; assumption).
  eapply Qcong_trans; [apply wrap1_cong|].
  eapply Qcong_trans; [exact H|]. apply Qcong_sym, wrap1_cong.
Qed.

(** At a cut the inserted points prolong both sides with the raw step. *)
Lemma cut_step : forall ref xp x,
  - (360) < x - xp -> x - xp < 360 ->
  is_cut ref (Some xp) (Some x) = true ->
  let cor := if Qlt_bool x xp then 360%Q else (-(360))%Q in
  (wrap1 ref x - cor) - wrap1 ref xp == x - xp.
Proof.
  intros ref xp x H1 H2 C cor. unfold is_cut in C. apply Qlt_bool_iff in C.
  destruct (wrap1_range ref x) as [A1 A2], (wrap1_range ref xp) as [B1 B2].
  destruct (wrap1_cong ref x) as [k Hk], (wrap1_cong ref xp) as [l Hl].
  assert (D : (x - xp) - (wrap1 ref x - wrap1 ref xp) == 360 * inject_Z (l - k)).
  { unfold Zminus. rewrite inject_Z_plus, inject_Z_opp.
    setoid_replace ((x - xp) - (wrap1 ref x - wrap1 ref xp))
      with ((wrap1 ref xp - xp) - (wrap1 ref x - x)) by ring.
    rewrite Hk, Hl. ring. }
  set (n := (l - k)%Z) in *.
  assert (R1 : 360 * inject_Z n < 720) by lra.
  assert (R2 : - (720) < 360 * inject_Z n) by lra.
  assert (N1 : (n < 2)%Z).
  { apply inject_Z_lt_iff. change (inject_Z 2) with 2. lra. }
  assert (N2 : (-2 < n)%Z).
  { apply inject_Z_lt_iff. change (inject_Z (-2)) with (-(2)). lra. }
  assert (N3 : (n <> 0)%Z).
  { intros E. rewrite E in D. change (inject_Z 0) with 0 in D. rewrite D in C.
    setoid_replace (360 * 0) with 0 in C by ring. 
    change (Qabs 0) with 0 in C. lra. }
  assert (S1 : n = 1%Z \/ n = (-1)%Z) by lia.
  unfold cor. destruct (Qlt_bool x xp) eqn:E.
  - apply Qlt_bool_iff in E.
    destruct S1 as [S1|S1]; rewrite S1 in D; [change (inject_Z 1) with 1 in D|change (inject_Z (-1)) with (-(1)) in D]; lra.
  - apply Qlt_bool_false in E.
    destruct S1 as [S1|S1]; rewrite S1 in D; [change (inject_Z 1) with 1 in D|change (inject_Z (-1)) with (-(1)) in D]; lra.
Qed.

Lemma nocut_step : forall ref xp x,
  is_cut ref (Some xp) (Some x) = false ->
  wrap1 ref x - wrap1 ref xp == x - xp.
Proof.
  intros ref xp x C. unfold is_cut in C. apply Qlt_bool_false in C.
  destruct (wrap1_cong ref x) as [k Hk], (wrap1_cong ref xp) as [l Hl].
  assert (D : (x - xp) - (wrap1 ref x - wrap1 ref xp) == 360 * inject_Z (l - k)).
  { unfold Zminus. rewrite inject_Z_plus, inject_Z_opp.
    setoid_replace ((x - xp) - (wrap1 ref x - wrap1 ref xp))
      with ((wrap1 ref xp - xp) - (wrap1 ref x - x)) by ring.
    rewrite Hk, Hl. ring. }
  set (n := (l - k)%Z) in *.
  apply Qabs_Qle_condition in C. destruct C as [C1 C2].
  assert (N1 : (n < 1)%Z) by (apply inject_Z_lt_iff; change (inject_Z 1) with 1; lra).
  assert (N2 : (-1 < n)%Z) by (apply inject_Z_lt_iff; change (inject_Z (-1)) with (-(1)); lra).
  assert (n = 0)%Z by lia. rewrite H in D. change (inject_Z 0) with 0 in D. lra.
Qed.

(** ** window_index *)
Fixpoint count_le (v : Q) (l : list Q) : nat :=
  match l with [] => 0 | a :: l' => (if Qle_bool a v then 1 else 0) + count_le v l' end.

Lemma qsorted_tail : forall a l, qsorted (a :: l) -> qsorted l.
Proof. intros a l H i j x y Hij Hi Hj. apply (H (S i) (S j)); auto. lia. Qed.

Lemma qsorted_head : forall a l b, qsorted (a :: l) -> In b l -> a <= b.
Proof.
  intros a l b H Hb. apply In_nth_error in Hb as [n Hn].
  apply (H 0%nat (S n)); auto. lia.
Qed.

Lemma count_le_zero : forall v l, (forall a, In a l -> v < a) -> count_le v l = 0%nat.
Proof.
  induction l as [|a l IH]; intros H; simpl; auto.
  destruct (Qle_bool a v) eqn:E.
  - apply Qle_bool_iff in E. specialize (H a (or_introl eq_refl)). lra.
  - apply IH. intros; apply H; now right.
Qed.

Lemma qsorted_count_le : forall l v j a,
  qsorted l -> nth_error l j = Some a -> (a <= v <-> (j < count_le v l)%nat).
Proof.
  induction l as [|b l IH]; intros v j a S H.
  - destruct j; discriminate.
  - simpl. destruct j as [|j]; simpl in H.
    + injection H as ->. destruct (Qle_bool a v) eqn:E.
      * apply Qle_bool_iff in E. split; intros; [lia|auto].
      * apply Qle_bool_false in E. split; intros H; [lra|].
        rewrite count_le_zero in H; [lia|].
        intros c Hc. pose proof (qsorted_head _ _ _ S Hc). lra.
    + specialize (IH v j a (qsorted_tail _ _ S) H).
      pose proof (qsorted_head _ _ a S (nth_error_In _ _ H)).
      destruct (Qle_bool b v) eqn:E.
      * rewrite IH. lia.
      * apply Qle_bool_false in E. split; [intros; lra|]. intros C. rewrite count_le_zero in C; [lia|].
        intros c Hc. pose proof (qsorted_head _ _ _ S Hc). lra.
Qed.

(** One table seen alone: fold of [window_advance] over the sorted values. *)
Fixpoint one_table (xs : list Q) (i : nat) (centers : list Q) (done : list nat) : list nat :=
  match xs with
  | [] => rev done ++ repeat i (length centers)
  | x :: xs' =>
      let '(c, d, _) := window_advance x i centers done false in one_table xs' (S i) c d
  end.

Lemma window_advance_oob : forall x i centers done o1 o2,
  fst (window_advance x i centers done o1) = fst (window_advance x i centers done o2).
Proof.
  induction centers as [|c centers IH]; intros; simpl; auto.
  destruct (Qlt_bool c x); auto.
Qed.

Lemma window_advance_spec : forall x i centers done o,
  let '(c, d, _) := window_advance x i centers done o in
  exists p, centers = p ++ c /\ (forall a, In a p -> a < x) /\
            d = repeat i (length p) ++ done /\
            (match c with [] => True | a :: _ => x <= a end).
Proof.
  induction centers as [|c0 centers IH]; intros done o.
  - exists []. simpl. intuition.
  - simpl. destruct (Qlt_bool c0 x) eqn:E.
    + apply Qlt_bool_iff in E.
      specialize (IH (i :: done) (o || match centers with [] => true | _ => false end)%bool).
      destruct (window_advance x i centers (i :: done) _) as [[c d] oo].
      destruct IH as (p & -> & P1 & -> & P2). exists (c0 :: p). split; auto. split.
      { intros a [->|Ha]; auto. } split; auto.
      simpl. change (i :: done) with (repeat i 1 ++ done). rewrite app_assoc, <- repeat_app.
      replace (length p + 1)%nat with (S (length p)) by lia. reflexivity.
    + apply Qlt_bool_false in E. exists []. simpl. intuition.
Qed.

(** Entries produced: for each remaining centre, [i] plus the number of values not above it. *)
Lemma one_table_spec : forall xs i centers done,
  qsorted xs -> qsorted centers ->
  one_table xs i centers done = rev done ++ map (fun c => (i + count_le c xs)%nat) centers.
Proof.
  induction xs as [|x xs IH]; intros i centers done Sx Sc; simpl.
  - f_equal. clear. induction centers; simpl; auto. rewrite <- IHcenters. f_equal. lia.
  - pose proof (window_advance_spec x i centers done false) as W.
    destruct (window_advance x i centers done false) as [[c d] o].
    destruct W as (p & -> & P1 & -> & P2).
    assert (Sc' : qsorted c).
    { intros a b u v H1 H2 H3. apply (Sc (length p + a)%nat (length p + b)%nat); [lia| |];
        rewrite nth_error_app2 by lia; rewrite Nat.add_comm, Nat.add_sub; auto. }
    rewrite IH; auto; [|eapply qsorted_tail; eauto].
    rewrite rev_app_distr, <- app_assoc. f_equal.
    rewrite map_app. f_equal.
    + assert (E : rev (repeat i (length p)) = repeat i (length p)).
      { clear. induction (length p) as [|n IHn]; simpl; auto. rewrite IHn.
        change [i] with (repeat i 1). rewrite <- repeat_app.
        replace (n + 1)%nat with (S n) by lia. reflexivity. }
      rewrite E. clear - P1 Sx.
      induction p as [|a p IHp]; simpl; auto. rewrite <- IHp by (intros; apply P1; now right).
      f_equal. destruct (Qle_bool x a) eqn:Q.
      { apply Qle_bool_iff in Q. specialize (P1 a (or_introl eq_refl)). lra. }
      rewrite count_le_zero; [lia|]. intros b Hb.
      pose proof (qsorted_head _ _ _ Sx Hb). specialize (P1 a (or_introl eq_refl)). lra.
    + apply map_ext_in. intros a Ha.
      assert (x <= a).
      { destruct c as [|c0 c]; [destruct Ha|]. destruct Ha as [<-|Ha]; auto.
        pose proof (qsorted_head _ _ _ Sc' Ha). lra. }
      destruct (Qle_bool x a) eqn:Q; [lia|]. apply Qle_bool_false in Q. lra.
Qed.

(** The full loop equals two independent tables (the early exit happens only
    when both are complete, because lower bounds are below upper bounds). *)
Lemma one_table_nil : forall xs i done, one_table xs i [] done = rev done.
Proof.
  induction xs as [|x xs IH]; intros; simpl.
  - apply app_nil_r.
  - apply IH.
Qed.

Lemma window_loop_spec : forall xs i s,
  (length (w_lo s) <= length (w_hi s))%nat ->
  (forall k a b, nth_error (rev (w_lo s)) k = Some a -> nth_error (rev (w_hi s)) k = Some b -> a <= b) ->
  let s' := window_loop xs i s in
  rev (w_first s') ++ repeat (i + length xs)%nat (length (w_lo s')) = one_table xs i (w_lo s) (w_first s) /\
  rev (w_last s') ++ repeat (i + length xs)%nat (length (w_hi s')) = one_table xs i (w_hi s) (w_last s).
Proof.
  induction xs as [|x xs IH]; intros i s Hlen Hle.
  - simpl. rewrite Nat.add_0_r. auto.
  - cbn [window_loop]. cbn [one_table].
    pose proof (window_advance_spec x i (w_lo s) (w_first s) (w_oob s)) as WL.
    pose proof (window_advance_oob x i (w_lo s) (w_first s) (w_oob s) false) as OL.
    destruct (window_advance x i (w_lo s) (w_first s) (w_oob s)) as [[lo f] o1].
    destruct (window_advance x i (w_lo s) (w_first s) false) as [[lo' f'] o1']. simpl in OL. injection OL as <- <-.
    pose proof (window_advance_spec x i (w_hi s) (w_last s) o1) as WH.
    pose proof (window_advance_oob x i (w_hi s) (w_last s) o1 false) as OH.
    destruct (window_advance x i (w_hi s) (w_last s) o1) as [[hi l] o2].
    destruct (window_advance x i (w_hi s) (w_last s) false) as [[hi' l'] o2']. simpl in OH. injection OH as <- <-.
    destruct WL as (pl & El & Pl & Fl & Nl). destruct WH as (ph & Eh & Ph & Fh & Nh).
    assert (LL : (length lo <= length hi)%nat).
    { destruct (Nat.le_gt_cases (length lo) (length hi)) as [|G]; auto. exfalso.
      (* the head of lo is >= x, while the matching hi entry was passed *)
      destruct lo as [|a lo]; [simpl in G; lia|].
      assert (La : nth_error (rev (w_lo s)) (length lo) = Some a).
      { rewrite El, rev_app_distr, nth_error_app1 by (rewrite rev_length; simpl; lia).
        simpl. rewrite nth_error_app2; rewrite rev_length; [|lia]. rewrite Nat.sub_diag. reflexivity. }
      destruct (nth_error_lt_Some (rev (w_hi s)) (length lo)) as [b Hb].
      { rewrite rev_length. rewrite El in Hlen. rewrite app_length in Hlen. simpl in Hlen. lia. }
      pose proof (Hle _ _ _ La Hb) as Hab.
      assert (In b ph).
      { rewrite Eh, rev_app_distr in Hb. rewrite nth_error_app2 in Hb by (rewrite rev_length; simpl in G; lia).
        apply nth_error_In in Hb. apply in_rev. exact Hb. }
      apply Ph in H. lra. }
    destruct hi as [|h hi].
    + destruct lo; [|simpl in LL; lia]. simpl w_lo. simpl w_hi. simpl w_first. simpl w_last.
      simpl. rewrite !app_nil_r. rewrite !one_table_nil. auto.
    + replace (i + length (x :: xs))%nat with (S i + length xs)%nat by (simpl; lia).
      apply (IH (S i) {| w_lo := lo; w_first := f; w_hi := h :: hi; w_last := l; w_oob := o2 |}); simpl; auto.
      intros k a b Ha Hb.
      apply (Hle k a b).
      * rewrite El, rev_app_distr. rewrite nth_error_app1; auto. apply nth_error_Some_lt in Ha. exact Ha.
      * rewrite Eh, rev_app_distr. rewrite nth_error_app1; auto. apply nth_error_Some_lt in Hb. exact Hb.
Qed.

(** ** Assembled statements used by the property file *)
Lemma build_index_tile : forall groups,
  groups <> [] -> zsorted groups ->
  exists first last i0,
    build_index groups = Some (first, last, i0) /\
    length last = length first /\ In i0 groups /\
    (forall v, In v groups -> (i0 <= v < i0 + Z.of_nat (length first))%Z) /\
    (forall k a b, nth_error first k = Some a -> nth_error last k = Some b ->
       (a <= b)%nat /\
       forall j, (a <= j < b)%nat <-> nth_error groups j = Some (i0 + Z.of_nat k)%Z) /\
    nth_error first 0 = Some 0%nat /\
    (forall k, (S k < length first)%nat -> nth_error first (S k) = nth_error last k) /\
    nth_error last (length first - 1) = Some (length groups).
Proof.
  intros groups NE S.
  destruct (build_index groups) as [[[first last] i0]|] eqn:E.
  2:{ destruct groups; [congruence|discriminate]. }
  exists first, last, i0. split; auto.
  destruct (build_index_first _ _ _ _ S E) as (R & I0 & I1 & EL & P & F).
  destruct (build_index_last _ _ _ _ S E) as (LL & L).
  split; auto. split; auto. split; auto. split; [|split; [|split]].
  - intros k a b Ha Hb. pose proof (nth_error_Some_lt _ _ _ Ha) as Hk.
    rewrite F in Ha by auto. injection Ha as <-.
    rewrite L in Hb by auto. injection Hb as <-.
    split; [apply count_lt_le; lia|].
    intros j. split.
    + intros [H1 H2].
      assert (Hj : (j < length groups)%nat).
      { eapply Nat.lt_le_trans; [exact H2|]. clear.
        induction groups as [|g groups IH]; simpl; auto.
        destruct (g <? _)%Z; simpl; lia. }
      destruct (nth_error_lt_Some _ _ Hj) as [a Ha]. rewrite Ha. f_equal.
      pose proof (sorted_count_lt groups (i0 + Z.of_nat k)%Z j a S Ha).
      pose proof (sorted_count_lt groups (i0 + Z.of_nat k + 1)%Z j a S Ha). lia.
    + intros Hj.
      pose proof (sorted_count_lt groups (i0 + Z.of_nat k)%Z j _ S Hj).
      pose proof (sorted_count_lt groups (i0 + Z.of_nat k + 1)%Z j _ S Hj). lia.
  - rewrite F by auto. f_equal. apply count_lt_all. intros a Ha. apply R in Ha. lia.
  - intros k Hk. rewrite F, L by lia. f_equal. f_equal. lia.
  - rewrite EL. rewrite nth_error_app2; rewrite length_tl; [|lia]. now rewrite Nat.sub_diag.
Qed.

(** split_line, with the positions given by a map. *)
Lemma changes_step : forall i j a b,
  nth_error i j = Some a -> nth_error i (S j) = Some b ->
  changes i (S j) = (changes i j + if (a =? b)%Z then 0 else 1)%nat.
Proof.
  induction i as [|c i IH]; intros j a b Ha Hb.
  - destruct j; discriminate.
  - destruct i as [|d i]; [destruct j; discriminate|].
    rewrite changes_cons. destruct j as [|j].
    + simpl in Ha, Hb. injection Ha as ->. injection Hb as ->.
      unfold changes. simpl. destruct (a =? b)%Z; simpl; lia.
    + rewrite changes_cons. simpl in Ha. rewrite (IH j a b Ha Hb). lia.
Qed.

Lemma nb_jumps_changes : forall i, nb_jumps i = changes i (length i - 1).
Proof.
  intros i. unfold changes. rewrite firstn_all2; auto. lia.
Qed.

Lemma split_line_spec : forall {A} (pts : list A) i,
  length i = length pts ->
  exists out (pos : nat -> nat),
    split_line pts i = Some out /\
    values out = pts /\ ~ In Uninit out /\
    pos 0%nat = 0%nat /\
    (pts <> [] -> length out = S (pos (length pts - 1)%nat)) /\
    (forall j p, nth_error pts j = Some p -> nth_error out (pos j) = Some (Val p)) /\
    (forall j a b, nth_error i j = Some a -> nth_error i (S j) = Some b ->
       (a = b -> pos (S j) = S (pos j)) /\
       (a <> b -> pos (S j) = S (S (pos j)) /\ nth_error out (S (pos j)) = Some Nan)).
Proof.
  intros A pts i L. exists (split_ref pts i), (fun j => (j + changes i j)%nat).
  split; [apply split_line_eq; auto|]. split; [apply split_ref_values; auto|].
  split; [apply split_ref_no_uninit|]. split.
  { unfold changes. destruct i as [|a [|b i]]; reflexivity. }
  split.
  { intros NE. rewrite split_ref_length by auto. rewrite nb_jumps_changes, L.
    destruct pts; [congruence|]. simpl. rewrite Nat.sub_0_r. lia. }
  split. { intros j p H. apply split_ref_val; auto. }
  intros j a b Ha Hb. rewrite (changes_step _ _ _ _ Ha Hb). split.
  - intros ->. rewrite Z.eqb_refl. lia.
  - intros N. rewrite (proj2 (Z.eqb_neq a b)) by auto. split; [lia|].
    eapply split_ref_nan; eauto.
Qed.

Lemma window_tables : forall xs x0 hw,
  qsorted xs -> qsorted x0 -> 0 <= hw ->
  fst (window_index xs x0 hw)
  = (map (fun c => count_le (c - hw) xs) x0, map (fun c => count_le (c + hw) xs) x0).
Proof.
  intros xs x0 hw Sx Sc Hw. unfold window_index.
  set (s0 := {| w_lo := _; w_first := _; w_hi := _; w_last := _; w_oob := _ |}).
  destruct (window_loop_spec xs 0 s0) as [A B].
  - simpl. rewrite !map_length. lia.
  - simpl. intros k a b. rewrite <- !map_rev.
    rewrite !nth_error_map. destruct (nth_error (rev x0) k) as [c|]; simpl; [|discriminate].
    intros H1 H2. injection H1 as <-. injection H2 as <-. lra.
  - simpl in A, B. simpl. rewrite A, B.
    rewrite !one_table_spec; auto; simpl; rewrite ?map_map; auto.
    + intros i j a b H1. rewrite !nth_error_map.
      destruct (nth_error x0 i) as [u|] eqn:Eu; simpl; [|discriminate].
      destruct (nth_error x0 j) as [v|] eqn:Ev; simpl; [|discriminate].
      intros [= <-] [= <-]. pose proof (Sc i j u v H1 Eu Ev). lra.
    + intros i j a b H1. rewrite !nth_error_map.
      destruct (nth_error x0 i) as [u|] eqn:Eu; simpl; [|discriminate].
      destruct (nth_error x0 j) as [v|] eqn:Ev; simpl; [|discriminate].
      intros [= <-] [= <-]. pose proof (Sc i j u v H1 Eu Ev). lra.
Qed.

Lemma In_slice : forall {A} (l : list A) a b x,
  In x (slice l a b) <-> exists j, (a <= j < b)%nat /\ nth_error l j = Some x.
Proof.
  intros A l a b x. unfold slice. split.
  - intros H. apply In_nth_error in H as [n H].
    assert (Hn : (n < b - a)%nat).
    { apply nth_error_Some_lt in H. rewrite firstn_length in H. lia. }
    exists (a + n)%nat. split; [lia|].
    rewrite <- (firstn_skipn a l).
    assert (La : (a <= length l)%nat).
    { destruct (Nat.le_gt_cases a (length l)); auto. rewrite skipn_all2 in H by lia.
      rewrite firstn_nil in H. destruct n; discriminate. }
    rewrite nth_error_app2; rewrite firstn_length_le by auto; [|lia].
    replace (a + n - a)%nat with n by lia.
    rewrite <- (firstn_skipn (b - a) (skipn a l)).
    rewrite nth_error_app1; auto. apply nth_error_Some_lt in H. exact H.
  - intros (j & Hj & H).
    pose proof (nth_error_Some_lt _ _ _ H) as Lj.
    rewrite <- (firstn_skipn a l) in H.
    rewrite nth_error_app2 in H; rewrite firstn_length_le in * by lia; [|lia].
    rewrite <- (firstn_skipn (b - a) (skipn a l)) in H.
    rewrite nth_error_app1 in H.
    + eapply nth_error_In; eauto.
    + rewrite firstn_length, skipn_length. lia.
Qed.

Lemma window_index_spec : forall x ord xs x0 hw first last oob,
  Permutation (seq 0 (length x)) ord -> gather x ord = Some xs ->
  qsorted xs -> qsorted x0 -> 0 <= hw ->
  window_index xs x0 hw = (first, last, oob) ->
  length first = length x0 /\ length last = length x0 /\
  forall k c a b, nth_error x0 k = Some c -> nth_error first k = Some a -> nth_error last k = Some b ->
    (a <= b)%nat /\
    forall p v, nth_error x p = Some v -> (In p (slice ord a b) <-> (c - hw < v /\ v <= c + hw)).
Proof.
  intros x ord xs x0 hw first last oob P G Sx Sc Hw E.
  pose proof (window_tables xs x0 hw Sx Sc Hw) as T. rewrite E in T. simpl in T.
  injection T as -> ->. rewrite !map_length. split; auto. split; auto.
  intros k c a b Hc. rewrite !nth_error_map, Hc. simpl. intros [= <-] [= <-]. split.
  - clear -Hw. induction xs as [|y xs IH]; simpl; auto.
    destruct (Qle_bool y (c - hw)) eqn:E1, (Qle_bool y (c + hw)) eqn:E2; try lia.
    apply Qle_bool_iff in E1. apply Qle_bool_false in E2. lra.
  - intros p v Hv. rewrite In_slice.
    assert (Gn : forall j q, nth_error ord j = Some q -> nth_error xs j = nth_error x q).
    { intros j q Hq. pose proof (proj1 (gather_Some _ _ _) G) as [_ GG]. specialize (GG _ _ Hq).
      destruct GG as (a & Ha & Hb). rewrite Hb. auto. }
    split.
    + intros (j & Hj & Hp). specialize (Gn _ _ Hp). rewrite Hv in Gn.
      pose proof (qsorted_count_le xs (c - hw) j v Sx Gn).
      pose proof (qsorted_count_le xs (c + hw) j v Sx Gn). split.
      * apply Qnot_le_lt. intros C. apply H in C. lia.
      * apply H0. lia.
    + intros [H1 H2].
      assert (I : In p ord).
      { eapply Permutation_in; [exact P|]. apply in_seq.
        pose proof (nth_error_Some_lt _ _ _ Hv). lia. }
      apply In_nth_error in I as [j Hj]. exists j. split; auto.
      specialize (Gn _ _ Hj). rewrite Hv in Gn.
      pose proof (qsorted_count_le xs (c - hw) j v Sx Gn).
      pose proof (qsorted_count_le xs (c + hw) j v Sx Gn).
      apply H0 in H2. split; auto.
      destruct (Nat.le_gt_cases (count_le (c - hw) xs) j); auto. apply H in H3. lra.
Qed.

(** The read past the end of the centres. *)
Lemma window_advance_flag : forall x i centers done o c d o',
  window_advance x i centers done o = (c, d, o') ->
  (o' = true <-> o = true \/ (centers <> [] /\ c = [])).
Proof.
  induction centers as [|c0 centers IH]; intros done o c d o' H; simpl in H.
  - injection H as <- <- <-. split; auto. intros [H|[H _]]; congruence.
  - destruct (Qlt_bool c0 x) eqn:E.
    + destruct centers as [|c1 centers].
      * simpl in H. injection H as <- _ <-. rewrite orb_true_r.
        split; auto. intros _. right. split; [discriminate|auto].
      * apply IH in H. rewrite H, orb_true_iff.
        split; intros [G|G]; intuition discriminate.
    + injection H as <- <- <-. split; auto. intros [H|[_ H]]; congruence.
Qed.

Lemma window_loop_oob_true : forall xs i s, w_oob s = true -> w_oob (window_loop xs i s) = true.
Proof.
  induction xs as [|x xs IH]; intros i s H; simpl; auto.
  destruct (window_advance x i (w_lo s) (w_first s) (w_oob s)) as [[lo f] o1] eqn:E1.
  destruct (window_advance x i (w_hi s) (w_last s) o1) as [[hi l] o2] eqn:E2.
  assert (o2 = true).
  { apply (window_advance_flag _ _ _ _ _ _ _ _ E2). left.
    apply (window_advance_flag _ _ _ _ _ _ _ _ E1). auto. }
  destruct hi; simpl; auto.
Qed.

Lemma window_loop_oob : forall xs i s,
  qsorted xs -> w_lo s <> [] -> w_oob s = false ->
  (length (w_lo s) <= length (w_hi s))%nat ->
  (forall k a b, nth_error (rev (w_lo s)) k = Some a -> nth_error (rev (w_hi s)) k = Some b -> a <= b) ->
  (w_oob (window_loop xs i s) = true <-> exists x, In x xs /\ forall c, In c (w_lo s) -> c < x).
Proof.
  induction xs as [|x xs IH]; intros i s Sx NE O Hlen Hle; cbn [window_loop].
  - rewrite O. split; [discriminate|]. intros (x & [] & _).
  - pose proof (window_advance_spec x i (w_lo s) (w_first s) (w_oob s)) as WL.
    destruct (window_advance x i (w_lo s) (w_first s) (w_oob s)) as [[lo f] o1] eqn:E1.
    pose proof (window_advance_spec x i (w_hi s) (w_last s) o1) as WH.
    destruct (window_advance x i (w_hi s) (w_last s) o1) as [[hi l] o2] eqn:E2.
    pose proof (window_advance_flag _ _ _ _ _ _ _ _ E1) as F1.
    pose proof (window_advance_flag _ _ _ _ _ _ _ _ E2) as F2.
    destruct WL as (pl & El & Pl & Fl & Nl). destruct WH as (ph & Eh & Ph & Fh & Nh).
    destruct lo as [|a lo].
    + assert (o2 = true). { apply F2. left. apply F1. right. auto. }
      split.
      * intros _. exists x. split; [now left|]. rewrite El, app_nil_r. exact Pl.
      * intros _. destruct hi; [exact H|]. apply window_loop_oob_true. exact H.
    + assert (LL : (length (a :: lo) <= length hi)%nat).
      { destruct (Nat.le_gt_cases (length (a :: lo)) (length hi)) as [|G]; auto. exfalso.
        assert (La : nth_error (rev (w_lo s)) (length lo) = Some a).
        { rewrite El, rev_app_distr, nth_error_app1 by (rewrite rev_length; simpl; lia).
          simpl. rewrite nth_error_app2; rewrite rev_length; [|lia]. rewrite Nat.sub_diag. reflexivity. }
        destruct (nth_error_lt_Some (rev (w_hi s)) (length lo)) as [b Hb].
        { rewrite rev_length. rewrite El in Hlen. rewrite app_length in Hlen. simpl in Hlen. lia. }
        pose proof (Hle _ _ _ La Hb) as Hab.
        assert (In b ph).
        { rewrite Eh, rev_app_distr in Hb. rewrite nth_error_app2 in Hb by (rewrite rev_length; simpl in G; lia).
          apply nth_error_In in Hb. apply in_rev. exact Hb. }
        apply Ph in H. lra. }
      destruct hi as [|h hi]; [simpl in LL; lia|].
      assert (o2 = false).
      { destruct o2; auto. destruct (proj1 F2 eq_refl) as [G|[_ G]]; [|discriminate].
        destruct (proj1 F1 G) as [G'|[_ G']]; congruence. }
      rewrite IH; simpl; auto.
      * split.
        -- intros (x' & Ix & Hx). exists x'. split; auto. intros c. rewrite El, in_app_iff.
           intros [Hc|Hc].
           ++ apply Pl in Hc. pose proof (qsorted_head _ _ _ Sx Ix). lra.
           ++ apply Hx. exact Hc.
        -- intros (x' & [<-|Ix] & Hx).
           ++ exfalso. assert (a < x) by (apply Hx; rewrite El; apply in_or_app; right; now left). lra.
           ++ exists x'. split; auto. intros c Hc. apply Hx. rewrite El. apply in_or_app. right. exact Hc.
      * eapply qsorted_tail; eauto.
      * discriminate.
      * intros k u v Hu Hv. apply (Hle k u v).
        -- rewrite El, rev_app_distr. rewrite nth_error_app1; auto. apply nth_error_Some_lt in Hu. exact Hu.
        -- rewrite Eh, rev_app_distr. rewrite nth_error_app1; auto. apply nth_error_Some_lt in Hv. exact Hv.
Qed.

Lemma window_index_oob : forall xs x0 hw,
  qsorted xs -> x0 <> [] -> 0 <= hw ->
  (snd (window_index xs x0 hw) = true <-> exists x, In x xs /\ forall c, In c x0 -> c - hw < x).
Proof.
  intros xs x0 hw Sx NE Hw. unfold window_index. cbn [snd].
  rewrite window_loop_oob; simpl; auto.
  - split; intros (x & Ix & Hx); exists x; split; auto; intros c Hc.
    + apply Hx. apply in_map_iff. eauto.
    + apply in_map_iff in Hc as (d & <- & Hd). auto.
  - destruct x0; [congruence|discriminate].
  - rewrite !map_length. lia.
  - intros k a b. rewrite <- !map_rev.
    rewrite !nth_error_map. destruct (nth_error (rev x0) k) as [c|]; simpl; [|discriminate].
    intros H1 H2. injection H1 as <-. injection H2 as <-. lra.
Qed.

(** ** simplify: the whole mask *)
Lemma first_valid_spec : forall pts j0 j,
  first_valid j0 pts = Some j ->
  (j0 <= j < j0 + length pts)%nat /\
  (forall k, (k < j - j0)%nat -> nth_error pts k = Some None) /\
  (nth_error pts (j - j0) = Some None -> j = (j0 + length pts - 1)%nat).
Proof.
  induction pts as [|[q|] pts IH]; intros j0 j H; simpl in H; [discriminate| |].
  - injection H as <-. rewrite Nat.sub_diag. simpl. repeat split; try lia; discriminate.
  - destruct pts as [|p pts].
    + injection H as <-. simpl. repeat split; try lia.
    + destruct (IH (S j0) j H) as (A & B & C). simpl length in *. split; [lia|]. split.
      * intros [|k] Hk; auto. apply B. lia.
      * intros Hn. replace (j - j0)%nat with (S (j - S j0)) in Hn by lia. apply C in Hn. lia.
Qed.

Lemma simplify_loop_nan : forall p pts prev ln i b,
  nth_error pts i = Some None -> nth_error (simplify_loop p prev ln pts) i = Some b ->
  (b = true <-> match i with O => ln = false | S k => nth_error pts k <> Some None end).
Proof.
  induction pts as [|[[x y]|] pts IH]; intros prev ln i b Hi Hb.
  - destruct i; discriminate.
  - destruct i as [|i]; simpl in Hi; [discriminate|].
    assert (E : exists prev' b', simplify_loop p prev ln (Some (x, y) :: pts) = b' :: simplify_loop p prev' false pts).
    { simpl. destruct (Qlt_bool p (x - fst prev)); eauto.
      destruct (Qlt_bool p (y - snd prev)); eauto.
      destruct (Qlt_bool (p * p) _); eauto. }
    destruct E as (prev' & b' & E). unfold point in Hb. rewrite E in Hb. simpl in Hb.
    rewrite (IH _ _ _ _ Hi Hb). destruct i; simpl; [|tauto].
    split; auto. intros _. discriminate.
  - destruct i as [|i]; simpl in Hi.
    + simpl in Hb. injection Hb as <-. destruct ln; simpl; intuition discriminate.
    + simpl in Hb. rewrite (IH _ _ _ _ Hi Hb). destruct i; simpl; [|tauto].
      split; [discriminate|congruence].
Qed.

Lemma simplify_mask_spec : forall p pts m,
  0 <= p -> simplify_mask p pts = Some m ->
  length m = length pts /\
  forall j0 q0, nth_error pts j0 = Some (Some q0) -> (S j0 < length pts)%nat ->
    (forall k, (k < j0)%nat -> nth_error pts k = Some None) ->
    (forall k, (k < j0)%nat -> nth_error m k = Some false) /\
    nth_error m j0 = Some true /\
    (forall i q, (j0 < i)%nat -> nth_error pts i = Some (Some q) ->
       exists j r, (j < i)%nat /\ nth_error pts j = Some (Some r) /\ nth_error m j = Some true /\
         (forall j' q', (j < j' < i)%nat -> nth_error pts j' = Some (Some q') -> nth_error m j' = Some false) /\
         (nth_error m i = Some true <-> p * p < dist2 q r)) /\
    (forall i, (j0 < i)%nat -> nth_error pts i = Some None ->
       (nth_error m i = Some true <-> nth_error pts (i - 1) <> Some None)).
Proof.
  intros p pts m Hp H. unfold simplify_mask in H.
  apply bind_Some in H as (j & Hj & H).
  apply first_valid_spec in Hj as (J1 & J2 & J3). rewrite Nat.sub_0_r in *. simpl in J1, J3.
  destruct (Nat.eqb_spec j (length pts - 1)) as [E|E].
  - injection H as <-. split; [apply repeat_length|].
    intros j0 q0 Hq Hl Hn. exfalso.
    assert (j0 < j)%nat by lia. rewrite (J2 j0) in Hq by lia. discriminate.
  - destruct (nth_error pts j) as [[prev|]|] eqn:Ej; [|discriminate|discriminate].
    apply Some_inj in H. subst m.
    assert (LM : length (repeat false j ++ true :: simplify_loop p prev false (skipn (S j) pts)) = length pts).
    { rewrite app_length, repeat_length. cbn [length]. rewrite length_simplify_loop, skipn_length. lia. }
    split; auto.
    intros j0 q0 Hq Hl Hn.
    assert (j0 = j).
    { destruct (Nat.lt_trichotomy j0 j) as [G|[G|G]]; auto.
      - rewrite (J2 j0) in Hq by lia. discriminate.
      - rewrite (Hn j) in Ej by lia. discriminate. }
    subst j0. rewrite Ej in Hq. injection Hq as ->.
    assert (M1 : forall k, (k < j)%nat -> nth_error (repeat false j ++ true :: simplify_loop p q0 false (skipn (S j) pts)) k = Some false).
    { intros k Hk. rewrite nth_error_app1 by (rewrite repeat_length; lia).
      rewrite nth_error_repeat_lt. apply Nat.ltb_lt in Hk. now rewrite Hk. }
    assert (M2 : nth_error (repeat false j ++ true :: simplify_loop p q0 false (skipn (S j) pts)) j = Some true).
    { rewrite nth_error_app2; rewrite repeat_length; auto. now rewrite Nat.sub_diag. }
    assert (M3 : forall k, nth_error (repeat false j ++ true :: simplify_loop p q0 false (skipn (S j) pts)) (S j + k)
                 = nth_error (simplify_loop p q0 false (skipn (S j) pts)) k).
    { intros k. rewrite nth_error_app2; rewrite repeat_length; [|lia].
      replace (S j + k - j)%nat with (S k) by lia. reflexivity. }
    assert (P3 : forall k, nth_error (skipn (S j) pts) k = nth_error pts (S j + k)).
    { intros k. rewrite <- (firstn_skipn (S j) pts) at 2.
      rewrite nth_error_app2; rewrite firstn_length_le by lia; [|lia].
      f_equal. lia. }
    remember (repeat false j ++ true :: simplify_loop p q0 false (skipn (S j) pts)) as m eqn:Em. clear Em.
    split; auto. split; auto. split.
    + intros i q Hi Hq. replace i with (S j + (i - S j))%nat in * by lia.
      set (k := (i - S j)%nat) in *.
      rewrite <- P3 in Hq.
      destruct (nth_error (simplify_loop p q0 false (skipn (S j) pts)) k) as [b|] eqn:Eb.
      2:{ apply nth_error_None in Eb. rewrite length_simplify_loop in Eb. apply nth_error_Some_lt in Hq. lia. }
      destruct (simplify_loop_spec _ _ _ _ _ _ _ Hp Hq Eb) as (r & R & D).
      destruct R as [(-> & R)|(j' & Hj' & Hr & Ht & R)].
      * exists j, q0. split; [lia|]. split; auto. split; auto. split.
        -- intros a q' Ha Hq'. replace a with (S j + (a - S j))%nat in * by lia.
           rewrite M3. rewrite <- P3 in Hq'. eapply R; [|exact Hq']. lia.
        -- rewrite M3, Eb, <- D. split; [intros [= ->]; auto|intros ->; auto].
      * exists (S j + j')%nat, r. split; [lia|]. split; [rewrite <- P3; auto|].
        split; [rewrite M3; auto|]. split.
        -- intros a q' Ha Hq'. replace a with (S j + (a - S j))%nat in * by lia.
           rewrite M3. rewrite <- P3 in Hq'. eapply R; [|exact Hq']. lia.
        -- rewrite M3, Eb, <- D. split; [intros [= ->]; auto|intros ->; auto].
    + intros i Hi Hn'. replace i with (S j + (i - S j))%nat in * by lia.
      set (k := (i - S j)%nat) in *.
      rewrite <- P3 in Hn'.
      destruct (nth_error (simplify_loop p q0 false (skipn (S j) pts)) k) as [b|] eqn:Eb.
      2:{ apply nth_error_None in Eb. rewrite length_simplify_loop in Eb. apply nth_error_Some_lt in Hn'. lia. }
      rewrite M3, Eb. pose proof (simplify_loop_nan _ _ _ _ _ _ Hn' Eb) as N.
      assert (B : Some b = Some true <-> b = true) by (split; [intros [= ->]; auto|intros ->; auto]).
      rewrite B, N. destruct k as [|k].
      * replace (S j + 0 - 1)%nat with j by lia. rewrite Ej. split; [intros _; discriminate|auto].
      * rewrite P3. replace (S j + S k - 1)%nat with (S j + k)%nat by lia. tauto.
Qed.

(** ** wrap_longitude with cuts *)
Definition wrap_out ref (pts : list (option Q * Q)) : list (option Q * option Q) :=
  match pts with
  | [] => []
  | (x, y) :: rest => (wrap_opt ref x, Some y) :: wrap_cut_from ref x y rest
  end.

Definition small_steps (pts : list (option Q * Q)) : Prop :=
  forall j xa ya xb yb, nth_error pts j = Some (Some xa, ya) -> nth_error pts (S j) = Some (Some xb, yb) ->
    - (360) < xb - xa /\ xb - xa < 360.

Lemma wrap_out_cons : forall ref x y x2 y2 rest,
  wrap_out ref ((x, y) :: (x2, y2) :: rest) =
  (wrap_opt ref x, Some y) ::
  (if is_cut ref x x2 then
     match x, x2 with
     | Some xpv, Some xv =>
         let cor := if Qlt_bool xv xpv then 360%Q else (-(360))%Q in
         [(Some (wrap1 ref xv - cor)%Q, Some y2); (None, None); (Some (wrap1 ref xpv + cor)%Q, Some y)]
     | _, _ => []
     end
   else []) ++ wrap_out ref ((x2, y2) :: rest).
Proof. reflexivity. Qed.

Lemma small_steps_tail : forall p pts, small_steps (p :: pts) -> small_steps pts.
Proof. intros p pts H j xa ya xb yb H1 H2. eapply (H (S j)); eauto. Qed.

Lemma cor_cong : forall (b : bool) u v, Qcong 360 u v -> Qcong 360 (u + (if b then 360 else - (360))) v.
Proof.
  intros b u v [k H]. exists (k + if b then 1 else -1)%Z. rewrite inject_Z_plus.
  setoid_replace (u + (if b then 360 else - (360)) - v) with ((u - v) + (if b then 360 else - (360))) by ring.
  rewrite H. destruct b; [change (inject_Z 1) with 1|change (inject_Z (-1)) with (-(1))]; ring.
Qed.

Lemma wrap_out_drawn : forall ref pts,
  small_steps pts ->
  forall k u v u' v',
    nth_error (wrap_out ref pts) k = Some (Some u, Some v) ->
    nth_error (wrap_out ref pts) (S k) = Some (Some u', Some v') ->
    exists j xa xb, nth_error pts j = Some (Some xa, v) /\ nth_error pts (S j) = Some (Some xb, v') /\
      Qcong 360 u xa /\ u' - u == xb - xa.
Proof.
  intros ref. induction pts as [|[x y] [|[x2 y2] rest] IH]; intros SS k u v u' v' H1 H2.
  - destruct k; discriminate.
  - destruct k as [|[|k]]; discriminate.
  - rewrite wrap_out_cons in H1, H2.
    assert (NX : forall k, nth_error (wrap_out ref ((x2, y2) :: rest)) k = Some (Some u, Some v) ->
                 nth_error (wrap_out ref ((x2, y2) :: rest)) (S k) = Some (Some u', Some v') ->
      exists j xa xb, nth_error ((x, y) :: (x2, y2) :: rest) j = Some (Some xa, v) /\
        nth_error ((x, y) :: (x2, y2) :: rest) (S j) = Some (Some xb, v') /\
        Qcong 360 u xa /\ u' - u == xb - xa).
    { intros k0 A B. destruct (IH (small_steps_tail _ _ SS) k0 u v u' v' A B) as (j & xa & xb & R).
      exists (S j), xa, xb. exact R. }
    destruct (is_cut ref x x2) eqn:C.
    + destruct x as [xp|], x2 as [xv|]; try discriminate C.
      destruct (SS 0%nat xp y xv y2 eq_refl eq_refl) as [S1 S2].
      pose proof (cut_step ref xp xv S1 S2 C) as CS. cbv zeta in CS.
      destruct k as [|[|[|[|k]]]].
      * cbn in H1, H2. injection H1 as <- <-. injection H2 as <- <-.
        exists 0%nat, xp, xv. split; auto. split; auto. split; [apply wrap1_cong|exact CS].
      * discriminate H2.
      * discriminate H1.
      * cbn in H1, H2. injection H1 as <- <-. injection H2 as <- <-.
        exists 0%nat, xp, xv. split; auto. split; auto. split.
        -- apply cor_cong, wrap1_cong.
        -- rewrite <- CS. ring.
      * apply (NX k); assumption.
    + destruct k as [|k].
      * cbn in H1, H2. destruct x as [xp|]; [|discriminate]. destruct x2 as [xv|]; [|discriminate].
        cbn in H1, H2. injection H1 as <- <-. injection H2 as <- <-.
        exists 0%nat, xp, xv. split; auto. split; auto. split; [apply wrap1_cong|].
        apply nocut_step. exact C.
      * apply (NX k); assumption.
Qed.

Lemma wrap_out_complete : forall ref pts,
  small_steps pts ->
  forall j xa v xb v',
    nth_error pts j = Some (Some xa, v) -> nth_error pts (S j) = Some (Some xb, v') ->
    exists k u u',
      nth_error (wrap_out ref pts) k = Some (Some u, Some v) /\
      nth_error (wrap_out ref pts) (S k) = Some (Some u', Some v') /\
      ref <= u /\ u < ref + 360 /\
      Qcong 360 u xa /\ u' - u == xb - xa.
Proof.
  intros ref. induction pts as [|[x y] [|[x2 y2] rest] IH]; intros SS j xa v xb v' H1 H2.
  - destruct j; discriminate.
  - destruct j as [|[|k]]; discriminate.
  - rewrite wrap_out_cons.
    destruct j as [|j].
    + cbn in H1, H2. injection H1 as -> ->. injection H2 as -> ->.
      destruct (wrap1_range ref xa) as [R1 R2].
      destruct (is_cut ref (Some xa) (Some xb)) eqn:C.
      * destruct (SS 0%nat xa v xb v' eq_refl eq_refl) as [S1 S2].
        pose proof (cut_step ref xa xb S1 S2 C) as CS. cbv zeta in CS.
        exists 0%nat, (wrap1 ref xa), (wrap1 ref xb - (if Qlt_bool xb xa then 360 else - (360)))%Q.
        repeat split; auto. apply wrap1_cong.
      * exists 0%nat, (wrap1 ref xa), (wrap1 ref xb).
        repeat split; auto. apply wrap1_cong. apply nocut_step. exact C.
    + destruct (IH (small_steps_tail _ _ SS) j xa v xb v' H1 H2) as (k & u & u' & A & B & R).
      destruct (is_cut ref x x2) eqn:C.
      * destruct x as [xp|], x2 as [xv|]; try discriminate C.
        exists (4 + k)%nat, u, u'. split; auto.
      * exists (1 + k)%nat, u, u'. split; auto.
Qed.

Lemma joined_length : forall {A} n (rows : list (list A)),
  Forall (fun r => length r = n) rows -> rows <> [] ->
  length (joined rows) = (length rows * n + (length rows - 1))%nat.
Proof.
  induction rows as [|r rows IH]; intros F NE; [congruence|].
  inversion F as [|? ? L F']; subst. cbn [joined]. destruct rows as [|r2 rows].
  - rewrite map_length. simpl. lia.
  - rewrite app_length, map_length. cbn [length]. rewrite IH by (auto; discriminate). simpl. lia.
Qed.

Lemma joined_cells : forall {A} n (rows : list (list A)) i r,
  Forall (fun r => length r = n) rows -> nth_error rows i = Some r ->
  (forall j a, nth_error r j = Some a -> nth_error (joined rows) (i * (n + 1) + j) = Some (Val a)) /\
  ((S i < length rows)%nat -> nth_error (joined rows) (i * (n + 1) + n) = Some Nan).
Proof.
  induction rows as [|r0 rows IH]; intros i r F H; [destruct i; discriminate|].
  inversion F as [|? ? L F']; subst. cbn [joined].
  destruct i as [|i].
  - simpl in H. injection H as ->. simpl. split.
    + intros j a Hj. destruct rows as [|r2 rows].
      * rewrite nth_error_map, Hj. reflexivity.
      * rewrite nth_error_app1 by (rewrite map_length; eapply nth_error_Some_lt; eauto).
        rewrite nth_error_map, Hj. reflexivity.
    + intros Hl. destruct rows as [|r2 rows]; [simpl in Hl; lia|].
      rewrite nth_error_app2; rewrite map_length; auto. now rewrite Nat.sub_diag.
  - simpl in H. destruct rows as [|r2 rows]; [destruct i; discriminate|].
    destruct (IH i r F' H) as [I1 I2].
    assert (E : forall k, nth_error (map Val r0 ++ Nan :: joined (r2 :: rows)) (length r0 + S k) = nth_error (joined (r2 :: rows)) k).
    { intros k. rewrite nth_error_app2; rewrite map_length; [|lia].
      replace (length r0 + S k - length r0)%nat with (S k) by lia. reflexivity. }
    split.
    + intros j a Hj. replace (S i * (length r0 + 1) + j)%nat with (length r0 + S (i * (length r0 + 1) + j))%nat by lia.
      rewrite E. apply I1. exact Hj.
    + intros Hl. replace (S i * (length r0 + 1) + length r0)%nat with (length r0 + S (i * (length r0 + 1) + length r0))%nat by lia.
      rewrite E. apply I2. simpl in *. lia.
Qed.

Lemma flatten_cells : forall {A} n (rows : list (list A)),
  Forall (fun r => length r = n) rows -> (2 <= length rows \/ (length rows = 1 /\ 1 <= n))%nat ->
  let out := ob_cells (flatten_line_matrix n rows) in
  length out = (length rows * n + (length rows - 1))%nat /\
  (forall i r j a, nth_error rows i = Some r -> nth_error r j = Some a ->
     nth_error out (i * (n + 1) + j) = Some (Val a)) /\
  (forall i, (S i < length rows)%nat -> nth_error out (i * (n + 1) + n) = Some Nan).
Proof.
  intros A n rows F D out. unfold out.
  rewrite (proj1 (flatten_spec n rows F D)). split; [|split].
  - apply joined_length; auto. destruct rows; simpl in *; [lia|discriminate].
  - intros i r j a Hr Ha. apply (joined_cells n rows i r); auto.
  - intros i Hi. destruct (nth_error_lt_Some rows i ltac:(lia)) as [r Hr].
    apply (joined_cells n rows i r); auto.
Qed.

(** ** distance-free facts used in the examples *)
Lemma count_consecutive_spec : forall mask i k,
  nth_error (count_consecutive mask) i = Some k ->
  exists b, nth_error mask i = Some b /\
  (b = false -> k = 0%Z) /\
  (b = true -> exists n, k = Z.of_nat (S n) /\ (n <= i)%nat /\
     (forall j, (i - n <= j <= i)%nat -> nth_error mask j = Some true) /\
     ((n < i)%nat -> nth_error mask (i - n - 1) = Some false)).
Proof.
  intros mask i k H.
  destruct (count_consecutive_from_spec mask 0 i k ltac:(lia) H) as (b & Hb & R).
  exists b. split; auto. destruct b; split; try discriminate; auto.
  intros _. destruct R as [R1 [(R2 & R3 & R4)|(R2 & R3)]].
  - exists (Z.to_nat k - 1)%nat. repeat split; try lia.
    + intros j Hj. apply R3. lia.
    + intros _. replace (i - (Z.to_nat k - 1) - 1)%nat with (i - Z.to_nat k)%nat by lia. exact R4.
  - exists i. repeat split; try lia.
    intros j Hj. apply R3. lia.
Qed.

Lemma wrap_longitude_canonical : forall (ref : Q) (x : list Q) i v,
  nth_error x i = Some v ->
  exists w, nth_error (wrap_longitude x ref) i = Some w /\
    ref <= w /\ w < ref + 360 /\
    Qcong 360 w v /\
    (forall w', ref <= w' -> w' < ref + 360 -> Qcong 360 w' v -> w' == w).
Proof.
  intros ref x i v H. exists (wrap1 ref v). unfold wrap_longitude. rewrite nth_error_map, H.
  destruct (wrap1_range ref v) as [R1 R2]. repeat split; auto; [apply wrap1_cong|].
  intros w' A B C. apply (Qcong_unique 360 ref); try (split; assumption).
  eapply Qcong_trans; [exact C|]. apply Qcong_sym, wrap1_cong.
Qed.

Lemma wrap_longitude_idempotent : forall (ref : Q) (x : list Q) i w w',
  nth_error (wrap_longitude x ref) i = Some w ->
  nth_error (wrap_longitude (wrap_longitude x ref) ref) i = Some w' -> w' == w.
Proof.
  intros ref x i w w' H H'. unfold wrap_longitude in H' at 1. rewrite nth_error_map, H in H'.
  injection H' as <-.
  unfold wrap_longitude in H. rewrite nth_error_map in H.
  destruct (nth_error x i) as [v|]; [|discriminate]. injection H as <-.
  apply wrap1_canon. apply wrap1_cong.
Qed.

Lemma wrap_longitude_cut_spec : forall (ref : Q) (pts : list (option Q * Q)) out,
  wrap_longitude_cut ref pts = Some out -> small_steps pts ->
  (forall k u v u' v',
    nth_error out k = Some (Some u, Some v) -> nth_error out (S k) = Some (Some u', Some v') ->
    exists j xa xb, nth_error pts j = Some (Some xa, v) /\ nth_error pts (S j) = Some (Some xb, v') /\
      Qcong 360 u xa /\ u' - u == xb - xa) /\
  (forall j xa v xb v',
    nth_error pts j = Some (Some xa, v) -> nth_error pts (S j) = Some (Some xb, v') ->
    exists k u u', nth_error out k = Some (Some u, Some v) /\ nth_error out (S k) = Some (Some u', Some v') /\
      ref <= u /\ u < ref + 360 /\
      Qcong 360 u xa /\ u' - u == xb - xa).
Proof.
  intros ref pts out H S.
  assert (E : out = wrap_out ref pts).
  { destruct pts as [|[x y] pts]; [discriminate|]. simpl in H. injection H as <-. reflexivity. }
  subst out. split; [apply wrap_out_drawn; auto|apply wrap_out_complete; auto].
Qed.

Lemma simplify_lost : exists pts : list (option (Q * Q)),
  In (Some (1, 2)) pts /\ simplify 0 pts = Some [].
Proof. exists [None; None; Some (1, 2)]. split; [simpl; auto|reflexivity]. Qed.

Lemma reverse_index_complement : forall index nb,
  (forall i, In i index -> (i < nb)%nat) ->
  exists r, reverse_index index nb = Some r /\
    (forall a b u v, (a < b)%nat -> nth_error r a = Some u -> nth_error r b = Some v -> (u < v)%nat) /\
    forall j, In j r <-> (j < nb)%nat /\ ~ In j index.
Proof.
  intros index nb B. destruct (reverse_index_spec index nb B) as (r & E & I & M).
  exists r. split; auto. split; auto. apply incr_nth. exact I.
Qed.
