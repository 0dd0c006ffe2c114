(** Array helpers shared by all the models.

    A numpy array is a list.  A read or a store at a position outside the
    array is [None], never a default value.  Nothing in this file transcribes
    a function of the repository: these are the numpy / Python primitives the
    repository code uses. *)
From Coq Require Import List Arith ZArith Bool Lia.
Import ListNotations.

(** ** Option as an error monad *)
Definition bind {A B} (o : option A) (f : A -> option B) : option B :=
  match o with Some a => f a | None => None end.

Notation "'let!' x ':=' o 'in' b" := (bind o (fun x => b))
  (at level 200, x pattern, o at level 100, b at level 200, right associativity).

(** ** Stores *)

(** [upd l i x]: [l] with [x] at position [i]; [l] itself when [i] is outside. *)
Fixpoint upd {A} (l : list A) (i : nat) (x : A) : list A :=
  match l, i with
  | [], _ => []
  | _ :: l', O => x :: l'
  | a :: l', S i' => a :: upd l' i' x
  end.

(** [store l i x]: the Python statement [l[i] = x] for a non negative [i]. *)
Definition store {A} (l : list A) (i : nat) (x : A) : option (list A) :=
  if i <? length l then Some (upd l i x) else None.

(** [stores l ix vs]: numpy [l[ix] = vs]; repeated indices keep the last write.
    [None] on an index outside the array or on a length mismatch. *)
Fixpoint stores {A} (l : list A) (ix : list nat) (vs : list A) : option (list A) :=
  match ix, vs with
  | [], [] => Some l
  | i :: ix', v :: vs' => let! l' := store l i v in stores l' ix' vs'
  | _, _ => None
  end.

(** [gather l ix]: numpy [l[ix]]. *)
Fixpoint gather {A} (l : list A) (ix : list nat) : option (list A) :=
  match ix with
  | [] => Some []
  | i :: ix' => let! a := nth_error l i in let! r := gather l ix' in Some (a :: r)
  end.

(** Python index: negative values count from the end. *)
Definition pyidx (n : nat) (z : Z) : option nat :=
  if (0 <=? z)%Z then (if (z <? Z.of_nat n)%Z then Some (Z.to_nat z) else None)
  else if (- Z.of_nat n <=? z)%Z then Some (Z.to_nat (z + Z.of_nat n)) else None.

(** [pyget l z]: Python [l[z]]. *)
Definition pyget {A} (l : list A) (z : Z) : option A :=
  let! i := pyidx (length l) z in nth_error l i.

(** [pystore l z x]: Python [l[z] = x]. *)
Definition pystore {A} (l : list A) (z : Z) (x : A) : option (list A) :=
  let! i := pyidx (length l) z in store l i x.

(** Python slice [l[a:b]] with non negative bounds (clipped to the length). *)
Definition slice {A} (l : list A) (a b : nat) : list A := firstn (b - a) (skipn a l).

(** numpy [l[a:b] = x] with non negative bounds: broadcast store. *)
Fixpoint fill {A} (l : list A) (a b : nat) (x : A) : list A :=
  match l, b with
  | [], _ => []
  | _, O => l
  | y :: l', S b' =>
      match a with
      | O => x :: fill l' O b' x
      | S a' => y :: fill l' a' b' x
      end
  end.

(** numpy [where(m)[0]]: positions of the true values. *)
Fixpoint where_from (k : nat) (m : list bool) : list nat :=
  match m with
  | [] => []
  | b :: m' => if b then k :: where_from (S k) m' else where_from (S k) m'
  end.
Definition where_ (m : list bool) : list nat := where_from 0 m.

(** numpy [l[m]] with a boolean mask of the same length. *)
Fixpoint select {A} (m : list bool) (l : list A) : list A :=
  match m, l with
  | b :: m', a :: l' => if b then a :: select m' l' else select m' l'
  | _, _ => []
  end.

(** numpy [l[m] = vs] with a boolean mask: values are consumed in order. *)
Fixpoint mask_store {A} (m : list bool) (l vs : list A) : option (list A) :=
  match m, l with
  | [], [] => match vs with [] => Some [] | _ => None end
  | true :: m', _ :: l' =>
      match vs with
      | v :: vs' => let! r := mask_store m' l' vs' in Some (v :: r)
      | [] => None
      end
  | false :: m', a :: l' => let! r := mask_store m' l' vs in Some (a :: r)
  | _, _ => None
  end.

(** numpy [arange(a, a + n)] on naturals is [seq a n]. *)

(** numpy [v.repeat(n)] with a list of counts. *)
Fixpoint repeat_by {A} (l : list A) (n : list nat) : list A :=
  match l, n with
  | a :: l', k :: n' => repeat a k ++ repeat_by l' n'
  | _, _ => []
  end.

(** Exclusive prefix sums: numpy [n.cumsum() - n]. *)
Fixpoint excl_sums (acc : nat) (n : list nat) : list nat :=
  match n with
  | [] => []
  | k :: n' => acc :: excl_sums (acc + k) n'
  end.

Fixpoint sum_list (n : list nat) : nat :=
  match n with [] => 0 | k :: n' => k + sum_list n' end.

Fixpoint count_true (m : list bool) : nat :=
  match m with [] => 0 | b :: m' => (if b then 1 else 0) + count_true m' end.

(** ** Lemmas *)

Lemma bind_Some : forall {A B} (o : option A) (f : A -> option B) b,
  bind o f = Some b <-> exists a, o = Some a /\ f a = Some b.
Proof.
  intros A B [a|] f b; simpl; split; intros H.
  - exists a; auto.
  - destruct H as (a' & E & F). injection E as <-. exact F.
  - discriminate.
  - destruct H as (a' & E & _). discriminate.
Qed.

Lemma length_upd : forall {A} (l : list A) i x, length (upd l i x) = length l.
Proof. induction l; intros [|i] x; simpl; auto. Qed.

Lemma nth_error_upd : forall {A} (l : list A) i j x,
  nth_error (upd l i x) j =
  if j =? i then (if i <? length l then Some x else None) else nth_error l j.
Proof.
  induction l as [|a l IH]; intros i j x.
  - simpl. destruct (j =? i); destruct j; reflexivity.
  - destruct i as [|i]; destruct j as [|j]; simpl; auto.
    rewrite IH. destruct (j =? i); auto.
Qed.

Lemma nth_error_upd_eq : forall {A} (l : list A) i x,
  i < length l -> nth_error (upd l i x) i = Some x.
Proof.
  intros. rewrite nth_error_upd, Nat.eqb_refl.
  apply Nat.ltb_lt in H. now rewrite H.
Qed.

Lemma nth_error_upd_neq : forall {A} (l : list A) i j x,
  i <> j -> nth_error (upd l i x) j = nth_error l j.
Proof.
  intros. rewrite nth_error_upd. destruct (Nat.eqb_spec j i); congruence.
Qed.

Lemma store_Some : forall {A} (l : list A) i x l',
  store l i x = Some l' <-> i < length l /\ l' = upd l i x.
Proof.
  intros. unfold store. destruct (Nat.ltb_spec i (length l)); split; intros.
  - injection H0 as <-. auto.
  - destruct H0 as [_ ->]. auto.
  - discriminate.
  - lia.
Qed.

Lemma length_store : forall {A} (l : list A) i x l',
  store l i x = Some l' -> length l' = length l.
Proof. intros. apply store_Some in H as [_ ->]. apply length_upd. Qed.

Lemma length_stores : forall {A} ix (l vs l' : list A),
  stores l ix vs = Some l' -> length l' = length l.
Proof.
  induction ix as [|i ix IH]; intros l [|v vs] l' H; simpl in H; try discriminate.
  - now injection H as <-.
  - apply bind_Some in H as (l1 & H1 & H2).
    apply IH in H2. rewrite H2. eapply length_store; eauto.
Qed.

(** Positions not listed keep their value. *)
Lemma stores_other : forall {A} ix (l vs l' : list A) j,
  stores l ix vs = Some l' -> ~ In j ix -> nth_error l' j = nth_error l j.
Proof.
  induction ix as [|i ix IH]; intros l [|v vs] l' j H N; simpl in H; try discriminate.
  - now injection H as <-.
  - apply bind_Some in H as (l1 & H1 & H2).
    apply store_Some in H1 as [_ ->].
    rewrite (IH _ _ _ _ H2) by (intros C; apply N; right; exact C).
    apply nth_error_upd_neq. intros ->. apply N. now left.
Qed.

(** A listed position holds the value of the last occurrence. *)
Lemma stores_last : forall {A} ix (l vs l' : list A) k i v,
  stores l ix vs = Some l' ->
  nth_error ix k = Some i -> nth_error vs k = Some v ->
  (forall k', k < k' -> nth_error ix k' <> Some i) ->
  nth_error l' i = Some v.
Proof.
  induction ix as [|i0 ix IH]; intros l [|v0 vs] l' k i v H Hi Hv L; simpl in H; try discriminate.
  - destruct k; discriminate.
  - apply bind_Some in H as (l1 & H1 & H2).
    destruct k as [|k]; simpl in Hi, Hv.
    + injection Hi as ->. injection Hv as ->.
      rewrite (stores_other _ _ _ _ _ H2).
      * apply store_Some in H1 as [B ->]. now apply nth_error_upd_eq.
      * intros C. apply In_nth_error in C as (k' & C).
        apply (L (S k')); [lia | exact C].
    + eapply IH; eauto. intros k' Hk'. apply (L (S k')). lia.
Qed.

Lemma stores_total : forall {A} ix (l vs : list A),
  length ix = length vs -> (forall i, In i ix -> i < length l) ->
  exists l', stores l ix vs = Some l'.
Proof.
  induction ix as [|i ix IH]; intros l [|v vs] L B; simpl in *; try discriminate.
  - eauto.
  - unfold store. destruct (Nat.ltb_spec i (length l)).
    + simpl. apply IH. { lia. }
      intros i' Hi'. rewrite length_upd. auto.
    + specialize (B i (or_introl eq_refl)). lia.
Qed.

Lemma stores_nodup : forall {A} ix (l vs l' : list A) k i v,
  NoDup ix -> stores l ix vs = Some l' ->
  nth_error ix k = Some i -> nth_error vs k = Some v ->
  nth_error l' i = Some v.
Proof.
  intros A ix l vs l' k i v ND H Hi Hv.
  eapply stores_last; eauto.
  intros k' Hk' E.
  assert (k = k'); [|lia].
  apply (proj1 (NoDup_nth_error ix) ND).
  - apply nth_error_Some. congruence.
  - congruence.
Qed.

Lemma nth_error_fill : forall {A} (l : list A) a b x j,
  nth_error (fill l a b x) j =
  if (a <=? j) && (j <? b) && (j <? length l) then Some x else nth_error l j.
Proof.
  induction l as [|y l IH]; intros a b x j.
  - assert (E : fill (@nil A) a b x = []) by (destruct b; reflexivity).
    rewrite E. rewrite andb_false_r. reflexivity.
  - destruct b as [|b].
    + simpl. rewrite andb_false_r. reflexivity.
    + destruct a as [|a]; destruct j as [|j]; simpl; auto.
      * rewrite IH. reflexivity.
      * rewrite IH. reflexivity.
Qed.

Lemma length_fill : forall {A} (l : list A) a b x, length (fill l a b x) = length l.
Proof.
  induction l as [|y l IH]; intros a b x.
  - destruct b; reflexivity.
  - destruct b as [|b]; [reflexivity|]. destruct a; simpl; f_equal; apply IH.
Qed.

Lemma In_where_from : forall m k i,
  In i (where_from k m) <-> k <= i /\ nth_error m (i - k) = Some true.
Proof.
  induction m as [|b m IH]; intros k i; simpl.
  - split; [tauto|]. intros [_ H]. destruct (i - k); discriminate.
  - assert (E : forall (P : Prop), (k = i \/ P) <-> (k = i \/ P)) by tauto.
    destruct b; simpl; rewrite ?IH.
    + split.
      * intros [->|[H1 H2]].
        -- rewrite Nat.sub_diag. auto.
        -- split; [lia|]. replace (i - k) with (S (i - S k)) by lia. exact H2.
      * intros [H1 H2]. destruct (Nat.eq_dec k i); [auto|right].
        split; [lia|]. replace (i - k) with (S (i - S k)) in H2 by lia. exact H2.
    + split.
      * intros [H1 H2]. split; [lia|].
        replace (i - k) with (S (i - S k)) by lia. exact H2.
      * intros [H1 H2]. destruct (Nat.eq_dec k i).
        -- subst. rewrite Nat.sub_diag in H2. discriminate.
        -- split; [lia|]. replace (i - k) with (S (i - S k)) in H2 by lia. exact H2.
Qed.

Lemma In_where : forall m i, In i (where_ m) <-> nth_error m i = Some true.
Proof.
  intros. unfold where_. rewrite In_where_from, Nat.sub_0_r. intuition lia.
Qed.

(** Strictly increasing list of naturals. *)
Inductive incr : list nat -> Prop :=
| incr_nil : incr []
| incr_cons : forall a l, (forall b, In b l -> a < b) -> incr l -> incr (a :: l).

Lemma incr_where_from : forall m k, incr (where_from k m).
Proof.
  induction m as [|b m IH]; intros k; simpl.
  - constructor.
  - destruct b; [constructor|]; auto.
    intros b Hb. apply In_where_from in Hb. lia.
Qed.

Lemma incr_where : forall m, incr (where_ m).
Proof. intros. apply incr_where_from. Qed.

Lemma incr_NoDup : forall l, incr l -> NoDup l.
Proof.
  induction 1; constructor; auto.
  intros C. apply H in C. lia.
Qed.

(** A strictly increasing list is determined by its members. *)
Lemma incr_ext : forall l1 l2,
  incr l1 -> incr l2 -> (forall x, In x l1 <-> In x l2) -> l1 = l2.
Proof.
  induction l1 as [|a l1 IH]; intros [|b l2] H1 H2 E; auto.
  - exfalso. apply (proj2 (E b)). now left.
  - exfalso. apply (proj1 (E a)). now left.
  - inversion H1; subst. inversion H2; subst.
    assert (a = b).
    { destruct (proj1 (E a) (or_introl eq_refl)) as [->|X]; auto.
      destruct (proj2 (E b) (or_introl eq_refl)) as [->|Y]; auto.
      apply H5 in X. apply H3 in Y. lia. }
    subst. f_equal. apply IH; auto.
    intros x. split; intros Hx.
    + destruct (proj1 (E x) (or_intror Hx)) as [->|]; auto.
      apply H3 in Hx. lia.
    + destruct (proj2 (E x) (or_intror Hx)) as [->|]; auto.
      apply H5 in Hx. lia.
Qed.

Lemma length_where_from : forall m k, length (where_from k m) = count_true m.
Proof.
  induction m as [|b m IH]; intros k; simpl; auto.
  destruct b; simpl; rewrite IH; lia.
Qed.

Lemma nth_error_seq : forall n a i,
  nth_error (seq a n) i = if i <? n then Some (a + i) else None.
Proof.
  induction n as [|n IH]; intros a i; simpl.
  - destruct i; reflexivity.
  - destruct i as [|i]; simpl.
    + f_equal. lia.
    + rewrite IH. replace (S i <? S n) with (i <? n) by reflexivity.
      destruct (i <? n); f_equal. lia.
Qed.

Lemma nth_error_Some_lt : forall {A} (l : list A) i a,
  nth_error l i = Some a -> i < length l.
Proof. intros. apply nth_error_Some. congruence. Qed.

Lemma nth_error_lt_Some : forall {A} (l : list A) i,
  i < length l -> exists a, nth_error l i = Some a.
Proof.
  intros. apply nth_error_Some in H. destruct (nth_error l i); [eauto|congruence].
Qed.

Lemma nth_error_repeat_lt : forall {A} (a : A) n i,
  nth_error (repeat a n) i = if i <? n then Some a else None.
Proof.
  induction n as [|n IH]; intros [|i]; simpl; auto.
  rewrite IH. reflexivity.
Qed.

Lemma nth_error_ext : forall {A} (l1 l2 : list A),
  (forall i, nth_error l1 i = nth_error l2 i) -> l1 = l2.
Proof.
  induction l1 as [|a l1 IH]; intros [|b l2] H; auto.
  - specialize (H 0). discriminate.
  - specialize (H 0). discriminate.
  - pose proof (H 0) as H0. injection H0 as ->. f_equal.
    apply IH. intros i. exact (H (S i)).
Qed.

Lemma gather_Some : forall {A} (l : list A) ix r,
  gather l ix = Some r <->
  length r = length ix /\
  forall k i, nth_error ix k = Some i -> exists a, nth_error l i = Some a /\ nth_error r k = Some a.
Proof.
  induction ix as [|i ix IH]; intros r; simpl.
  - split.
    + intros H. injection H as <-. split; auto. intros k i H. destruct k; discriminate.
    + intros [H _]. destruct r; [reflexivity|discriminate].
  - rewrite bind_Some. split.
    + intros (a & Ha & H). apply bind_Some in H as (r' & Hr & E). injection E as <-.
      apply IH in Hr as [L N]. split; [simpl; lia|].
      intros [|k] i' Hk; simpl in Hk.
      * injection Hk as <-. exists a. auto.
      * apply N in Hk. exact Hk.
    + intros [L N]. destruct r as [|a r]; [discriminate|].
      destruct (N 0 i eq_refl) as (a' & Ha & E). simpl in E. injection E as <-.
      exists a. split; auto. apply bind_Some. exists r. split; auto.
      apply IH. split; [simpl in L; lia|].
      intros k i' Hk. exact (N (S k) i' Hk).
Qed.

Lemma gather_total : forall {A} (l : list A) ix,
  (forall i, In i ix -> i < length l) -> exists r, gather l ix = Some r.
Proof.
  induction ix as [|i ix IH]; intros B; simpl; eauto.
  destruct (nth_error_lt_Some l i) as [a Ha]; [apply B; now left|].
  rewrite Ha. simpl. destruct IH as [r Hr]; [intros; apply B; now right|].
  rewrite Hr. simpl. eauto.
Qed.

Lemma length_select : forall {A} m (l : list A),
  length m = length l -> length (select m l) = count_true m.
Proof.
  induction m as [|b m IH]; intros [|a l] H; simpl in *; try discriminate; auto.
  destruct b; simpl; rewrite IH by lia; lia.
Qed.

Lemma excl_sums_length : forall n acc, length (excl_sums acc n) = length n.
Proof. induction n; intros; simpl; auto. Qed.

Lemma nth_error_excl_sums : forall n acc i,
  i < length n -> nth_error (excl_sums acc n) i = Some (acc + sum_list (firstn i n)).
Proof.
  induction n as [|k n IH]; intros acc i H; simpl in *; [lia|].
  destruct i as [|i]; simpl.
  - f_equal. lia.
  - rewrite IH by lia. f_equal. lia.
Qed.

Lemma sum_list_app : forall a b, sum_list (a ++ b) = sum_list a + sum_list b.
Proof. induction a; intros; simpl; auto. rewrite IHa. lia. Qed.

Lemma Some_inj : forall {A} (a b : A), Some a = Some b -> a = b.
Proof. intros A a b H. now injection H. Qed.

Lemma incr_nth : forall l, incr l ->
  forall a b u v, a < b -> nth_error l a = Some u -> nth_error l b = Some v -> u < v.
Proof.
  induction 1 as [|x l Hx Hl IH]; intros a b u v Hab Ha Hb.
  - destruct a; discriminate.
  - destruct b as [|b]; [lia|]. destruct a as [|a]; simpl in Ha, Hb.
    + injection Ha as ->. apply Hx. eapply nth_error_In; eauto.
    + apply (IH a b); auto. lia.
Qed.
