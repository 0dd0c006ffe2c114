(** A stable index sort ([argsort] with kind mergesort) for any total
    preorder, with its specification.  No repository function here. *)
From Coq Require Import List Arith Lia Bool Permutation Sorted.
From Verif Require Import Base.
Import ListNotations.

Section Sort.
Context {A : Type} (le : A -> A -> bool).

Fixpoint sinsert (p : A * nat) (l : list (A * nat)) : list (A * nat) :=
  match l with
  | [] => [p]
  | q :: r => if le (fst p) (fst q) then p :: l else q :: sinsert p r
  end.
Definition spairs (l : list (A * nat)) : list (A * nat) := fold_right sinsert [] l.
(** Indices of [l] in the order of their values, ties in order. *)
Definition stable_argsort (l : list A) : list nat := map snd (spairs (combine l (seq 0 (length l)))).

Hypothesis total : forall a b, le a b = true \/ le b a = true.
Hypothesis trans : forall a b c, le a b = true -> le b c = true -> le a c = true.

Definition before (p q : A * nat) : Prop := le (fst p) (fst q) = true /\ (le (fst q) (fst p) = true -> snd p < snd q).

Lemma sinsert_perm : forall p l, Permutation (sinsert p l) (p :: l).
Proof.
  induction l as [|q l IH]; simpl; auto. destruct (le (fst p) (fst q)); auto.
  rewrite IH. apply perm_swap.
Qed.
Lemma spairs_perm : forall l, Permutation (spairs l) l.
Proof. induction l as [|p l IH]; simpl; auto. rewrite sinsert_perm. auto. Qed.

Lemma sinsert_sorted : forall p l, StronglySorted before l -> (forall q, In q l -> snd p < snd q) -> StronglySorted before (sinsert p l).
Proof.
  induction l as [|q l IH]; intros S B; simpl.
  - constructor; constructor.
  - inversion S as [|? ? S1 F]; subst. destruct (le (fst p) (fst q)) eqn:E.
    + constructor; auto. constructor.
      * split; auto. intros _. apply B. left; auto.
      * rewrite Forall_forall in *. intros r Hr. destruct (F r Hr) as [F1 F2].
        split; [eapply trans; eauto|]. intros _. apply B. right; auto.
    + constructor; [apply IH; auto; intros; apply B; right; auto|].
      apply Forall_forall. intros r Hr. apply (Permutation_in r (sinsert_perm p l)) in Hr. destruct Hr as [<-|Hr].
      * split; [destruct (total (fst q) (fst p)) as [T|T]; auto; congruence|]. congruence.
      * rewrite Forall_forall in F. auto.
Qed.
Lemma spairs_sorted : forall (l : list A) k, StronglySorted before (spairs (combine l (seq k (length l)))).
Proof.
  induction l as [|a l IH]; intros k; cbn [length seq combine spairs fold_right]; [constructor|].
  apply sinsert_sorted; [apply IH|]. intros q Hq.
  apply (Permutation_in q (spairs_perm _)) in Hq. destruct q as [x i]. apply in_combine_r in Hq. apply in_seq in Hq. simpl. lia.
Qed.
Lemma sorted_nth : forall (R : A * nat -> A * nat -> Prop) l, StronglySorted R l ->
  forall i j a b, i < j -> nth_error l i = Some a -> nth_error l j = Some b -> R a b.
Proof.
  intros R l S. induction S as [|x l S IH F]; intros i j a b L Ha Hb; [destruct i; discriminate|].
  destruct i, j; try lia; simpl in *.
  - injection Ha as <-. rewrite Forall_forall in F. apply F. eapply nth_error_In; eauto.
  - eapply (IH i j); eauto. lia.
Qed.
Lemma combine_seq_In : forall (l : list A) k a i, In (a, i) (combine l (seq k (length l))) <-> k <= i /\ nth_error l (i - k) = Some a.
Proof.
  induction l as [|x l IH]; intros k a i; cbn [length seq combine].
  - simpl. split; [tauto|]. intros [_ H]. destruct (i - k); discriminate.
  - simpl. rewrite IH. split.
    + intros [E|[L E]].
      * injection E as <- <-. rewrite Nat.sub_diag. auto.
      * split; [lia|]. replace (i - k) with (S (i - S k)) by lia. auto.
    + intros [L E]. destruct (Nat.eq_dec i k) as [->|N].
      * rewrite Nat.sub_diag in E. simpl in E. injection E as ->. auto.
      * right. split; [lia|]. replace (i - k) with (S (i - S k)) in E by lia. auto.
Qed.
Lemma map_snd_combine : forall (l : list A) (m : list nat), length l = length m -> map snd (combine l m) = m.
Proof. induction l as [|a l IH]; intros [|x m] H; simpl in *; try lia; auto. f_equal. auto. Qed.

Theorem stable_argsort_perm : forall l, Permutation (stable_argsort l) (seq 0 (length l)).
Proof.
  intros l. unfold stable_argsort. rewrite (Permutation_map snd (spairs_perm _)).
  rewrite map_snd_combine; auto. rewrite seq_length. auto.
Qed.
Theorem stable_argsort_order : forall l p q i j a b, p < q ->
  nth_error (stable_argsort l) p = Some i -> nth_error (stable_argsort l) q = Some j ->
  nth_error l i = Some a -> nth_error l j = Some b ->
  le a b = true /\ (le b a = true -> i < j).
Proof.
  intros l p q i j a b L Hi Hj Ha Hb. unfold stable_argsort in *. rewrite nth_error_map in Hi, Hj.
  destruct (nth_error (spairs _) p) as [[a' i']|] eqn:P; [|discriminate].
  destruct (nth_error (spairs (combine l (seq 0 (length l)))) q) as [[b' j']|] eqn:Q; [|discriminate].
  simpl in Hi, Hj. injection Hi as ->. injection Hj as ->.
  pose proof (sorted_nth _ _ (spairs_sorted l 0) p q _ _ L P Q) as [B1 B2]. simpl in *.
  assert (X : a' = a).
  { apply nth_error_In in P. apply (Permutation_in _ (spairs_perm _)) in P. apply combine_seq_In in P as [_ P].
    rewrite Nat.sub_0_r in P. congruence. }
  assert (Y : b' = b).
  { apply nth_error_In in Q. apply (Permutation_in _ (spairs_perm _)) in Q. apply combine_seq_In in Q as [_ Q].
    rewrite Nat.sub_0_r in Q. congruence. }
  subst. auto.
Qed.
Lemma length_stable_argsort : forall l, length (stable_argsort l) = length l.
Proof. intros. rewrite (Permutation_length (stable_argsort_perm l)), seq_length. auto. Qed.
End Sort.
