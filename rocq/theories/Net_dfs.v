(** Depth first marking, as done by func_forward and func_backward: a call at
    [v] marks the rows [cover v], then calls itself on the targets [out v] not
    yet marked.  No repository function here. *)
From Coq Require Import List Arith Bool Lia.
From Verif Require Import Base Net_spec.
Import ListNotations.

Section Reach.
Context (R : nat -> nat -> Prop).
Notation reach := (reach R).
Lemma reach_trans : forall a b c, reach a b -> reach b c -> reach a c.
Proof. intros a b c H. induction H; auto. intros. econstructor; eauto. Qed.
Lemma reach_one : forall a b, R a b -> reach a b.
Proof. intros. econstructor; [eauto|constructor]. Qed.
Lemma reach_snoc : forall a b c, reach a b -> R b c -> reach a c.
Proof. intros. eapply reach_trans; eauto. apply reach_one; auto. Qed.
End Reach.

Section Dfs.
Context (n : nat) (mark : nat -> list bool -> list bool) (cover : nat -> nat -> Prop) (out : nat -> list nat).
Definition on (m : list bool) (k : nat) : Prop := nth_error m k = Some true.
Definition free (m : list bool) : nat := length m - count_true m.

Fixpoint explore (fuel v : nat) (m : list bool) : option (list bool) :=
  match fuel with
  | O => None
  | S fuel' => fold_left (fun om y => let! m := om in let! seen := nth_error m y in
      if seen : bool then Some m else explore fuel' y m) (out v) (Some (mark v m))
  end.

Hypothesis mark_length : forall v m, length m = n -> length (mark v m) = n.
Hypothesis mark_spec : forall v m k, v < n -> length m = n -> k < n -> (on (mark v m) k <-> cover v k \/ on m k).
Hypothesis cover_self : forall v, v < n -> cover v v.
Hypothesis cover_lt : forall v k, v < n -> cover v k -> k < n.
Hypothesis out_lt : forall v y, v < n -> In y (out v) -> y < n.
Context (R : nat -> nat -> Prop).
Hypothesis cover_reach : forall v k, v < n -> cover v k -> reach R v k.
Hypothesis out_step : forall v y, v < n -> In y (out v) -> exists x, cover v x /\ R x y.
Hypothesis step_out : forall v x y, v < n -> cover v x -> R x y -> cover v y \/ In y (out v).

Lemma count_le : forall m, count_true m <= length m.
Proof. induction m as [|[] m IH]; simpl; lia. Qed.
Lemma count_mono : forall a b, length a = length b -> (forall k, on a k -> on b k) -> count_true a <= count_true b.
Proof.
  induction a as [|x a IH]; intros [|y b] L H; simpl in *; try lia.
  assert (count_true a <= count_true b) by (apply IH; [lia|]; intros k; apply (H (S k))).
  destruct x; [|destruct y; lia]. specialize (H 0 eq_refl). unfold on in H. simpl in H. apply Some_inj in H. subst. lia.
Qed.
Lemma count_strict : forall a b k, length a = length b -> (forall k, on a k -> on b k) -> ~ on a k -> on b k -> count_true a < count_true b.
Proof.
  induction a as [|x a IH]; intros [|y b] k L H N O; simpl in *; try lia; try (destruct k; discriminate).
  destruct k as [|k].
  - unfold on in N, O. simpl in *. apply Some_inj in O. subst y. destruct x; [contradiction N; auto|].
    assert (count_true a <= count_true b) by (apply count_mono; [lia|]; intros k; apply (H (S k))). lia.
  - assert (count_true a < count_true b) by (apply (IH b k); auto; intros j; apply (H (S j))).
    destruct x; [|destruct y; lia]. specialize (H 0 eq_refl). unfold on in H. simpl in H. apply Some_inj in H. subst. lia.
Qed.
Lemma free_mono : forall a b, length a = length b -> (forall k, on a k -> on b k) -> free b <= free a.
Proof. intros a b L H. pose proof (count_mono a b L H). unfold free. lia. Qed.
Lemma free_strict : forall a b k, length a = length b -> (forall k, on a k -> on b k) -> ~ on a k -> on b k -> free b < free a.
Proof.
  intros a b k L H N O. pose proof (count_strict a b k L H N O). pose proof (count_le b). unfold free. lia.
Qed.

Definition post (v : nat) (m m' : list bool) : Prop :=
  length m' = n /\ (forall k, on m k -> on m' k) /\ (forall k, cover v k -> on m' k) /\
  (forall k, on m' k -> on m k \/ reach R v k) /\
  (forall x y, cover v x \/ (on m' x /\ ~ on m x) -> R x y -> on m' y).

Lemma on_dec : forall m k, {on m k} + {~ on m k}.
Proof. intros m k. unfold on. destruct (nth_error m k) as [[]|]; [left; auto|right; discriminate|right; discriminate]. Defined.
Lemma on_lt : forall m k, on m k -> k < length m.
Proof. intros m k H. eapply nth_error_Some_lt; eauto. Qed.

Theorem explore_spec : forall fuel v m, v < n -> length m = n -> free (mark v m) < fuel ->
  exists m', explore fuel v m = Some m' /\ post v m m'.
Proof.
  induction fuel as [|fuel IH]; intros v m V L F; [lia|]. cbn [explore].
  set (m0 := mark v m) in *. assert (L0 : length m0 = n) by (apply mark_length; auto).
  assert (M0 : forall k, k < n -> (on m0 k <-> cover v k \/ on m k)) by (intros; apply mark_spec; auto).
  (* invariant of the loop over the targets *)
  assert (LOOP : forall todo cur, (forall y, In y todo -> y < n /\ reach R v y) ->
     length cur = n -> (forall k, on m0 k -> on cur k) -> (forall k, on cur k -> on m k \/ reach R v k) ->
     (forall x y, (on cur x /\ ~ on m0 x) -> R x y -> on cur y) ->
     exists m', fold_left (fun om y => let! m := om in let! seen := nth_error m y in
        if seen : bool then Some m else explore fuel y m) todo (Some cur) = Some m' /\
       length m' = n /\ (forall k, on cur k -> on m' k) /\ (forall k, on m' k -> on m k \/ reach R v k) /\
       (forall x y, (on m' x /\ ~ on m0 x) -> R x y -> on m' y) /\ (forall y, In y todo -> on m' y)).
  { induction todo as [|y todo IHt]; intros cur B LC I1 I2 I3.
    - exists cur. split; [reflexivity|]. split; [auto|]. split; [auto|]. split; [auto|]. split; [auto|]. intros y [].
    - cbn [fold_left bind]. destruct (B y (or_introl eq_refl)) as [YN YR].
      destruct (nth_error_lt_Some cur y) as [seen Hs]; [lia|]. rewrite Hs. cbn [bind]. destruct seen.
      + destruct (IHt cur) as (m' & E & A1 & A2 & A3 & A4 & A5); auto. { intros z Hz. apply B. right; auto. }
        exists m'. split; [exact E|]. split; [auto|]. split; [auto|]. split; [auto|]. split; [auto|].
        intros z [<-|Hz]; auto.
      + assert (NY : ~ on cur y) by (unfold on; congruence).
        assert (MC : forall k, k < n -> (on (mark y cur) k <-> cover y k \/ on cur k)) by (intros; apply mark_spec; auto).
        assert (LMY : length (mark y cur) = n) by (apply mark_length; auto).
        assert (FR : free (mark y cur) < fuel).
        { assert (free (mark y cur) < free cur).
          { apply (free_strict cur (mark y cur) y); try lia; auto.
            - intros k Hk. apply MC; [apply on_lt in Hk; lia|auto].
            - apply MC; [auto|]. left. apply cover_self; auto. }
          assert (free cur <= free m0) by (apply free_mono; [lia|auto]). lia. }
        destruct (IH y cur YN LC FR) as (m1 & E1 & P1 & P2 & P3 & P4 & P5).
        assert (NEW : forall x z, on m1 x /\ ~ on m0 x -> R x z -> on m1 z).
        { intros x z [Hx Nx] Rz. destruct (on_dec cur x) as [C|C].
          - apply P2, (I3 x); auto.
          - apply (P5 x z); auto. }
        destruct (IHt m1) as (m' & E & A1 & A2 & A3 & A4 & A5); auto.
        { intros z Hz. apply B. right; auto. }
        { intros k Hk. destruct (P4 k Hk) as [H|H]; [apply I2; auto|]. right. eapply reach_trans; eauto. }
        exists m'. split; [rewrite E1; exact E|]. split; [auto|]. split; [auto|]. split; [auto|]. split; [auto|].
        intros z [<-|Hz]; auto. }
  destruct (LOOP (out v) m0) as (m' & E & A1 & A2 & A3 & A4 & A5); auto.
  { intros y Hy. split; [eapply out_lt; eauto|]. destruct (out_step v y V Hy) as (x & C & Rx). eapply reach_snoc; [|exact Rx]. apply cover_reach; auto. }
  { intros k Hk. apply M0 in Hk; [|apply on_lt in Hk; lia]. destruct Hk as [H|H]; auto. }
  { intros x y [H N]. contradiction. }
  exists m'. split; [exact E|]. split; [auto|]. split; [|split; [|split]].
  - intros k Hk. apply A2, M0; auto. apply on_lt in Hk. lia.
  - intros k Hk. apply A2, M0; auto. eapply cover_lt; eauto.
  - auto.
  - intros x y H Rxy. assert (C : cover v x \/ (on m' x /\ ~ on m0 x)).
    { destruct H as [H|[H N]]; auto. destruct (on_dec m0 x) as [X|X]; auto. apply M0 in X; [|apply on_lt in X; lia]. destruct X as [X|X]; [auto|contradiction]. }
    destruct C as [C|C].
    + destruct (step_out v x y V C Rxy) as [D|D]; auto. apply A2, M0; auto. eapply cover_lt; eauto.
    + apply (A4 x y); auto.
Qed.

Definition closed (m : list bool) : Prop := forall x y, on m x -> R x y -> on m y.
Lemma closed_reach : forall m x y, closed m -> reach R x y -> on m x -> on m y.
Proof. intros m x y C H. induction H; auto. intros. apply IHreach. eapply C; eauto. Qed.

Theorem explore_closed : forall v m, v < n -> length m = n -> closed m ->
  exists m', explore (S n) v m = Some m' /\ length m' = n /\ closed m' /\ forall k, on m' k <-> on m k \/ reach R v k.
Proof.
  intros v m V L C. destruct (explore_spec (S n) v m V L) as (m' & E & P1 & P2 & P3 & P4 & P5).
  { pose proof (mark_length v m L). unfold free. lia. }
  assert (C' : closed m').
  { intros x y Hx Rxy. destruct (on_dec m x) as [H|H]; [apply P2; eapply C; eauto|]. apply (P5 x y); auto. }
  exists m'. split; [auto|]. split; [auto|]. split; [auto|]. intros k. split; [apply P4|].
  intros [H|H]; auto. apply (closed_reach m' v k); auto.
Qed.
End Dfs.
