(** Depth first relaxation of distances, as done by the recursive functions of
    relatives and segment_relative_order: a call at [s] with distance [d]
    lowers the distance of [s] to [d] and calls itself on its neighbours with
    [d + 1].  No repository function here. *)
From Coq Require Import List Arith Bool Lia.
From Verif Require Import Base.
Import ListNotations.

(** A walk of exactly [k] steps of [R]. *)
Inductive nwalk (R : nat -> nat -> Prop) : nat -> nat -> nat -> Prop :=
| nwalk_refl : forall a, nwalk R 0 a a
| nwalk_step : forall k a b c, R a b -> nwalk R k b c -> nwalk R (S k) a c.
Lemma nwalk_snoc : forall R k a b c, nwalk R k a b -> R b c -> nwalk R (S k) a c.
Proof.
  intros R k a b c W. revert c. induction W; intros; econstructor; eauto. constructor.
Qed.
Lemma nwalk_snoc_inv : forall R k a c, nwalk R (S k) a c -> exists b, nwalk R k a b /\ R b c.
Proof.
  intros R k. induction k as [|k IH]; intros a c H; inversion H as [|? ? b ? Ra W]; subst.
  - inversion W; subst. exists a. split; [constructor|auto].
  - apply IH in W as (x & W & Rx). exists x. split; [econstructor; eauto|auto].
Qed.
Lemma nwalk_iff : forall (R S : nat -> nat -> Prop), (forall a b, R a b <-> S a b) -> forall k a b, nwalk R k a b <-> nwalk S k a b.
Proof. intros R S H k a b. split; intros W; induction W; econstructor; eauto; apply H; auto. Qed.

(** [o] is a distance not above [d]; None is an infinite distance. *)
Definition upto (o : option nat) (d : nat) : Prop := exists e, o = Some e /\ e <= d.
Definition above (o : option nat) (d : nat) : bool := match o with Some e => d <? e | None => true end.

Section Relax.
Context {T : Type} (valid : T -> Prop) (get : T -> nat -> option nat) (set : T -> nat -> nat -> T).
Context (N : nat) (nbr : nat -> list nat) (order : option nat).
Hypothesis valid_set : forall t s d, valid t -> s < N -> valid (set t s d).
Hypothesis get_set : forall t s d u, valid t -> s < N -> u < N -> get (set t s d) u = if u =? s then Some d else get t u.
Hypothesis nbr_lt : forall s u, s < N -> In u (nbr s) -> u < N.

Definition allowed (d : nat) : bool := match order with Some o => d <=? o | None => true end.
Fixpoint relax (fuel s d : nat) (t : T) : option T :=
  match fuel with
  | O => None
  | S fuel' =>
      if above (get t s) d && allowed d
      then fold_left (fun ot u => let! t := ot in relax fuel' u (d + 1) t) (nbr s) (Some (set t s d))
      else Some t
  end.

Let R (a b : nat) : Prop := In b (nbr a).
Definition settled (t : T) (u e : nat) : Prop := allowed (e + 1) = true -> forall v, In v (nbr u) -> upto (get t v) (e + 1).
Definition lower (t t' : T) : Prop := forall u e, u < N -> get t u = Some e -> upto (get t' u) e.
Definition relaxed (s d : nat) (t t' : T) : Prop :=
  valid t' /\ lower t t' /\ (allowed d = true -> upto (get t' s) d) /\
  forall u, u < N -> get t' u = get t u \/
    exists e, get t' u = Some e /\ above (get t u) e = true /\ d <= e /\ allowed e = true /\ nwalk R (e - d) s u /\ settled t' u e.

Lemma lower_refl : forall t, lower t t.
Proof. intros t u e U H. exists e. auto. Qed.
Lemma lower_upto : forall t t' u e, lower t t' -> u < N -> upto (get t u) e -> upto (get t' u) e.
Proof. intros t t' u e L U (f & H & LE). destruct (L u f U H) as (g & G & GE). exists g. split; [auto|lia]. Qed.
Lemma lower_trans : forall a b c, lower a b -> lower b c -> lower a c.
Proof. intros a b c L1 L2 u e U H. apply (lower_upto b c u e L2 U). apply L1; auto. Qed.
Lemma lower_settled : forall t t' u e, u < N -> lower t t' -> settled t u e -> settled t' u e.
Proof. intros t t' u e U L S A v V. apply (lower_upto t); auto. apply (nbr_lt u); auto. Qed.
Lemma above_false : forall o d, above o d = false -> upto o d.
Proof. intros [e|] d H; simpl in H; [|discriminate]. apply Nat.ltb_ge in H. exists e. auto. Qed.
Lemma allowed_le : forall a b, a <= b -> allowed b = true -> allowed a = true.
Proof. intros a b L. unfold allowed. destruct order; auto. rewrite !Nat.leb_le. lia. Qed.

Lemma set_lower : forall t s d, valid t -> s < N -> above (get t s) d = true -> lower t (set t s d).
Proof.
  intros t s d V S A u e U H. rewrite get_set by auto. destruct (Nat.eqb_spec u s) as [->|_].
  - exists d. split; [auto|]. rewrite H in A. simpl in A. apply Nat.ltb_lt in A. lia.
  - exists e. auto.
Qed.

Lemma fold_None : forall {A} (f : A -> T -> option T) l, fold_left (fun ot u => let! t := ot in f u t) l None = None.
Proof. intros A f l. induction l; auto. Qed.

Theorem relax_spec : forall fuel s d t t', s < N -> valid t -> relax fuel s d t = Some t' -> relaxed s d t t'.
Proof.
  induction fuel as [|fuel IH]; intros s d t t' S V H; [discriminate|]. cbn [relax] in H.
  destruct (above (get t s) d && allowed d) eqn:C; cycle 1.
  { apply Some_inj in H. subst t'. split; [auto|]. split; [apply lower_refl|]. split; [|auto].
    intros A. rewrite A, andb_true_r in C. apply above_false. auto. }
  apply andb_true_iff in C as [C A].
  set (t0 := set t s d) in *. assert (V0 : valid t0) by (apply valid_set; auto).
  assert (L0 : lower t t0) by (apply set_lower; auto).
  assert (G0 : get t0 s = Some d) by (unfold t0; rewrite get_set, Nat.eqb_refl; auto).
  (* invariant of the loop over the neighbours *)
  assert (LOOP : forall todo done cur, (forall v, In v todo -> In v (nbr s)) -> valid cur -> lower t cur -> get cur s = Some d ->
     (forall u, u < N -> u <> s -> get cur u = get t u \/
        exists e, get cur u = Some e /\ above (get t u) e = true /\ d <= e /\ allowed e = true /\ nwalk R (e - d) s u /\ settled cur u e) ->
     (allowed (d + 1) = true -> forall v, In v done -> v < N /\ upto (get cur v) (d + 1)) ->
     fold_left (fun ot u => let! t := ot in relax fuel u (d + 1) t) todo (Some cur) = Some t' ->
     valid t' /\ lower t t' /\ get t' s = Some d /\
     (forall u, u < N -> u <> s -> get t' u = get t u \/
        exists e, get t' u = Some e /\ above (get t u) e = true /\ d <= e /\ allowed e = true /\ nwalk R (e - d) s u /\ settled t' u e) /\
     (allowed (d + 1) = true -> forall v, In v done \/ In v todo -> upto (get t' v) (d + 1))).
  { induction todo as [|y todo IHt]; intros done cur B VC LC GC I1 I2 E.
    - apply Some_inj in E. subst t'. split; [auto|]. split; [auto|]. split; [auto|]. split; [auto|].
      intros A1 v [Hv|[]]. apply I2; auto.
    - cbn [fold_left bind] in E. destruct (relax fuel y (d + 1) cur) as [c1|] eqn:E1; [|rewrite fold_None in E; discriminate].
      assert (YN : y < N) by (apply (nbr_lt s); auto; apply B; left; auto).
      apply IH in E1 as (P1 & P2 & P3 & P4); auto.
      assert (GS : get c1 s = Some d).
      { destruct (P4 s S) as [->|(e & G & A1 & LE & _)]; [auto|]. rewrite GC in A1. simpl in A1. apply Nat.ltb_lt in A1. lia. }
      destruct (IHt (y :: done) c1) as (Q1 & Q2 & Q3 & Q4 & Q5); auto.
      { intros; apply B; right; auto. }
      { eapply lower_trans; eauto. }
      { intros u U NU. destruct (P4 u U) as [->|(e & G & A1 & LE & AE & W & SE)].
        - destruct (I1 u U NU) as [->|(e & G & A1 & LE & AE & W & SE)]; [auto|]. right. exists e.
          repeat (split; [auto|]). eapply lower_settled; eauto.
        - right. exists e. split; [auto|]. split.
          { destruct (get t u) as [f|] eqn:GT; [|auto]. destruct (LC u f U GT) as (g & G' & GE). rewrite G' in A1. simpl in *.
            apply Nat.ltb_lt in A1. apply Nat.ltb_lt. lia. }
          split; [lia|]. split; [auto|]. split; [|auto]. replace (e - d) with (Datatypes.S (e - (d + 1))) by lia.
          econstructor; [|exact W]. apply B. left; auto. }
      { intros A1 v [<-|Hv].
        - split; [auto|]. apply P3; auto.
        - destruct (I2 A1 v Hv) as [VN UP]. split; [auto|]. eapply lower_upto; eauto. }
      split; [auto|]. split; [auto|]. split; [auto|]. split; [auto|].
      intros A1 v [Hv|[<-|Hv]]; apply Q5; auto; left; [right|left]; auto. }
  destruct (LOOP (nbr s) [] t0) as (Q1 & Q2 & Q3 & Q4 & Q5); auto.
  { intros u U NU. left. unfold t0. rewrite get_set by auto. destruct (Nat.eqb_spec u s); [contradiction|auto]. }
  { intros _ v []. }
  split; [auto|]. split; [auto|]. split; [intros _; exists d; auto|].
  intros u U. destruct (Nat.eq_dec u s) as [->|NU]; [|auto]. right. exists d. split; [auto|]. split; [auto|]. split; [auto|].
  split; [auto|]. split; [rewrite Nat.sub_diag; constructor|]. intros A1 v Hv. apply Q5; auto.
Qed.

(** *** Enough fuel *)
Lemma relax_bounded : forall o, order = Some o -> forall fuel s d t, s < N -> valid t -> o + 1 < fuel + d ->
  0 < fuel -> exists t', relax fuel s d t = Some t'.
Proof.
  intros o EO. induction fuel as [|fuel IH]; intros s d t S V F P; [lia|]. cbn [relax].
  destruct (above (get t s) d && allowed d) eqn:C; [|eauto]. apply andb_true_iff in C as [C A].
  unfold allowed in A. rewrite EO in A. apply Nat.leb_le in A.
  assert (V0 : valid (set t s d)) by (apply valid_set; auto). revert V0. generalize (set t s d) as cur.
  assert (B : forall u, In u (nbr s) -> u < N) by (intros; apply (nbr_lt s); auto).
  induction (nbr s) as [|y l IHl]; intros cur VC; [eexists; reflexivity|]. cbn [fold_left bind].
  destruct (IH y (d + 1) cur) as (c1 & E1); auto; try lia. { apply B; left; auto. }
  rewrite E1. apply IHl; [intros; apply B; right; auto|]. apply relax_spec in E1; auto; [apply E1|apply B; left; auto].
Qed.
(** Without limit: the segments of the stack of calls are all different. *)
Lemma relax_stack : forall fuel s d t stack, s < N -> valid t -> NoDup stack -> length stack = d ->
  (forall u, In u stack -> u < N /\ exists e, get t u = Some e /\ e < d) -> N < fuel + d ->
  0 < fuel -> exists t', relax fuel s d t = Some t'.
Proof.
  induction fuel as [|fuel IH]; intros s d t stack S V ND LS ST F P; [lia|]. cbn [relax].
  destruct (above (get t s) d && allowed d) eqn:C; [|eauto]. apply andb_true_iff in C as [C A].
  assert (NI : ~ In s stack).
  { intros I. destruct (ST s I) as (_ & e & G & LE). rewrite G in C. simpl in C. apply Nat.ltb_lt in C. lia. }
  assert (LN : d + 1 <= N).
  { assert (X : length (s :: stack) <= length (seq 0 N)).
    { apply NoDup_incl_length; [constructor; auto|]. intros u [<-|Hu]; apply in_seq; [lia|]. apply ST in Hu. lia. }
    rewrite seq_length in X. simpl in X. lia. }
  assert (V0 : valid (set t s d)) by (apply valid_set; auto).
  assert (ST0 : forall u, In u (s :: stack) -> u < N /\ exists e, get (set t s d) u = Some e /\ e < d + 1).
  { intros u [<-|Hu].
    - split; [auto|]. rewrite get_set, Nat.eqb_refl by auto. exists d. split; [auto|lia].
    - destruct (ST u Hu) as (U & e & G & LE). split; [auto|]. rewrite get_set by auto. destruct (Nat.eqb_spec u s) as [->|_]; [contradiction|].
      exists e. split; [auto|lia]. }
  revert V0 ST0. generalize (set t s d) as cur.
  assert (B : forall u, In u (nbr s) -> u < N) by (intros; apply (nbr_lt s); auto).
  induction (nbr s) as [|y l IHl]; intros cur VC STC; [eexists; reflexivity|]. cbn [fold_left bind].
  assert (YN : y < N) by (apply B; left; auto).
  destruct (IH y (d + 1) cur (s :: stack)) as (c1 & E1); auto; try lia. { constructor; auto. } { simpl. lia. }
  rewrite E1. apply relax_spec in E1 as (P1 & P2 & _); auto.
  apply IHl; [intros; apply B; right; auto|auto|]. intros u Hu. destruct (STC u Hu) as (U & e & G & LE). split; [auto|].
  destruct (P2 u e U G) as (f & G' & FE). exists f. split; [auto|lia].
Qed.

(** *** Relaxation from several starts *)
Definition exact (starts : list nat) (t : T) : Prop :=
  (forall u e, u < N -> get t u = Some e -> allowed e = true -> settled t u e /\ exists s, In s starts /\ nwalk R e s u) /\
  (forall s, In s starts -> upto (get t s) 0).
Lemma exact_relax : forall fuel s starts t t', s < N -> (forall u, In u starts -> u < N) -> valid t -> exact starts t -> allowed 0 = true ->
  relax fuel s 0 t = Some t' -> valid t' /\ exact (starts ++ [s]) t'.
Proof.
  intros fuel s starts t t' S ST V [X1 X2] A0 H. apply relax_spec in H as (P1 & P2 & P3 & P4); auto. split; [auto|]. split.
  - intros u e U G A. destruct (P4 u U) as [E|(f & G' & _ & _ & _ & W & SE)].
    + rewrite E in G. destruct (X1 u e U G A) as (SE & s0 & I & W). split; [eapply lower_settled; eauto|].
      exists s0. split; [apply in_or_app; auto|auto].
    + rewrite G in G'. apply Some_inj in G'. subst f. split; [auto|]. exists s. rewrite Nat.sub_0_r in W. split; [apply in_or_app; simpl; auto|auto].
  - intros s0 I. apply in_app_or in I as [I|[<-|[]]]; [|auto]. apply (lower_upto t); auto.
Qed.
(** The distances are the lengths of the shortest walks, up to [order]. *)
Theorem exact_spec : forall starts t, (forall u, In u starts -> u < N) -> exact starts t -> forall k u, allowed k = true -> u < N ->
  (upto (get t u) k <-> exists s j, In s starts /\ j <= k /\ nwalk R j s u).
Proof.
  intros starts t ST [X1 X2] k u A U. split.
  - intros (e & G & LE). destruct (X1 u e U G) as (_ & s & I & W); [apply (allowed_le e k); auto|]. exists s, e. auto.
  - intros (s & j & I & LE & W). assert (upto (get t u) j); [|destruct H as (e & G & L); exists e; split; [auto|lia]].
    clear U. revert u W. assert (AJ : allowed j = true) by (apply (allowed_le j k); auto). clear LE. induction j as [|j IH]; intros u W.
    + inversion W; subst. auto.
    + apply nwalk_snoc_inv in W as (b & W & Rb).
      assert (BN : b < N).
      { specialize (ST s I). clear - W ST nbr_lt. induction W; auto. apply IHW. apply (nbr_lt a); auto. }
      destruct (IH (allowed_le _ _ (Nat.le_succ_diag_r j) AJ) b W) as (e & G & LE).
      destruct (X1 b e BN G) as (SE & _); [apply (allowed_le e (Datatypes.S j)); auto; lia|].
      destruct (SE (allowed_le (e + 1) (Datatypes.S j) ltac:(lia) AJ) u Rb) as (f & G' & FE). exists f. split; [auto|lia].
Qed.
End Relax.
