(** Small vocabulary on undirected graphs, used by the network properties.
    Nothing here is taken from the code. *)
From Coq Require Import List Arith.
Import ListNotations.

(** [a] and [b] are the two ends of an edge of [E]. *)
Definition joined (E : list (nat * nat)) (a b : nat) : Prop := In (a, b) E \/ In (b, a) E.

(** A chain of edges goes from [a] to [b]. *)
Inductive chain (E : list (nat * nat)) : nat -> nat -> Prop :=
| chain_refl : forall a, chain E a a
| chain_step : forall a b c, joined E a b -> chain E b c -> chain E a c.

(** A walk of exactly [k] edges goes from [a] to [b]. *)
Inductive walk (E : list (nat * nat)) : nat -> nat -> nat -> Prop :=
| walk_refl : forall a, walk E 0 a a
| walk_step : forall k a b c, joined E a b -> walk E k b c -> walk E (S k) a c.

Lemma joined_sym : forall E a b, joined E a b -> joined E b a.
Proof. unfold joined. tauto. Qed.
Lemma chain_trans : forall E a b c, chain E a b -> chain E b c -> chain E a c.
Proof. intros E a b c H. induction H; auto. intros. eapply chain_step; eauto. Qed.
Lemma chain_one : forall E a b, joined E a b -> chain E a b.
Proof. intros. eapply chain_step; [eauto|constructor]. Qed.
Lemma chain_sym : forall E a b, chain E a b -> chain E b a.
Proof.
  intros E a b H. induction H; [constructor|].
  eapply chain_trans; [eassumption|]. apply chain_one, joined_sym; auto.
Qed.
Lemma chain_incl : forall E F a b, (forall x y, In (x, y) E -> joined F x y) -> chain E a b -> chain F a b.
Proof.
  intros E F a b H C. induction C as [|a b c J C IH]; [constructor|].
  destruct J as [J|J]; apply H in J; [|apply joined_sym in J]; eapply chain_step; eauto.
Qed.
Lemma chain_weaken : forall E F a b, incl E F -> chain E a b -> chain F a b.
Proof. intros E F a b I. apply chain_incl. intros. left. auto. Qed.
(** A property carried by both ends of edges is carried along chains. *)
Lemma chain_inv : forall E (P : nat -> Prop), (forall x y, joined E x y -> P x -> P y) ->
  forall a b, chain E a b -> P a -> P b.
Proof. intros E P H a b C. induction C; auto. intros. apply IHC. eapply H; eauto. Qed.
Lemma chain_end : forall E a b, chain E a b -> a <> b -> exists x, joined E b x.
Proof.
  intros E a b C. apply chain_sym in C. intros N. destruct C as [|a b c J _]; [congruence|eauto].
Qed.
Lemma walk_chain : forall E k a b, walk E k a b -> chain E a b.
Proof. intros E k a b H. induction H; [constructor|eapply chain_step; eauto]. Qed.
Lemma chain_walk : forall E a b, chain E a b -> exists k, walk E k a b.
Proof.
  intros E a b H. induction H as [|a b c J C [k W]]; [exists 0; constructor|].
  exists (S k). eapply walk_step; eauto.
Qed.
Lemma walk_snoc : forall E k a b c, walk E k a b -> joined E b c -> walk E (S k) a c.
Proof.
  intros E k a b c W. revert c. induction W as [a|k a b d J W IH]; intros c H.
  - eapply walk_step; [exact H|constructor].
  - eapply walk_step; [exact J|]. apply IH; auto.
Qed.
Lemma walk_snoc_inv : forall E k a c, walk E (S k) a c -> exists b, walk E k a b /\ joined E b c.
Proof.
  intros E k. induction k as [|k IH]; intros a c H; inversion H as [|k' x b y J W]; subst.
  - inversion W; subst. exists a. split; [constructor|auto].
  - apply IH in W as (d & W & J'). exists d. split; [|auto]. eapply walk_step; eauto.
Qed.
