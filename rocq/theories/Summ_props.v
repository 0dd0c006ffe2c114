(** C153: the numbers of the summary of a dataset of trajectories. *)
From Coq Require Import List Arith ZArith Bool QArith Lia Lqa.
Import ListNotations.
From Verif Require Import Base Qaux Spec Solver_proofs Corr_model Corr_proofs TrackObs_model TrackObs_spec TrackObs_proofs TrackObs_more Summ_model.
From Verif Require Generic_model Generic_proofs.
Local Close Scope Q_scope.
Local Open Scope nat_scope.

(** ** Specification *)
(** Tracks are numbered 0, 1, 2 ... without a gap, one after the other. *)
Fixpoint smooth (l : list nat) : Prop :=
  match l with a :: ((b :: _) as r) => (b = a \/ b = S a) /\ smooth r | _ => True end.
(** Points of a track, in order. *)
Definition points_of {P} (tracks : list nat) (pts : list P) (t : nat) : list P :=
  map snd (filter (fun p => fst p =? t) (combine tracks pts)).
(** Steps of a path, in kilometres. *)
Fixpoint km {P} (dist : P -> P -> Q) (l : list P) : list Q :=
  match l with p :: ((q :: _) as r) => (dist p q / 1000)%Q :: km dist r | _ => [] end.
(** An observation after which the summary thinks that the track ends. *)
Definition ends (tracks : list nat) (i : nat) : Prop :=
  nth_error tracks i <> nth_error tracks (S i) \/ (i + 2 = length tracks /\ exists t, 1 <= t <= list_max tracks /\ ~ In t tracks).

(** ** Marks *)
Lemma cut_before_spec : forall ix (d : list bool),
  (forall z, In z ix -> exists i, pyidx (length d) (z - 1) = Some i) ->
  exists r, cut_before d ix = Some r /\ length r = length d /\
    forall i, i < length d ->
      ((exists z, In z ix /\ pyidx (length d) (z - 1) = Some i) -> nth_error r i = Some false) /\
      (~ (exists z, In z ix /\ pyidx (length d) (z - 1) = Some i) -> nth_error r i = nth_error d i).
Proof.
  induction ix as [|z ix IH]; intros d V.
  - exists d. split; [reflexivity|]. split; [reflexivity|]. intros i Hi. split; [intros (z & [] & _)|auto].
  - cbn [cut_before]. destruct (V z (or_introl eq_refl)) as [k Hk].
    assert (Lk : k < length d).
    { unfold pyidx in Hk. destruct (0 <=? z - 1)%Z eqn:E1.
      - destruct (z - 1 <? Z.of_nat (length d))%Z eqn:E2; [|discriminate]. injection Hk as <-.
        apply Z.ltb_lt in E2. apply Z.leb_le in E1. lia.
      - destruct (- Z.of_nat (length d) <=? z - 1)%Z eqn:E2; [|discriminate]. injection Hk as <-.
        apply Z.leb_le in E2. apply Z.leb_gt in E1. lia. }
    unfold pystore. rewrite Hk. cbn [bind]. unfold store. destruct (Nat.ltb_spec k (length d)); [|lia]. cbn [bind].
    destruct (IH (upd d k false)) as (r & R & L & S).
    { rewrite length_upd. intros z' Hz. apply V. right. exact Hz. }
    rewrite length_upd in *. exists r. split; [exact R|]. split; [exact L|].
    intros i Hi. destruct (S i Hi) as [S1 S2].
    assert (D : (exists z, In z ix /\ pyidx (length d) (z - 1) = Some i) \/ ~ (exists z, In z ix /\ pyidx (length d) (z - 1) = Some i)).
    { clear. induction ix as [|y ix IH]; [right; intros (y & [] & _)|].
      destruct IH as [(y' & I & E)|N]; [left; exists y'; split; [right|]; auto|].
      destruct (pyidx (length d) (y - 1)) as [k|] eqn:E.
      - destruct (Nat.eq_dec k i) as [->|Nk]; [left; exists y; split; [left|]; auto|].
        right. intros (y' & [<-|I] & E'); [congruence|]. apply N. eauto.
      - right. intros (y' & [<-|I] & E'); [congruence|]. apply N. eauto. }
    split.
    + intros (z' & I & E). destruct D as [D|D]; [auto|]. rewrite (S2 D).
      destruct I as [<-|I]; [|exfalso; eauto]. assert (k = i) by congruence. subst. apply nth_error_upd_eq; lia.
    + intros N. rewrite S2.
      * apply nth_error_upd_neq. intros ->. apply N. exists z. split; [left|]; auto.
      * intros (z' & I & E). apply N. exists z'. split; [right|]; auto.
Qed.
(** Exact set of the marks. *)
Lemma followed_exact : forall tracks, tracks <> [] -> nsorted tracks ->
  (2 <= length tracks \/ forall t, t <= list_max tracks -> In t tracks) ->
  exists m, followed tracks = Some m /\ length m = length tracks /\
    forall i, i < length tracks -> (ends tracks i -> nth_error m i = Some false) /\ (~ ends tracks i -> nth_error m i = Some true).
Proof.
  intros tracks NE SO H3. unfold followed. pose proof (grouped_sorted _ SO) as G.
  destruct (compute_index_spec tracks NE G) as (index & number & -> & T). cbn [bind fst]. pose proof T as (L1 & L2 & TT).
  assert (LT : 1 <= length tracks) by (destruct tracks; [congruence|simpl; lia]).
  set (n := length tracks) in *.
  assert (TL : forall z, In z (tl index) <-> exists t, 1 <= t <= list_max tracks /\ nth_error index t = Some z).
  { intros z. destruct index as [|i0 index]; [simpl in L1; lia|]. cbn [tl]. split.
    - intros I. apply In_nth_error in I as [k Hk]. exists (S k). split; auto.
      apply nth_error_Some_lt in Hk. simpl in L1. lia.
    - intros (t & B & E). destruct t as [|t]; [lia|]. simpl in E. eapply nth_error_In; eauto. }
  assert (VAL : forall t z, t <= list_max tracks -> nth_error index t = Some z ->
            (~ In t tracks /\ z = -1)%Z \/
            (exists f, z = Z.of_nat f /\ nth_error tracks f = Some t /\ (f = 0 \/ nth_error tracks (f - 1) <> Some t))).
  { intros t z B E. destruct (TT t ltac:(lia)) as (N & f & F1 & F2 & F2' & F3).
    rewrite E in F1. apply Some_inj in F1. subst f.
    destruct (Nat.eq_dec (count t tracks) 0) as [C|C].
    - left. split; [apply count_0; exact C|auto].
    - right. specialize (F2' C). exists (Z.to_nat z). split; [lia|]. split; [apply F3; lia|].
      destruct (Nat.eq_dec (Z.to_nat z) 0); [left; auto|right]. intros X. apply F3 in X. lia. }
  assert (LAST : nth_error tracks n = None) by (apply nth_error_None; lia).
  assert (POS : forall t z i, 1 <= t <= list_max tracks -> nth_error index t = Some z -> pyidx n (z - 1) = Some i -> ends tracks i).
  { intros t z i B E PI. destruct (VAL t z ltac:(lia) E) as [[N ->]|(f & -> & F1 & F2)].
    - rewrite pyidx_neg in PI by lia. destruct (Z.leb_spec (- Z.of_nat n) (-1 - 1)); [|discriminate].
      apply Some_inj in PI; subst i. right. split; [fold n; lia|]. exists t. split; auto.
    - destruct f as [|f].
      + rewrite pyidx_neg in PI by lia. destruct (Z.leb_spec (- Z.of_nat n) (Z.of_nat 0 - 1)); [|discriminate].
        apply Some_inj in PI; subst i. left. replace (S (Z.to_nat (Z.of_nat 0 - 1 + Z.of_nat n))) with n by lia. rewrite LAST.
        intros X. apply nth_error_None in X. fold n in X. lia.
      + unfold pyidx in PI. replace (Z.of_nat (S f) - 1)%Z with (Z.of_nat f) in PI by lia.
        destruct (Z.leb_spec 0 (Z.of_nat f)); [|lia].
        destruct (Z.ltb_spec (Z.of_nat f) (Z.of_nat n)); [|discriminate]. apply Some_inj in PI; subst i.
        rewrite Nat2Z.id. left. rewrite F1. destruct F2 as [F2|F2]; [lia|].
        replace (S f - 1) with f in F2 by lia. exact F2. }
  unfold pystore at 1. rewrite repeat_length. rewrite pyidx_neg by lia. fold n. destruct (Z.leb_spec (- Z.of_nat n) (-1)); [|lia].
  replace (Z.to_nat (-1 + Z.of_nat n)) with (n - 1) by lia. cbn [bind]. unfold store. rewrite repeat_length. fold n. destruct (Nat.ltb_spec (n - 1) n); [|lia]. cbn [bind].
  destruct (cut_before_spec (tl index) (upd (repeat true n) (n - 1) false)) as (r & R & LR & RR).
  { rewrite length_upd, repeat_length. intros z Hz. apply TL in Hz as (t & B & E).
    destruct (VAL t z ltac:(lia) E) as [[N ->]|(f & -> & F1 & F2)].
    - destruct H3 as [H3|H3]; [|exfalso; apply N, H3; lia].
      exists (n - 2). rewrite pyidx_neg by lia. destruct (Z.leb_spec (- Z.of_nat n) (-1 - 1)); [|lia]. f_equal. lia.
    - destruct f as [|f].
      + exists (n - 1). rewrite pyidx_neg by lia. destruct (Z.leb_spec (- Z.of_nat n) (Z.of_nat 0 - 1)); [|lia]. f_equal. lia.
      + exists f. unfold pyidx. replace (Z.of_nat (S f) - 1)%Z with (Z.of_nat f) by lia.
        apply nth_error_Some_lt in F1. fold n in F1.
        destruct (Z.leb_spec 0 (Z.of_nat f)); [|lia].
        destruct (Z.ltb_spec (Z.of_nat f) (Z.of_nat n)); [|lia]. f_equal. lia. }
  rewrite length_upd, repeat_length in *. exists r. split; [exact R|]. split; [exact LR|].
  intros i Hi. destruct (RR i Hi) as [R1 R2].
  assert (BASE : nth_error (upd (repeat true n) (n - 1) false) i = Some (negb (i =? n - 1))).
  { destruct (Nat.eqb_spec i (n - 1)) as [->|X]; [apply nth_error_upd_eq; rewrite repeat_length; lia|]. rewrite nth_error_upd_neq by auto. now apply nth_error_repeat. }
  split.
  - intros C. destruct (Nat.eq_dec i (n - 1)) as [->|NI].
    + destruct (in_dec Nat.eq_dec (n - 1) (map (fun z => match pyidx n (z - 1) with Some k => k | None => n end) (tl index))) as [D|D].
      * apply in_map_iff in D as (z & E & I). apply R1. exists z. split; [exact I|]. destruct (pyidx n (z - 1)); [congruence|lia].
      * rewrite R2, BASE, Nat.eqb_refl; [reflexivity|]. intros (z & I & E). apply D. apply in_map_iff. exists z. rewrite E. auto.
    + apply R1. destruct C as [C|[C1 (t & C2 & C3)]].
      * destruct (nth_error_lt_Some tracks (S i)) as [t Ht]; [fold n; lia|].
        assert (B : t <= list_max tracks) by (apply list_max_ge; eapply nth_error_In; eauto).
        destruct (TT t ltac:(lia)) as (N & f & F1 & F2 & F2' & F3).
        assert (C0 : count t tracks <> 0) by (intros X; apply count_0 in X; apply X; eapply nth_error_In; eauto).
        specialize (F2' C0). pose proof (proj1 (F3 _) Ht) as B1.
        assert (f = Z.of_nat (S i)).
        { destruct (Z.eq_dec f (Z.of_nat (S i))); auto.
          assert (nth_error tracks i = Some t) by (apply F3; lia). congruence. }
        destruct (Nat.eq_dec t 0) as [->|Nt].
        -- exfalso. destruct (nth_error_lt_Some tracks i) as [u Hu]; [fold n; lia|].
           pose proof (SO i (S i) u 0 ltac:(lia) Hu Ht). assert (u = 0) by lia. congruence.
        -- exists f. split; [apply TL; exists t; split; [lia|auto]|].
           subst f. unfold pyidx. replace (Z.of_nat (S i) - 1)%Z with (Z.of_nat i) by lia. destruct (Z.leb_spec 0 (Z.of_nat i)); [|lia].
           destruct (Z.ltb_spec (Z.of_nat i) (Z.of_nat n)); [|lia]. f_equal. lia.
      * exists (-1)%Z. split.
        -- apply TL. exists t. split; [exact C2|]. destruct (nth_error_lt_Some index t) as [z E]; [lia|]. destruct (VAL t z ltac:(lia) E) as [[_ ->]|(f & _ & F1 & _)]; [exact E|].
           elim C3. eapply nth_error_In; eauto.
        -- rewrite pyidx_neg by lia. fold n in C1. destruct (Z.leb_spec (- Z.of_nat n) (-1 - 1)); [|lia]. f_equal. lia.
  - intros C. rewrite R2.
    + rewrite BASE. destruct (Nat.eqb_spec i (n - 1)) as [->|]; [|reflexivity]. elim C. left. replace (S (n - 1)) with n by lia. rewrite LAST. intros X. apply nth_error_None in X. fold n in X. lia.
    + intros (z & I & E). apply C. apply TL in I as (t & B & E'). eapply POS; eauto.
Qed.
(** ** Tracks without a gap *)
Lemma smooth_ge : forall l a x, smooth (a :: l) -> In x (a :: l) -> a <= x.
Proof.
  induction l as [|b l IH]; intros a x S I; [destruct I as [<-|[]]; lia|]. cbn [smooth] in S. destruct S as [Hab S].
  destruct I as [<-|I]; [lia|]. pose proof (IH b x S I). lia.
Qed.
Lemma smooth_tail : forall a l, smooth (a :: l) -> smooth l.
Proof. intros a [|b l] S; [exact I|apply S]. Qed.
Lemma smooth_sorted : forall l, smooth l -> nsorted l.
Proof.
  induction l as [|a l IH]; intros S; [intros i j x y _ E; destruct i; discriminate|]. apply nsorted_intro; [apply IH; eapply smooth_tail; eauto|].
  intros b I. apply (smooth_ge l a b S). now right.
Qed.
Lemma smooth_all : forall l a x t, smooth (a :: l) -> In x (a :: l) -> a <= t <= x -> In t (a :: l).
Proof.
  induction l as [|b l IH]; intros a x t S I B; [destruct I as [<-|[]]; left; lia|]. cbn [smooth] in S. destruct S as [Hab S].
  destruct (Nat.eq_dec t a) as [->|N]; [now left|]. right. destruct I as [<-|I]; [lia|]. apply (IH b x t S I). lia.
Qed.
Lemma list_max_in : forall a l, In (list_max (a :: l)) (a :: l).
Proof.
  intros a l. revert a. induction l as [|b l IH]; intros a; [cbn; left; lia|]. specialize (IH b). change (list_max (a :: b :: l)) with (Nat.max a (list_max (b :: l))).
  destruct (Nat.max_spec a (list_max (b :: l))) as [[_ ->]|[_ ->]]; [now right|now left].
Qed.
Lemma smooth_full : forall l, smooth (0 :: l) -> forall t, t <= list_max (0 :: l) -> In t (0 :: l).
Proof. intros l S t B. apply (smooth_all l 0 (list_max (0 :: l)) t S (list_max_in 0 l)). lia. Qed.
Fixpoint marks (l : list nat) : list bool := match l with [] => [] | a :: r => match r with [] => false | b :: _ => a =? b end :: marks r end.
Lemma marks_length : forall l, length (marks l) = length l.
Proof. induction l as [|a l IH]; [reflexivity|]. cbn [marks length]. now rewrite IH. Qed.
Lemma marks_nth : forall l i t, nth_error l i = Some t -> nth_error (marks l) i = Some (match nth_error l (S i) with Some u => t =? u | None => false end).
Proof. induction l as [|a l IH]; intros [|i] t E; try discriminate; [injection E as <-; destruct l; reflexivity|]. cbn [marks nth_error]. now apply IH. Qed.
Section Path.
Context {P : Type}.
Variable dist : P -> P -> Q.
Fixpoint jumps (l : list (nat * P)) : list Q :=
  match l with [] => [] | a :: r => match r with [] => 0%Q | b :: _ => if fst a =? fst b then dist (snd a) (snd b) else 0%Q end :: jumps r end.
Lemma jumps_length : forall l, length (jumps l) = length l.
Proof. induction l as [|a l IH]; [reflexivity|]. cbn [jumps length]. now rewrite IH. Qed.
Lemma jumps_nth : forall l i a, nth_error l i = Some a -> nth_error (jumps l) i = Some (match nth_error l (S i) with Some b => if fst a =? fst b then dist (snd a) (snd b) else 0%Q | None => 0%Q end).
Proof. induction l as [|x l IH]; intros [|i] a E; try discriminate; [injection E as <-; destruct l; reflexivity|]. cbn [jumps nth_error]. now apply IH. Qed.
Definition pl (l : list (nat * P)) (t : nat) : list P := map snd (filter (fun p => fst p =? t) l).
Definition scaled (l : list (nat * P)) : list Q := map (fun x => x / 1000)%Q (jumps l).
Definition top (l : list (nat * P)) : nat := last (map fst l) 0.
Lemma top_ge : forall l t, smooth (map fst l) -> l <> [] -> match l with x :: _ => fst x = t | [] => True end -> t <= top l.
Proof.
  intros [|x l] t S NE E; [congruence|]. unfold top. cbn [map]. apply (smooth_ge (map fst l) t); [cbn [map] in S; now rewrite E in S|]. rewrite E.
  destruct (exists_last (l := t :: map fst l)) as [y [z Ez]]; [discriminate|]. rewrite Ez, last_last. apply in_or_app. right. now left.
Qed.
Lemma pl_skip : forall x l t, fst x <> t -> pl (x :: l) t = pl l t.
Proof. intros x l t N. unfold pl. cbn [filter]. apply Nat.eqb_neq in N. now rewrite N. Qed.
Lemma pl_here : forall x l, pl (x :: l) (fst x) = snd x :: pl l (fst x).
Proof. intros x l. unfold pl. cbn [filter]. rewrite Nat.eqb_refl. reflexivity. Qed.
Lemma pl_at : forall x l t, fst x = t -> pl (x :: l) t = snd x :: pl l t.
Proof. intros x l t <-. apply pl_here. Qed.
Lemma pl_none : forall l t, (forall x, In x (map fst l) -> t < x) -> pl l t = [].
Proof. intros l t. induction l as [|x l IH]; intros B; [reflexivity|]. rewrite pl_skip; [apply IH; intros y I; apply B; now right|]. assert (t < fst x) by (apply B; now left). lia. Qed.
Lemma tops : forall x y l, top (x :: y :: l) = top (y :: l).
Proof. reflexivity. Qed.
Lemma days_spec : forall l x, smooth (map fst (x :: l)) ->
  select (marks (map fst (x :: l))) (scaled (x :: l)) = flat_map (fun t => km dist (pl (x :: l) t)) (seq (fst x) (S (top (x :: l) - fst x))).
Proof.
  induction l as [|y l IH]; intros x SM.
  - unfold top. cbn [map last]. rewrite Nat.sub_diag. cbn [seq flat_map]. rewrite pl_here. reflexivity.
  - pose proof SM as S0. cbn [map smooth] in SM. destruct SM as [H SM]. change (fst y :: map fst l) with (map fst (y :: l)) in SM. specialize (IH y SM). rewrite tops.
    change (marks (map fst (x :: y :: l))) with ((fst x =? fst y) :: marks (map fst (y :: l))).
    change (scaled (x :: y :: l)) with (((if fst x =? fst y then dist (snd x) (snd y) else 0) / 1000)%Q :: scaled (y :: l)). cbn [select].
    assert (TG : fst y <= top (y :: l)) by (apply top_ge; [exact SM|discriminate|reflexivity]).
    assert (AG : forall z, In z (map fst (y :: l)) -> fst y <= z) by (intros z I; cbn [map] in *; now apply (smooth_ge (map fst l))).
    destruct H as [H|H].
    + rewrite <- H, Nat.eqb_refl. rewrite IH. cbn [seq flat_map]. rewrite (pl_at x) by lia. rewrite pl_here. cbn [km].
      cbn [app]. f_equal. f_equal. rewrite !flat_map_concat_map. f_equal. apply map_ext_in. intros t I. apply in_seq in I. rewrite (pl_skip x); [reflexivity|lia].
    + destruct (Nat.eqb_spec (fst x) (fst y)) as [E|_]; [lia|]. rewrite IH. rewrite H.
      replace (top (y :: l) - fst x) with (Datatypes.S (top (y :: l) - Datatypes.S (fst x))) by lia. cbn [seq flat_map].
      rewrite pl_here, (pl_none (y :: l) (fst x)) by (intros z I; apply AG in I; lia). cbn [km app].
      rewrite (pl_skip x (y :: l) (S (fst x))) by lia. f_equal. rewrite !flat_map_concat_map. f_equal. apply map_ext_in. intros t I. apply in_seq in I. rewrite (pl_skip x); [reflexivity|lia].
Qed.
Lemma paths_spec : forall l x tp acc, smooth (map fst (x :: l)) ->
  exists first rest, select (map negb (marks (map fst (x :: l)))) (Generic_model.cumsum_from tp acc (scaled (x :: l)) (map Z.of_nat (map fst (x :: l)))) = first :: rest /\
    (first == (if (Z.of_nat (fst x) =? tp)%Z then acc else 0) + Qsum (km dist (pl (x :: l) (fst x))))%Q /\
    Forall2 Qeq rest (map (fun t => Qsum (km dist (pl (x :: l) t))) (seq (S (fst x)) (top (x :: l) - fst x))).
Proof.
  induction l as [|y l IH]; intros x tp acc SM.
  - unfold top. cbn [map last]. rewrite Nat.sub_diag. cbn. eexists. eexists. split; [reflexivity|]. split; [|constructor]. rewrite Nat.eqb_refl. cbn [map km Qsum]. destruct (Z.of_nat (fst x) =? tp)%Z; unfold Qdiv; ring.
  - pose proof SM as S0. cbn [map smooth] in SM. destruct SM as [H SM]. change (fst y :: map fst l) with (map fst (y :: l)) in SM. rewrite tops.
    change (marks (map fst (x :: y :: l))) with ((fst x =? fst y) :: marks (map fst (y :: l))).
    change (scaled (x :: y :: l)) with (((if fst x =? fst y then dist (snd x) (snd y) else 0) / 1000)%Q :: scaled (y :: l)).
    change (map Z.of_nat (map fst (x :: y :: l))) with (Z.of_nat (fst x) :: map Z.of_nat (map fst (y :: l))). cbn [map Generic_model.cumsum_from]. cbn [select].
    set (a := if (Z.of_nat (fst x) =? tp)%Z then acc else 0%Q).
    assert (TG : fst y <= top (y :: l)) by (apply top_ge; [exact SM|discriminate|reflexivity]).
    assert (AG : forall z, In z (map fst (y :: l)) -> fst y <= z) by (intros z I; cbn [map] in *; now apply (smooth_ge (map fst l))).
    destruct (IH y (Z.of_nat (fst x)) (a + (if fst x =? fst y then dist (snd x) (snd y) else 0) / 1000)%Q SM) as (f & r & E & F & R). clear IH.
    change (fst y :: map fst l) with (map fst (y :: l)).
    destruct H as [H|H].
    + rewrite <- H in *. rewrite Nat.eqb_refl in *. rewrite Z.eqb_refl in F. cbn [negb select]. exists f, r. split; [exact E|]. split.
      * rewrite F. rewrite (pl_at x) by lia. rewrite pl_here. cbn [km Qsum]. ring.
      * erewrite map_ext_in; [exact R|]. intros t I. apply in_seq in I. cbn beta. rewrite (pl_skip x); [reflexivity|lia].
    + destruct (Nat.eqb_spec (fst x) (fst y)) as [Eq|_]; [lia|]. cbn [negb select]. change (Z.of_nat (fst y) :: map Z.of_nat (map fst l)) with (map Z.of_nat (map fst (y :: l))). rewrite E. destruct (Z.eqb_spec (Z.of_nat (fst y)) (Z.of_nat (fst x))) as [|_]; [lia|].
      eexists. eexists. split; [reflexivity|]. split.
      * rewrite pl_here, (pl_none (y :: l) (fst x)) by (intros z I; apply AG in I; lia). cbn [km Qsum]. unfold Qdiv. ring.
      * replace (top (y :: l) - fst x) with (Datatypes.S (top (y :: l) - fst y)) by lia. cbn [seq map]. rewrite <- H. constructor.
        -- rewrite F. rewrite (pl_skip x) by lia. ring.
        -- erewrite map_ext_in; [exact R|]. intros t I. apply in_seq in I. cbn beta. rewrite (pl_skip x); [reflexivity|lia].
Qed.
End Path.

Lemma mean_spec : forall l m, mean l = Some m -> (m * inject_Z (Z.of_nat (length l)) == Qsum l)%Q.
Proof.
  intros l m E. assert (NE : l <> []) by (intros ->; discriminate). assert (E' : m = (Qsum l / inject_Z (Z.of_nat (length l)))%Q) by (destruct l; [congruence|now inversion E]).
  rewrite E'. field. intros C. unfold Qeq in C. cbn in C. destruct l; [congruence|cbn in C; lia].
Qed.
Lemma Forall2_len : forall {A B} (r : A -> B -> Prop) a b, Forall2 r a b -> length a = length b.
Proof. intros A B r a b H. induction H; cbn; congruence. Qed.
Lemma combine_split_map : forall {A B} (a : list A) (b : list B), length b = length a -> map fst (combine a b) = a /\ map snd (combine a b) = b.
Proof. induction a as [|x a IH]; intros [|y b] L; try discriminate; [auto|]. cbn. injection L as L. destruct (IH b L) as [-> ->]. auto. Qed.
Lemma top_max : forall {P} (l : list (nat * P)) , smooth (map fst l) -> l <> [] -> top l = list_max (map fst l).
Proof.
  intros P l SM NE. unfold top. destruct l as [|x l]; [congruence|]. clear NE. revert x SM. induction l as [|y l IH]; intros x SM; [cbn; lia|].
  pose proof (smooth_tail _ _ SM) as S'. specialize (IH y S'). change (last (map fst (x :: y :: l)) 0) with (last (map fst (y :: l)) 0). rewrite IH.
  change (list_max (map fst (x :: y :: l))) with (Nat.max (fst x) (list_max (map fst (y :: l)))).
  assert (fst x <= list_max (map fst (y :: l))); [|lia]. transitivity (fst y); [apply (smooth_ge _ _ _ SM); right; now left|]. apply list_max_ge. now left.
Qed.
Lemma filter_count : forall tracks s index number, tables s tracks index number -> (forall t, In t tracks -> t < s) ->
  number = map (fun t => count t tracks) (seq 0 s).
Proof.
  intros tracks s index number (L1 & L2 & TT) B. apply nth_error_ext. intros i. rewrite nth_error_map. destruct (Nat.ltb_spec i s) as [Hi|Hi].
  - destruct (TT i Hi) as (N & _). rewrite N. assert (E : nth_error (seq 0 s) i = Some i) by (rewrite (nth_error_nth' _ 0) by (rewrite seq_length; lia); f_equal; rewrite seq_nth by lia; reflexivity). rewrite E. reflexivity.
  - rewrite (proj2 (nth_error_None number i)) by lia. rewrite (proj2 (nth_error_None (seq 0 s) i)) by (rewrite seq_length; lia). reflexivity.
Qed.
Lemma nmin_spec : forall l m, nmin l = Some m -> In m l /\ forall x, In x l -> m <= x.
Proof.
  intros [|a l] m; [discriminate|]. cbn [nmin]. intros [= <-]. revert a. induction l as [|b l IH]; intros a; [cbn; split; [now left|intros x [<-|[]]; lia]|].
  cbn [fold_left]. destruct (IH (Nat.min a b)) as [I L]. split.
  - destruct I as [E|I]; [rewrite <- E; destruct (Nat.min_spec a b) as [[_ ->]|[_ ->]]; [now left|right; now left]|right; now right].
  - intros x [<-|[<-|J]]; [transitivity (Nat.min a b); [apply L; now left|lia]|transitivity (Nat.min a b); [apply L; now left|lia]|apply L; now right].
Qed.
Lemma nmax_spec : forall l m, nmax l = Some m -> In m l /\ forall x, In x l -> x <= m.
Proof.
  intros [|a l] m; [discriminate|]. cbn [nmax]. intros [= <-]. revert a. induction l as [|b l IH]; intros a; [cbn; split; [now left|intros x [<-|[]]; lia]|].
  cbn [fold_left]. destruct (IH (Nat.max a b)) as [I L]. split.
  - destruct I as [E|I]; [rewrite <- E; destruct (Nat.max_spec a b) as [[_ ->]|[_ ->]]; [right; now left|now left]|right; now right].
  - intros x [<-|[<-|J]]; [transitivity (Nat.max a b); [lia|apply L; now left]|transitivity (Nat.max a b); [lia|apply L; now left]|apply L; now right].
Qed.
Lemma present_length : forall tracks s, (forall t, In t tracks -> t < s) ->
  length (filter (fun k => negb (k =? 0)) (map (fun t => count t tracks) (seq 0 s))) = length (nodup Nat.eq_dec tracks).
Proof.
  intros tracks s B. assert (E : forall l, length (filter (fun k => negb (k =? 0)) (map (fun t => count t tracks) l)) = length (filter (fun t => negb (count t tracks =? 0)) l)).
  { induction l as [|a l IH]; [reflexivity|]. cbn. destruct (negb (count a tracks =? 0)); cbn; now rewrite IH. }
  rewrite E. apply Permutation.Permutation_length. apply Permutation.NoDup_Permutation; [apply NoDup_filter, seq_NoDup|apply NoDup_nodup|].
  intros t. rewrite filter_In, in_seq, nodup_In, negb_true_iff, Nat.eqb_neq. unfold count. rewrite <- (count_occ_not_In Nat.eq_dec). split.
  - intros [_ N]. destruct (in_dec Nat.eq_dec t tracks); [assumption|contradiction].
  - intros I. split; [specialize (B t I); lia|tauto].
Qed.

(** ** Theorems *)
(** Numbers of tracks and lengths of the shorter and of the longer one, whatever the
    numbers of the tracks, which are stored one after the other. *)
Theorem C153_counts : forall P (dist : P -> P -> Q) tracks pts virtual s, grouped tracks -> summarize dist tracks pts virtual = Some s ->
  s_tracks s = length (nodup Nat.eq_dec tracks) /\
  (exists t, In t tracks /\ count t tracks = s_shorter s) /\ (forall t, In t tracks -> s_shorter s <= count t tracks) /\
  (exists t, In t tracks /\ count t tracks = s_longer s) /\ (forall t, In t tracks -> count t tracks <= s_longer s) /\
  s_filled s = length (filter (fun b => b) virtual).
Proof.
  intros P dist tracks pts virtual s G E. unfold summarize in E. assert (NE : tracks <> []) by (intros ->; discriminate).
  destruct (compute_index_spec tracks NE G) as (index & number & CI & T). rewrite CI in E. cbn [bind snd] in E.
  assert (B : forall t, In t tracks -> t < S (list_max tracks)) by (intros t I; apply list_max_ge in I; lia).
  pose proof (filter_count _ _ _ _ T B) as N. destruct (distance_to_next P dist tracks pts) as [d|]; [cbn [bind] in E|discriminate].
  destruct (followed tracks) as [m|]; [cbn [bind] in E|discriminate].
  destruct (nmin _) as [lo|] eqn:LO; [cbn [bind] in E|discriminate]. destruct (nmax number) as [hi|] eqn:HI; [cbn [bind] in E|discriminate].
  injection E as <-. cbn [s_tracks s_shorter s_longer s_filled]. rewrite N in *. apply nmin_spec in LO as [I1 L1]. apply nmax_spec in HI as [I2 L2].
  assert (PRES : forall t, In t tracks <-> count t tracks <> 0) by (intros t; unfold count; rewrite <- (count_occ_not_In Nat.eq_dec); destruct (in_dec Nat.eq_dec t tracks); tauto).
  assert (IN : forall t, In t tracks -> In (count t tracks) (map (fun t => count t tracks) (seq 0 (S (list_max tracks))))) by (intros t I; apply in_map_iff; exists t; split; [reflexivity|apply in_seq; specialize (B t I); lia]).
  split; [now apply present_length|]. split; [|split; [|split; [|split; [|reflexivity]]]].
  - apply filter_In in I1 as [I1 Z]. apply in_map_iff in I1 as (t & E & _). exists t. split; [|exact E]. apply PRES. rewrite E. apply negb_true_iff, Nat.eqb_neq in Z. exact Z.
  - intros t I. apply L1. apply filter_In. split; [now apply IN|]. apply negb_true_iff, Nat.eqb_neq. now apply PRES.
  - apply in_map_iff in I2 as (t & E & _). exists t. split; [|exact E]. apply PRES. rewrite E. destruct tracks as [|a r]; [congruence|].
    pose proof (L2 _ (IN a (or_introl eq_refl))) as K. assert (count a (a :: r) <> 0) by (apply PRES; now left). lia.
  - intros t I. apply L2. now apply IN.
Qed.
Print Assumptions C153_counts.

(** When the tracks are numbered from 0 without a gap, the distances by day are the steps
    between two observations of a track, and the distances by track are the lengths of
    the tracks, one for each. *)
Theorem C153_distances : forall P (dist : P -> P -> Q) tracks pts virtual, smooth tracks -> nth_error tracks 0 = Some 0 -> length pts = length tracks ->
  exists s, summarize dist tracks pts virtual = Some s /\
    s_days s = flat_map (fun t => km dist (points_of tracks pts t)) (seq 0 (S (list_max tracks))) /\
    Forall2 Qeq (s_paths s) (map (fun t => Qsum (km dist (points_of tracks pts t))) (seq 0 (S (list_max tracks)))) /\
    length (s_paths s) = s_tracks s /\
    (s_days s = [] -> s_day_mean s = None) /\
    (forall m, s_day_mean s = Some m -> (m * inject_Z (Z.of_nat (length (s_days s))) == Qsum (s_days s))%Q) /\
    (exists m, s_path_mean s = Some m /\ (m * inject_Z (Z.of_nat (s_tracks s)) == Qsum (s_paths s))%Q).
Proof.
  intros P dist tracks pts virtual SM F0 LP. destruct tracks as [|a tr] eqn:ET; [discriminate|]. injection F0 as ->. rewrite <- ET in *.
  assert (NE : tracks <> []) by (rewrite ET; discriminate). assert (FULL : forall t, t <= list_max tracks -> In t tracks) by (rewrite ET in *; now apply smooth_full).
  assert (F0 : nth_error tracks 0 = Some 0) by now rewrite ET. pose proof (smooth_sorted _ SM) as SO. pose proof (grouped_sorted _ SO) as G.
  destruct (combine_split_map tracks pts LP) as [CF CS]. remember (combine tracks pts) as l eqn:DL.
  assert (LL : length l = length tracks) by (pose proof (map_length fst l) as ML; rewrite CF in ML; now symmetry).
  destruct (distance_exact P dist tracks pts NE SO LP (or_intror FULL) (or_intror F0)) as (d & DE & LD & D0 & DV).
  assert (DJ : d = jumps dist l).
  { apply nth_error_ext. intros i. destruct (Nat.ltb_spec i (length tracks)) as [Hi|Hi].
    - destruct (nth_error_lt_Some l i) as [[t p] Hx]; [lia|]. rewrite (jumps_nth dist l i _ Hx). cbn [fst snd].
      pose proof (map_nth_error fst _ _ Hx) as Ht. pose proof (map_nth_error snd _ _ Hx) as Hp. rewrite CF in Ht. rewrite CS in Hp. cbn [fst snd] in Ht, Hp.
      destruct (nth_error l (S i)) as [[t' q]|] eqn:Hy.
      + pose proof (map_nth_error fst _ _ Hy) as Ht'. pose proof (map_nth_error snd _ _ Hy) as Hq. rewrite CF in Ht'. rewrite CS in Hq. cbn [fst snd] in *.
        destruct (DV i p q Hp Hq) as [V1 V2]. destruct (Nat.eqb_spec t t') as [->|N].
        * apply V2. intros [C|[[_ C]|[_ (u & Bu & Nu)]]]; [congruence|congruence|apply Nu, FULL; lia].
        * apply V1. left. congruence.
      + apply nth_error_None in Hy. replace i with (length tracks - 1) by lia. exact D0.
    - rewrite (proj2 (nth_error_None d i)) by lia. symmetry. apply nth_error_None. rewrite jumps_length. lia. }
  destruct (followed_exact tracks NE SO (or_intror FULL)) as (m & FE & LM & MV).
  assert (MJ : m = marks tracks).
  { apply nth_error_ext. intros i. destruct (Nat.ltb_spec i (length tracks)) as [Hi|Hi].
    - destruct (nth_error_lt_Some tracks i Hi) as [t Ht]. rewrite (marks_nth tracks i t Ht). destruct (MV i Hi) as [M1 M2].
      destruct (nth_error tracks (S i)) as [u|] eqn:Hu.
      + destruct (Nat.eqb_spec t u) as [->|N]; [apply M2; intros [C|[_ (v & Bv & Nv)]]; [congruence|apply Nv, FULL; lia]|apply M1; left; congruence].
      + apply M1. left. congruence.
    - rewrite (proj2 (nth_error_None m i)) by lia. symmetry. apply nth_error_None. rewrite marks_length. lia. }
  destruct l as [|x l0]; [rewrite ET in LL; discriminate|]. assert (X0 : fst x = 0) by (rewrite ET in CF; now injection CF as ->).
  assert (SL : smooth (map fst (x :: l0))) by now rewrite CF.
  assert (TM : top (x :: l0) = list_max tracks) by (rewrite (top_max (x :: l0) SL); [now rewrite CF|discriminate]).
  pose proof (days_spec dist l0 x SL) as DS. rewrite X0, TM, Nat.sub_0_r, CF in DS.
  destruct (paths_spec dist l0 x 0%Z 0%Q SL) as (f & r & PE & PF & PR). rewrite X0, TM, Nat.sub_0_r, CF in *. cbn [Z.of_nat Z.eqb] in PF.
  destruct (compute_index_spec tracks NE G) as (index & number & CI & T).
  assert (B : forall t, In t tracks -> t < S (list_max tracks)) by (intros t I; apply list_max_ge in I; lia). pose proof (filter_count _ _ _ _ T B) as N.
  assert (PRES : forall t, In t tracks -> count t tracks <> 0) by (intros t I; unfold count; rewrite <- (count_occ_not_In Nat.eq_dec); tauto).
  assert (ALL : filter (fun k => negb (k =? 0)) number = number).
  { rewrite N. assert (K : forall u, (forall t, In t u -> t <= list_max tracks) -> filter (fun k => negb (k =? 0)) (map (fun t => count t tracks) u) = map (fun t => count t tracks) u).
    { induction u as [|y u IH]; intros Bu; [reflexivity|]. cbn. destruct (Nat.eqb_spec (count y tracks) 0) as [C|_]; [elim (PRES y); [apply FULL, Bu; now left|exact C]|]. cbn. f_equal. apply IH. intros t I. apply Bu. now right. }
    apply K. intros t I. apply in_seq in I. lia. }
  assert (NMIN : exists lo, nmin number = Some lo) by (rewrite N; cbn [seq map nmin]; eauto). assert (NMAX : exists hi, nmax number = Some hi) by (rewrite N; cbn [seq map nmax]; eauto).
  destruct NMIN as [lo LO], NMAX as [hi HI]. eexists. split.
  { unfold summarize. rewrite CI. cbn [bind snd]. rewrite DE. cbn [bind]. rewrite FE. cbn [bind]. rewrite ALL, LO. cbn [bind]. rewrite HI. cbn [bind]. reflexivity. }
  cbn [s_days s_paths s_tracks s_day_mean s_path_mean]. subst d m. change (map (fun x1 : Q => (x1 / 1000)%Q) (jumps dist (x :: l0))) with (scaled dist (x :: l0)).
  unfold Generic_model.cumsum_by_track. rewrite PE. split; [unfold points_of; rewrite <- DL; exact DS|].
  assert (FP : Forall2 Qeq (f :: r) (map (fun t => Qsum (km dist (points_of tracks pts t))) (seq 0 (S (list_max tracks))))).
  { unfold points_of. rewrite <- DL. cbn [seq map]. constructor; [rewrite PF; ring_simplify; reflexivity|exact PR]. }
  split; [exact FP|]. assert (LF : length (f :: r) = length number) by (apply Forall2_len in FP; rewrite FP, map_length, N, map_length; reflexivity).
  split; [exact LF|]. split; [intros ->; reflexivity|]. split.
  - intros mm E. now apply mean_spec.
  - exists (Qsum (f :: r) / inject_Z (Z.of_nat (length (f :: r))))%Q. split; [reflexivity|]. rewrite <- LF. now apply mean_spec.
Qed.
Print Assumptions C153_distances.
Definition line (a b : Q) : Q := (b - a)%Q.
Example C153_ex : exists s, summarize line [0; 0; 0; 1; 2; 2] [0; 1000; 3000; 9000; 0; 4000]%Q [false; true; false; false; false; false] = Some s
  /\ (s_tracks s, s_shorter s, s_longer s, s_filled s) = (3, 1, 3, 1) /\ Forall2 Qeq (s_days s) [1; 2; 4]%Q /\ Forall2 Qeq (s_paths s) [3; 0; 4]%Q /\ smooth [0; 0; 0; 1; 2; 2].
Proof.
  let r := eval vm_compute in (summarize line [0; 0; 0; 1; 2; 2] [0; 1000; 3000; 9000; 0; 4000]%Q [false; true; false; false; false; false]) in match r with Some ?o => exists o end.
  split; [vm_compute; reflexivity|]. split; [reflexivity|]. split; [repeat constructor|]. split; [repeat constructor|]. cbn. intuition.
Qed.

(** With a number of track which is not used, below the greatest one, the last observation
    but one is taken for the end of a track: one distance too many is in the mean of the
    distances by track. *)
Lemma select_length : forall {A} (m : list bool) (l : list A), length l = length m -> length (select m l) = length (filter (fun b => b) m).
Proof. induction m as [|b m IH]; intros [|a l] L; try discriminate; [reflexivity|]. injection L as L. cbn. destruct b; cbn; now rewrite IH. Qed.
Lemma cut_count : forall m k, nth_error m k = Some true -> length (filter (fun b => b) (map negb (upd m k false))) = S (length (filter (fun b => b) (map negb m))).
Proof.
  induction m as [|b m IH]; intros [|k] E; try discriminate; [injection E as ->; reflexivity|]. specialize (IH k E). change (upd (b :: m) (S k) false) with (b :: upd m k false).
  cbn [map filter]. destruct (negb b); cbn [length]; now rewrite IH.
Qed.
Lemma marks_count : forall l, nsorted l -> length (filter (fun b => b) (map negb (marks l))) = length (nodup Nat.eq_dec l).
Proof.
  induction l as [|a l IH]; intros SO; [reflexivity|]. pose proof (nsorted_cons a l SO) as [SL B]. specialize (IH SL). cbn [marks map nodup].
  destruct l as [|b l]; [cbn; reflexivity|]. destruct (Nat.eqb_spec a b) as [->|N].
  - cbn [negb filter]. rewrite IH. destruct (in_dec Nat.eq_dec b (b :: l)) as [|C]; [reflexivity|elim C; now left].
  - cbn [negb filter length]. rewrite IH. destruct (in_dec Nat.eq_dec a (b :: l)) as [C|]; [|reflexivity]. exfalso.
    destruct C as [C|C]; [congruence|]. pose proof (B b (or_introl eq_refl)). pose proof (nsorted_cons b l SL) as [_ B']. specialize (B' a C). lia.
Qed.
Theorem C153_gap_refuted : forall P (dist : P -> P -> Q) tracks pts virtual t n, nsorted tracks -> length pts = length tracks -> length tracks = S (S (S n)) ->
  1 <= t <= list_max tracks -> ~ In t tracks -> nth_error tracks (S n) = nth_error tracks (S (S n)) ->
  exists s, summarize dist tracks pts virtual = Some s /\ length (s_paths s) = S (s_tracks s).
Proof.
  intros P dist tracks pts virtual t n SO LP LN B NI EQ. assert (NE : tracks <> []) by (intros ->; discriminate). pose proof (grouped_sorted _ SO) as G.
  destruct (distance_exact P dist tracks pts NE SO LP ltac:(left; lia) ltac:(left; lia)) as (d & DE & LD & _).
  destruct (followed_exact tracks NE SO ltac:(left; lia)) as (m & FE & LM & MV).
  assert (MJ : m = upd (marks tracks) (S n) false).
  { apply nth_error_ext. intros i. destruct (Nat.ltb_spec i (length tracks)) as [Hi|Hi].
    - destruct (nth_error_lt_Some tracks i Hi) as [u Hu]. destruct (MV i Hi) as [M1 M2]. destruct (Nat.eq_dec i (S n)) as [->|Ni].
      + rewrite nth_error_upd_eq by (rewrite marks_length; lia). apply M1. right. split; [lia|]. exists t. auto.
      + rewrite nth_error_upd_neq by auto. rewrite (marks_nth tracks i u Hu). destruct (nth_error tracks (S i)) as [v|] eqn:Hv.
        * destruct (Nat.eqb_spec u v) as [->|N]; [apply M2; intros [C|[C _]]; [congruence|lia]|apply M1; left; congruence].
        * apply M1. left. congruence.
    - rewrite (proj2 (nth_error_None m i)) by lia. symmetry. apply nth_error_None. rewrite length_upd, marks_length. lia. }
  destruct (compute_index_spec tracks NE G) as (index & number & CI & T).
  assert (BM : forall t, In t tracks -> t < S (list_max tracks)) by (intros u I; apply list_max_ge in I; lia). pose proof (filter_count _ _ _ _ T BM) as N.
  pose proof (present_length tracks _ BM) as PL. rewrite <- N in PL.
  assert (NMIN : exists lo, nmin (filter (fun k => negb (k =? 0)) number) = Some lo).
  { destruct (filter (fun k => negb (k =? 0)) number) eqn:F; [|cbn; eauto]. exfalso. cbn in PL. destruct tracks as [|a r]; [congruence|]. 
    assert (I : In a (nodup Nat.eq_dec (a :: r))) by (apply nodup_In; now left). destruct (nodup Nat.eq_dec (a :: r)); [destruct I|discriminate]. }
  assert (NMAX : exists hi, nmax number = Some hi) by (rewrite N; cbn [seq map nmax]; eauto). destruct NMIN as [lo LO], NMAX as [hi HI].
  eexists. split; [unfold summarize; rewrite CI; cbn [bind snd]; rewrite DE; cbn [bind]; rewrite FE; cbn [bind]; rewrite LO; cbn [bind]; rewrite HI; cbn [bind]; reflexivity|].
  cbn [s_paths s_tracks]. rewrite PL. rewrite select_length.
  - subst m. rewrite cut_count; [now rewrite marks_count|]. destruct (nth_error_lt_Some tracks (S n)) as [u Hu]; [lia|]. rewrite (marks_nth tracks _ _ Hu), <- EQ, Hu. now rewrite Nat.eqb_refl.
  - unfold Generic_model.cumsum_by_track. rewrite Generic_proofs.length_cumsum_from; [|rewrite !map_length; lia]. now rewrite !map_length, LM, LD.
Qed.
Print Assumptions C153_gap_refuted.
Example C153_gap_ex : exists s, summarize line [0; 0; 2; 2] [0; 1000; 0; 6000]%Q [] = Some s /\ Forall2 Qeq (s_paths s) [1; 6; 6]%Q /\ s_tracks s = 2.
Proof.
  let r := eval vm_compute in (summarize line [0; 0; 2; 2] [0; 1000; 0; 6000]%Q []) in match r with Some ?o => exists o end.
  split; [vm_compute; reflexivity|]. split; [repeat constructor|reflexivity].
Qed.

(** A dataset without rows cannot be displayed, nor one which has one row whose number is
    not 0. *)
Theorem C153_raises_refuted : forall P (dist : P -> P -> Q) pts virtual,
  summarize dist [] pts virtual = None /\ forall t p, summarize dist [S t] [p] virtual = None.
Proof.
  intros P dist pts virtual. split; [reflexivity|]. intros t p. unfold summarize.
  destruct (compute_index_spec [S t] ltac:(discriminate) ltac:(intros i j k u A B C D; destruct k as [|[|k]]; [lia|discriminate|discriminate])) as (index & number & CI & (L1 & L2 & TT)).
  rewrite CI. cbn [bind snd]. unfold distance_to_next. rewrite CI. cbn [bind fst steps]. destruct index as [|i0 [|i1 index]]; cbn in L1; [lia|lia|].
  cbn [tl zero_before]. unfold pystore, pyidx. cbn [length]. destruct (Z.leb_spec 0 (i1 - 1)); [destruct (Z.ltb_spec (i1 - 1) (Z.of_nat 0)); [lia|reflexivity]|].
  destruct (Z.leb_spec (- Z.of_nat 0) (i1 - 1)); [lia|reflexivity].
Qed.
Print Assumptions C153_raises_refuted.
