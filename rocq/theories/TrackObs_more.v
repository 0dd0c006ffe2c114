(** Lemmas about the track dataset model, second part: sorted datasets, joins,
    distances, longitudes. *)
From Coq Require Import List Arith ZArith Bool QArith Qabs Qround Lia Lqa.
Import ListNotations.
From Verif Require Import Base Qaux Spec Solver_proofs Corr_model Corr_proofs Corr_merge TrackObs_model TrackObs_spec TrackObs_proofs.
Local Close Scope Q_scope.
Local Open Scope nat_scope.

(** ** Sorted datasets *)
Lemma nsorted_cons : forall a l, nsorted (a :: l) -> nsorted l /\ forall b, In b l -> a <= b.
Proof.
  intros a l S. split.
  - intros i j x y H A B. apply (S (Datatypes.S i) (Datatypes.S j)); auto; lia.
  - intros b H. apply In_nth_error in H as [j Hj]. apply (S 0 (Datatypes.S j)); auto; lia.
Qed.

Lemma nsorted_intro : forall a l, nsorted l -> (forall b, In b l -> a <= b) -> nsorted (a :: l).
Proof.
  intros a l S B i j x y H A C. destruct j; [lia|]. simpl in C. destruct i; simpl in A.
  - injection A as <-. apply B. eapply nth_error_In; eauto.
  - apply (S i j); auto; lia.
Qed.

Lemma sorted_split : forall a l, nsorted l -> (forall b, In b l -> a <= b) ->
  exists rest, l = repeat a (count a l) ++ rest /\ nsorted rest /\ forall b, In b rest -> a < b.
Proof.
  intros a. induction l as [|x l IH]; intros S B.
  - exists []. repeat split; auto. intros b [].
  - destruct (nsorted_cons _ _ S) as [S' B'].
    destruct (Nat.eq_dec x a) as [->|N].
    + destruct IH as (rest & E & R1 & R2); auto.
      exists rest. split; auto. rewrite count_cons, Nat.eqb_refl. simpl. now rewrite <- E.
    + exists (x :: l). assert (count a (x :: l) = 0).
      { apply count_0. intros [H|H]; [auto|]. apply B' in H. specialize (B x (or_introl eq_refl)). lia. }
      rewrite H. split; [reflexivity|]. split; auto. intros b [<-|H1].
      * specialize (B x (or_introl eq_refl)). lia.
      * apply B' in H1. specialize (B x (or_introl eq_refl)). lia.
Qed.

Lemma count_repeat : forall a b k, count a (repeat b k) = if b =? a then k else 0.
Proof.
  intros a b. induction k; [simpl; destruct (b =? a); reflexivity|].
  cbn [repeat]. rewrite count_cons, IHk. destruct (b =? a); reflexivity.
Qed.

Lemma repeat_sorted : forall s a l, nsorted l -> (forall t, In t l -> a <= t < a + s) ->
  repeat_by (seq a s) (map (fun t => count t l) (seq a s)) = l.
Proof.
  induction s as [|s IH]; intros a l S B.
  - destruct l as [|x l]; auto. specialize (B x (or_introl eq_refl)). lia.
  - destruct (sorted_split a l S) as (rest & E & R1 & R2); [intros b H; apply B; auto|].
    cbn [seq map repeat_by]. transitivity (repeat a (count a l) ++ rest); [|symmetry; exact E]. f_equal.
    rewrite <- (IH (Datatypes.S a) rest R1).
    + f_equal.
      apply map_ext_in. intros t Ht. apply in_seq in Ht. rewrite E.
      rewrite count_app, count_repeat. destruct (Nat.eqb_spec a t); [lia|].
      reflexivity.
    + intros t H. pose proof (R2 t H). assert (In t l) by (rewrite E; apply in_or_app; auto).
      apply B in H1. lia.
Qed.

Lemma repeat_by_map : forall {A B} (f : A -> B) l nb, repeat_by (map f l) nb = map f (repeat_by l nb).
Proof.
  induction l as [|a l IH]; intros [|n nb]; simpl; auto.
  rewrite map_app, IH. f_equal. induction n; simpl; f_equal; auto.
Qed.

Lemma number_counts : forall s tracks index number, tables s tracks index number ->
  number = map (fun t => count t tracks) (seq 0 s).
Proof.
  intros s tracks index number (L1 & L2 & T). apply nth_error_ext. intros t.
  rewrite nth_error_map, nth_error_seq. destruct (Nat.ltb_spec t s).
  - cbn. apply T. exact H.
  - cbn. apply nth_error_None. lia.
Qed.

(** A per-track value repeated over the observations. *)
Lemma repeat_tracks : forall {A} s tracks index number (v : list A),
  nsorted tracks -> (forall t, In t tracks -> t < s) -> tables s tracks index number -> length v = s ->
  length (repeat_by v number) = length tracks /\
  forall i t, nth_error tracks i = Some t -> nth_error (repeat_by v number) i = nth_error v t.
Proof.
  intros A s tracks index number v S B T L.
  pose proof (number_counts _ _ _ _ T) as EN.
  pose proof (repeat_sorted s 0 tracks S ltac:(intros t H; apply B in H; lia)) as E. rewrite <- EN in E.
  assert (K : map Some v = map (nth_error v) (seq 0 s)).
  { apply nth_error_ext. intros i. rewrite !nth_error_map, nth_error_seq.
    destruct (Nat.ltb_spec i s).
    - destruct (nth_error_lt_Some v i) as [x Hx]; [lia|]. cbn. rewrite Hx. reflexivity.
    - rewrite (proj2 (nth_error_None v i)) by lia. reflexivity. }
  assert (M : map Some (repeat_by v number) = map (nth_error v) tracks).
  { rewrite <- repeat_by_map, K, repeat_by_map, E. reflexivity. }
  split.
  - rewrite <- (map_length Some), M, map_length. reflexivity.
  - intros i t Hi. assert (X : nth_error (map Some (repeat_by v number)) i = Some (nth_error v t)).
    { rewrite M, nth_error_map, Hi. reflexivity. }
    rewrite nth_error_map in X. destruct (nth_error (repeat_by v number) i); cbn in X; congruence.
Qed.

Lemma sorted_tables : forall tracks, tracks <> [] -> nsorted tracks ->
  exists index number, compute_index tracks = Some (index, number) /\
    tables (S (list_max tracks)) tracks index number.
Proof. intros. apply compute_index_spec; auto. apply grouped_sorted; auto. Qed.

Lemma below_max : forall tracks t, In t tracks -> t < S (list_max tracks).
Proof. intros. apply list_max_ge in H. lia. Qed.

(** ** Length selection *)
Lemma length_mask_spec : forall tracks b0 b1,
  nsorted tracks -> (0 <= b0 \/ b0 = -1 /\ 0 <= b1)%Z ->
  exists m, length_mask tracks b0 b1 = Some m /\
    mask_is m (length tracks) (fun i => exists t, nth_error tracks i = Some t /\
      (b0 = -1 \/ b0 <= Z.of_nat (count t tracks))%Z /\ (b1 = -1 \/ Z.of_nat (count t tracks) <= b1)%Z).
Proof.
  intros tracks b0 b1 S V. unfold length_mask. destruct tracks as [|a l] eqn:E.
  - exists []. split; auto. split; auto. simpl. intros; lia.
  - rewrite <- E in *. assert (NE : tracks <> []) by congruence. clear E.
    destruct (sorted_tables tracks NE S) as (index & number & -> & T). cbn [bind snd].
    pose proof T as (L1 & L2 & TT).
    assert (F : forall f : nat -> bool,
      mask_is (repeat_by (map f number) number) (length tracks)
        (fun i => exists t, nth_error tracks i = Some t /\ f (count t tracks) = true)).
    { intros f. destruct (repeat_tracks _ _ _ _ (map f number) S (below_max tracks) T) as [R1 R2].
      { rewrite map_length. exact L2. }
      split; auto. intros i Hi. destruct (nth_error_lt_Some tracks i Hi) as [t Ht].
      rewrite (R2 i t Ht), nth_error_map.
      destruct (TT t (below_max _ _ (nth_error_In _ _ Ht))) as [-> _]. cbn. split.
      - intros H. exists t. split; congruence.
      - intros (t' & H1 & H2). rewrite Ht in H1. apply Some_inj in H1. subst t'. f_equal. exact H2. }
    assert (W : forall m (P P' : nat -> Prop), (forall i, P i <-> P' i) -> mask_is m (length tracks) P -> mask_is m (length tracks) P').
    { intros m P P' HP [X Y]. split; auto. intros i Hi. rewrite (Y i Hi). apply HP. }
    destruct (Z.leb_spec 0 b0); cbn [andb].
    + destruct (Z.eqb_spec b1 (-1)); cbn [negb andb].
      * destruct (Z.eqb_spec b0 (-1)); cbn [andb]; [lia|].
        eexists. split; [reflexivity|]. eapply W; [|apply F]. intros i. cbn beta.
        split; intros (t & H1 & H2); exists t; (split; [exact H1|]).
        -- apply Z.leb_le in H2. lia.
        -- apply Z.leb_le. lia.
      * eexists. split; [reflexivity|]. eapply W; [|apply F]. intros i. cbn beta.
        split; intros (t & H1 & H2); exists t; (split; [exact H1|]).
        -- apply andb_true_iff in H2 as [H2 H3]. apply Z.leb_le in H2. apply Z.leb_le in H3. lia.
        -- apply andb_true_iff. split; apply Z.leb_le; lia.
    + destruct (Z.eqb_spec b0 (-1)); [|lia]. destruct (Z.leb_spec 0 b1); [|lia]. cbn [andb].
      eexists. split; [reflexivity|]. eapply W; [|apply F]. intros i. cbn beta.
      split; intros (t & H1 & H2); exists t; (split; [exact H1|]).
      * apply Z.leb_le in H2. lia.
      * apply Z.leb_le. lia.
Qed.

Lemma length_mask_error : forall tracks b0 b1, tracks <> [] -> grouped tracks ->
  ~ (0 <= b0 \/ b0 = -1 /\ 0 <= b1)%Z -> length_mask tracks b0 b1 = None.
Proof.
  intros tracks b0 b1 NE G V. unfold length_mask. destruct tracks as [|a l] eqn:E; [congruence|].
  rewrite <- E in *. destruct (compute_index_spec tracks ltac:(congruence) G) as (index & number & -> & _).
  cbn [bind snd]. destruct (Z.leb_spec 0 b0); [tauto|]. cbn [andb].
  destruct (Z.eqb_spec b0 (-1)); cbn [andb]; [|reflexivity].
  destruct (Z.leb_spec 0 b1); [tauto|reflexivity].
Qed.

(** ** Periods *)
Definition is_min (l : list Z) (m : Z) : Prop := In m l /\ forall t, In t l -> (m <= t)%Z.
Definition is_max (l : list Z) (m : Z) : Prop := In m l /\ forall t, In t l -> (t <= m)%Z.

Lemma fold_min_spec : forall l a, (In (fold_left Z.min l a) (a :: l)) /\ forall t, In t (a :: l) -> (fold_left Z.min l a <= t)%Z.
Proof.
  induction l as [|b l IH]; intros a; cbn [fold_left].
  - split; [left; reflexivity|]. intros t [<-|[]]. lia.
  - destruct (IH (Z.min a b)) as [I J]. split.
    + destruct I as [I|I].
      * rewrite <- I. destruct (Z.min_spec a b) as [[_ ->]|[_ ->]]; [left; auto|right; left; auto].
      * right. right. exact I.
    + pose proof (J _ (or_introl eq_refl)). intros t [<-|[<-|H1]]; [lia|lia|]. apply J. right. exact H1.
Qed.
Lemma fold_max_spec : forall l a, (In (fold_left Z.max l a) (a :: l)) /\ forall t, In t (a :: l) -> (t <= fold_left Z.max l a)%Z.
Proof.
  induction l as [|b l IH]; intros a; cbn [fold_left].
  - split; [left; reflexivity|]. intros t [<-|[]]. lia.
  - destruct (IH (Z.max a b)) as [I J]. split.
    + destruct I as [I|I].
      * rewrite <- I. destruct (Z.max_spec a b) as [[_ ->]|[_ ->]]; [right; left; auto|left; auto].
      * right. right. exact I.
    + pose proof (J _ (or_introl eq_refl)). intros t [<-|[<-|H1]]; [lia|lia|]. apply J. right. exact H1.
Qed.
Lemma zmin_spec : forall l m, is_min l m -> zmin_list l = m.
Proof.
  intros [|a l] m [I J]; [destruct I|]. unfold zmin_list. destruct (fold_min_spec l a) as [I' J'].
  apply J in I'. apply J' in I. lia.
Qed.
Lemma zmax_spec : forall l m, is_max l m -> zmax_list l = m.
Proof.
  intros [|a l] m [I J]; [destruct I|]. unfold zmax_list. destruct (fold_max_spec l a) as [I' J'].
  apply J in I'. apply J' in I. lia.
Qed.

Lemma combine_map_same : forall {A B C} (f : A -> B) (g : A -> C) l,
  combine (map f l) (map g l) = map (fun a => (f a, g a)) l.
Proof. induction l; simpl; congruence. Qed.

Lemma period_mask_map : forall time p_min p_max,
  period_mask time p_min p_max =
  map (fun t =>
    (if (0 <? p_min)%Z then (p_min <=? t)%Z
     else if (p_min <? 0)%Z then (zmin_list time - p_min <=? t)%Z else true) &&
    (if (0 <? p_max)%Z then (t <=? p_max)%Z
     else if (p_max <? 0)%Z then (t <=? zmax_list time + p_max)%Z else true)) time.
Proof.
  intros time p_min p_max. unfold period_mask.
  set (f := fun t : Z => if (0 <? p_min)%Z then (p_min <=? t)%Z
     else if (p_min <? 0)%Z then (zmin_list time - p_min <=? t)%Z else true).
  set (m0 := if (0 <? p_min)%Z then _ else _).
  assert (E : m0 = map f time).
  { unfold m0, f. destruct (0 <? p_min)%Z; [reflexivity|]. destruct (p_min <? 0)%Z; [reflexivity|].
    clear. induction time; simpl; congruence. }
  rewrite E. destruct (0 <? p_max)%Z.
  - rewrite combine_map_same, map_map. reflexivity.
  - destruct (p_max <? 0)%Z.
    + rewrite combine_map_same, map_map. reflexivity.
    + apply map_ext. intros t. rewrite andb_true_r. reflexivity.
Qed.

Lemma period_mask_spec : forall time p_min p_max lo hi,
  is_min time lo -> is_max time hi ->
  mask_is (period_mask time p_min p_max) (length time) (fun i => exists t, nth_error time i = Some t /\
    ((0 < p_min -> p_min <= t) /\ (p_min < 0 -> lo + Z.abs p_min <= t) /\
     (0 < p_max -> t <= p_max) /\ (p_max < 0 -> t <= hi - Z.abs p_max))%Z).
Proof.
  intros time p_min p_max lo hi Lo Hi. rewrite period_mask_map, (zmin_spec _ _ Lo), (zmax_spec _ _ Hi).
  split; [apply map_length|]. intros i H. destruct (nth_error_lt_Some time i H) as [t Ht].
  rewrite nth_error_map, Ht. cbn [option_map]. split.
  - intros E. apply Some_inj in E. exists t. split; [reflexivity|]. apply andb_true_iff in E as [E1 E2].
    destruct (Z.ltb_spec 0 p_min), (Z.ltb_spec 0 p_max), (Z.ltb_spec p_min 0), (Z.ltb_spec p_max 0); try lia;
      try apply Z.leb_le in E1; try apply Z.leb_le in E2; lia.
  - intros (t' & E & B). apply Some_inj in E. subst t'. f_equal. apply andb_true_iff.
    destruct (Z.ltb_spec 0 p_min), (Z.ltb_spec 0 p_max), (Z.ltb_spec p_min 0), (Z.ltb_spec p_max 0); try lia;
      split; try reflexivity; apply Z.leb_le; lia.
Qed.

(** ** Joins *)
Definition offset {A} (obs : list (list nat * list A)) (d : nat) : nat :=
  length (concat (map fst (firstn d obs))).

Lemma concatenate_loop_spec : forall {A} (obs : list (list nat * list A)) last,
  (forall o, In o obs -> fst o <> []) ->
  exists tr, concatenate_loop last obs = Some (tr, concat (map snd obs)) /\
    length tr = length (concat (map fst obs)) /\
    (forall t, In t tr -> last <= t) /\
    forall d d' o o' i i' a b,
      nth_error obs d = Some o -> nth_error obs d' = Some o' ->
      nth_error (fst o) i = Some a -> nth_error (fst o') i' = Some b ->
      exists a' b', nth_error tr (offset obs d + i) = Some a' /\ nth_error tr (offset obs d' + i') = Some b' /\
        (a' = b' <-> d = d' /\ a = b).
Proof.
  intros A. induction obs as [|[tr0 rw0] obs IH]; intros last NE.
  - exists []. repeat split; auto. intros t []. intros d d' o o' i i' a b H. destruct d; discriminate.
  - cbn [concatenate_loop].
    assert (N0 : tr0 <> []) by (apply (NE (tr0, rw0)); left; reflexivity).
    set (nt := map (fun t => t + last) tr0).
    assert (Nn : nt <> []) by (unfold nt; destruct tr0; [congruence|discriminate]).
    destruct (IH (S (list_max nt))) as (tr & E & L & B & J); [intros; apply NE; right; assumption|].
    assert (X : match nt with [] => None | _ :: _ =>
        let! r := concatenate_loop (S (list_max nt)) obs in Some (nt ++ fst r, rw0 ++ snd r) end
        = Some (nt ++ tr, rw0 ++ concat (map snd obs))).
    { destruct nt as [|x nt'] eqn:EN; [congruence|]. rewrite <- EN in *. rewrite E. reflexivity. }
    rewrite X. exists (nt ++ tr). split; [reflexivity|].
    assert (LN : length nt = length tr0) by apply map_length.
    split; [simpl; rewrite !app_length, L, LN; reflexivity|].
    split.
    + intros t H. apply in_app_or in H as [H|H].
      * apply in_map_iff in H as (u & <- & _). lia.
      * apply B in H. destruct tr0 as [|u tr0]; [congruence|].
        assert (In (u + last) nt) by (left; reflexivity). apply list_max_ge in H0. lia.
    + assert (H0 : forall i a, nth_error tr0 i = Some a -> nth_error (nt ++ tr) i = Some (a + last) /\ a + last <= list_max nt).
      { intros i a H. assert (i < length tr0) by (eapply nth_error_Some_lt; eauto).
        assert (Y : nth_error nt i = Some (a + last)) by (unfold nt; rewrite nth_error_map, H; reflexivity).
        split; [rewrite nth_error_app1 by lia; exact Y|]. apply list_max_ge. eapply nth_error_In; eauto. }
      assert (HS : forall d o i a, nth_error obs d = Some o -> nth_error (fst o) i = Some a ->
                 exists a', nth_error tr (offset obs d + i) = Some a' /\
                 nth_error (nt ++ tr) (offset ((tr0, rw0) :: obs) (S d) + i) = Some a' /\ list_max nt < a').
      { intros d o i a H1 H2. destruct (J d d o o i i a a H1 H1 H2 H2) as (a' & _ & Ha & _).
        exists a'. split; auto. split.
        - unfold offset. cbn [firstn map fst concat]. rewrite app_length.
          rewrite nth_error_app2 by lia. fold (offset obs d).
          replace (length tr0 + offset obs d + i - length nt) with (offset obs d + i) by lia. exact Ha.
        - apply nth_error_In in Ha. apply B in Ha. lia. }
      intros d d' o o' i i' a b Hd Hd' Hi Hi'.
      destruct d as [|d], d' as [|d']; cbn [nth_error] in Hd, Hd'.
      * injection Hd as <-. injection Hd' as <-. cbn [fst] in *.
        destruct (H0 _ _ Hi) as [P1 _]. destruct (H0 _ _ Hi') as [P2 _].
        exists (a + last), (b + last). unfold offset. cbn [firstn map concat length]. simpl.
        split; auto. split; auto. lia.
      * injection Hd as <-. cbn [fst] in *. destruct (H0 _ _ Hi) as [P1 P2].
        destruct (HS _ _ _ _ Hd' Hi') as (b' & _ & P3 & P4).
        exists (a + last), b'. split; [exact P1|]. split; [exact P3|]. split; [lia|]. intros [X1 _]. lia.
      * injection Hd' as <-. cbn [fst] in *. destruct (H0 _ _ Hi') as [P1 P2].
        destruct (HS _ _ _ _ Hd Hi) as (a' & _ & P3 & P4).
        exists a', (b + last). split; [exact P3|]. split; [exact P1|]. split; [lia|]. intros [X1 _]. lia.
      * destruct (HS _ _ _ _ Hd Hi) as (a1 & Q1 & P1 & _).
        destruct (HS _ _ _ _ Hd' Hi') as (b1 & Q2 & P2 & _).
        destruct (J _ _ _ _ _ _ _ _ Hd Hd' Hi Hi') as (a' & b' & K1 & K2 & K3).
        exists a1, b1. split; auto. split; auto.
        assert (a1 = a') by congruence. assert (b1 = b') by congruence. subst.
        rewrite K3. split; intros [? ?]; split; auto; lia.
Qed.

Lemma merge_tracks_spec : forall a b, a <> [] -> nsorted a ->
  exists r, merge_tracks a b = Some r /\ length r = length a + length b /\
    (forall i, i < length a -> nth_error r i = nth_error a i) /\
    (forall i t, nth_error b i = Some t -> exists t', nth_error r (length a + i) = Some t' /\
       (forall j u, nth_error a j = Some u -> u <> t') /\
       forall j u u', nth_error b j = Some u -> nth_error r (length a + j) = Some u' -> (u' = t' <-> u = t)).
Proof.
  intros a b NE S. unfold merge_tracks.
  destruct (nth_error_lt_Some a (length a - 1)) as [l Hl]. { destruct a; [congruence|simpl; lia]. }
  assert (E : pyget (a ++ b) (Z.of_nat (length a) - 1) = Some l).
  { unfold pyget, pyidx. assert (length a <> 0) by (destruct a; [congruence|discriminate]).
    rewrite app_length. destruct (Z.leb_spec 0 (Z.of_nat (length a) - 1)); [|lia].
    destruct (Z.ltb_spec (Z.of_nat (length a) - 1) (Z.of_nat (length a + length b))); [|lia].
    cbn [bind]. replace (Z.to_nat (Z.of_nat (length a) - 1)) with (length a - 1) by lia.
    rewrite nth_error_app1 by lia. exact Hl. }
  rewrite E. cbn [bind]. eexists. split; [reflexivity|].
  split; [rewrite app_length, map_length; reflexivity|].
  assert (V : forall j u, nth_error b j = Some u ->
     nth_error (a ++ map (fun t => t + Datatypes.S l) b) (length a + j) = Some (u + Datatypes.S l)).
  { intros j u H. rewrite nth_error_app2 by lia. replace (length a + j - length a) with j by lia.
    rewrite nth_error_map, H. reflexivity. }
  split; [intros i H; apply nth_error_app1; exact H|].
  intros i t H. exists (t + Datatypes.S l). split; [apply V; exact H|]. split.
  - intros j u Hj. assert (Lj : j < length a) by (eapply nth_error_Some_lt; eauto).
    destruct (Nat.eq_dec j (length a - 1)) as [->|N].
    + rewrite Hl in Hj. apply Some_inj in Hj. lia.
    + pose proof (S j (length a - 1) u l ltac:(lia) Hj Hl). lia.
  - intros j u u' Hj Hr. rewrite (V j u Hj) in Hr. apply Some_inj in Hr. lia.
Qed.

(** ** Distances *)
Lemma pyidx_neg : forall n z, (z < 0)%Z ->
  pyidx n z = if (- Z.of_nat n <=? z)%Z then Some (Z.to_nat (z + Z.of_nat n)) else None.
Proof. intros. unfold pyidx. destruct (Z.leb_spec 0 z); [lia|reflexivity]. Qed.
Section Distance.
Variables (P : Type) (dist : P -> P -> Q).

Lemma steps_spec : forall pts : list P,
  length (steps P dist pts) = length pts - 1 /\
  forall i p q, nth_error pts i = Some p -> nth_error pts (S i) = Some q ->
    nth_error (steps P dist pts) i = Some (dist p q).
Proof.
  induction pts as [|a pts [L IH]].
  - split; [reflexivity|]. intros [|i]; discriminate.
  - destruct pts as [|b pts].
    + split; [reflexivity|]. intros [|i] p q H1 H2; [discriminate|]. destruct i; discriminate.
    + change (steps P dist (a :: b :: pts)) with (dist a b :: steps P dist (b :: pts)). split.
      * cbn [length]. rewrite L. simpl. lia.
      * intros [|i] p q H1 H2.
        -- injection H1 as <-. injection H2 as <-. reflexivity.
        -- apply IH; assumption.
Qed.

Lemma zero_before_spec : forall ix (d : list Q),
  (forall z, In z ix -> exists i, pyidx (length d) (z - 1) = Some i) ->
  exists r, zero_before d ix = Some r /\ length r = length d /\
    forall i, i < length d ->
      ((exists z, In z ix /\ pyidx (length d) (z - 1) = Some i) -> nth_error r i = Some 0%Q) /\
      (~ (exists z, In z ix /\ pyidx (length d) (z - 1) = Some i) -> nth_error r i = nth_error d i).
Proof.
  induction ix as [|z ix IH]; intros d V.
  - exists d. split; [reflexivity|]. split; [reflexivity|]. intros i Hi. split; [intros (z & [] & _)|auto].
  - cbn [zero_before]. destruct (V z (or_introl eq_refl)) as [k Hk].
    assert (Lk : k < length d).
    { unfold pyidx in Hk. destruct (0 <=? z - 1)%Z eqn:E1.
      - destruct (z - 1 <? Z.of_nat (length d))%Z eqn:E2; [|discriminate]. injection Hk as <-.
        apply Z.ltb_lt in E2. apply Z.leb_le in E1. lia.
      - destruct (- Z.of_nat (length d) <=? z - 1)%Z eqn:E2; [|discriminate]. injection Hk as <-.
        apply Z.leb_le in E2. apply Z.leb_gt in E1. lia. }
    unfold pystore. rewrite Hk. cbn [bind]. unfold store. destruct (Nat.ltb_spec k (length d)); [|lia]. cbn [bind].
    destruct (IH (upd d k 0%Q)) as (r & R & L & S).
    { rewrite length_upd. intros z' Hz. apply V. right. exact Hz. }
    rewrite length_upd in *. exists r. split; [exact R|]. split; [exact L|].
    intros i Hi. destruct (S i Hi) as [S1 S2].
    assert (D : (exists z, In z ix /\ pyidx (length d) (z - 1) = Some i) \/ ~ (exists z, In z ix /\ pyidx (length d) (z - 1) = Some i)).
    { clear. induction ix as [|y ix IH]; [right; intros (y & [] & _)|].
      destruct IH as [(y' & I & E)|N]; [left; exists y'; split; [right|]; auto|].
      destruct (pyidx (length d) (y - 1)) as [k|] eqn:E.
      - destruct (Nat.eq_dec k i) as [->|Nk]; [left; exists y; split; [left|]; auto|].
        right. intros (y' & [<-|I] & E'); [congruence|]. apply N. eauto.
      - right. intros (y' & [<-|I] & E'); [congruence|]. apply N. eauto. }
    split.
    + intros (z' & I & E). destruct D as [D|D]; [auto|]. rewrite (S2 D).
      destruct I as [<-|I]; [|exfalso; eauto]. assert (k = i) by congruence. subst. apply nth_error_upd_eq; lia.
    + intros N. rewrite S2.
      * apply nth_error_upd_neq. intros ->. apply N. exists z. split; [left|]; auto.
      * intros (z' & I & E). apply N. exists z'. split; [right|]; auto.
Qed.

(** Exact set of the zeroed steps. *)
Definition cut_after (tracks : list nat) (i : nat) : Prop :=
  nth_error tracks i <> nth_error tracks (S i) \/
  (i + 2 = length tracks /\ nth_error tracks 0 <> Some 0) \/
  (i + 3 = length tracks /\ exists t, 1 <= t <= list_max tracks /\ ~ In t tracks).

Lemma distance_exact : forall tracks (pts : list P),
  tracks <> [] -> nsorted tracks -> length pts = length tracks ->
  (3 <= length tracks \/ forall t, t <= list_max tracks -> In t tracks) ->
  (2 <= length tracks \/ nth_error tracks 0 = Some 0) ->
  exists d, distance_to_next P dist tracks pts = Some d /\ length d = length tracks /\
    nth_error d (length tracks - 1) = Some 0%Q /\
    forall i p q, nth_error pts i = Some p -> nth_error pts (S i) = Some q ->
      (cut_after tracks i -> nth_error d i = Some 0%Q) /\
      (~ cut_after tracks i -> nth_error d i = Some (dist p q)).
Proof.
  intros tracks pts NE SO LP H3 H2. unfold distance_to_next.
  pose proof (grouped_sorted _ SO) as G.
  destruct (compute_index_spec tracks NE G) as (index & number & -> & T). cbn [bind fst].
  destruct (steps_spec pts) as [LS SS]. rewrite LP in LS.
  pose proof T as (L1 & L2 & TT).
  assert (LT : 1 <= length tracks) by (destruct tracks; [congruence|simpl; lia]).
  set (n := length tracks) in *.
  (* members of tl index *)
  assert (TL : forall z, In z (tl index) <-> exists t, 1 <= t <= list_max tracks /\ nth_error index t = Some z).
  { intros z. destruct index as [|i0 index]; [simpl in L1; lia|]. cbn [tl]. split.
    - intros I. apply In_nth_error in I as [k Hk]. exists (S k). split; auto.
      apply nth_error_Some_lt in Hk. simpl in L1. lia.
    - intros (t & B & E). destruct t as [|t]; [lia|]. simpl in E. eapply nth_error_In; eauto. }
  (* value of an entry *)
  assert (VAL : forall t z, t <= list_max tracks -> nth_error index t = Some z ->
            (~ In t tracks /\ z = -1)%Z \/
            (exists f, z = Z.of_nat f /\ nth_error tracks f = Some t /\ (f = 0 \/ nth_error tracks (f - 1) <> Some t))).
  { intros t z B E. destruct (TT t ltac:(lia)) as (N & f & F1 & F2 & F2' & F3).
    rewrite E in F1. apply Some_inj in F1. subst f.
    destruct (Nat.eq_dec (count t tracks) 0) as [C|C].
    - left. split; [apply count_0; exact C|auto].
    - right. specialize (F2' C). exists (Z.to_nat z). split; [lia|]. split; [apply F3; lia|].
      destruct (Nat.eq_dec (Z.to_nat z) 0); [left; auto|right]. intros X. apply F3 in X. lia. }
  (* position zeroed by an entry *)
  assert (POS : forall t z i, 1 <= t <= list_max tracks -> nth_error index t = Some z ->
     pyidx (n - 1) (z - 1) = Some i -> cut_after tracks i).
  { intros t z i B E PI. destruct (VAL t z ltac:(lia) E) as [[N ->]|(f & -> & F1 & F2)].
    - rewrite pyidx_neg in PI by lia. destruct (Z.leb_spec (- Z.of_nat (n - 1)) (-1 - 1)); [|discriminate].
      apply Some_inj in PI; subst i. right. right. split; [clear -H LT; subst n; lia|]. exists t. split; auto.
    - destruct f as [|f].
      + rewrite pyidx_neg in PI by lia. destruct (Z.leb_spec (- Z.of_nat (n - 1)) (Z.of_nat 0 - 1)); [|discriminate].
        apply Some_inj in PI; subst i. right. left. split; [clear -H LT; subst n; lia|]. rewrite F1. intros X. apply Some_inj in X. lia.
      + unfold pyidx in PI. replace (Z.of_nat (S f) - 1)%Z with (Z.of_nat f) in PI by lia.
        destruct (Z.leb_spec 0 (Z.of_nat f)); [|lia].
        destruct (Z.ltb_spec (Z.of_nat f) (Z.of_nat (n - 1))); [|discriminate]. apply Some_inj in PI; subst i.
        rewrite Nat2Z.id. left. rewrite F1. destruct F2 as [F2|F2]; [lia|].
        replace (S f - 1) with f in F2 by lia. exact F2. }
  destruct (zero_before_spec (tl index) (steps P dist pts)) as (r & R & LR & RR).
  { rewrite LS. intros z Hz. apply TL in Hz as (t & B & E).
    destruct (VAL t z ltac:(lia) E) as [[N ->]|(f & -> & F1 & F2)].
    - destruct H3 as [H3|H3]; [|exfalso; apply N, H3; lia].
      exists (n - 3). rewrite pyidx_neg by lia. destruct (Z.leb_spec (- Z.of_nat (n - 1)) (-1 - 1)); [|lia]. f_equal. lia.
    - destruct f as [|f].
      + destruct H2 as [H2|H2]; [|rewrite H2 in F1; apply Some_inj in F1; lia].
        exists (n - 2). rewrite pyidx_neg by lia. destruct (Z.leb_spec (- Z.of_nat (n - 1)) (Z.of_nat 0 - 1)); [|lia]. f_equal. lia.
      + exists f. unfold pyidx. replace (Z.of_nat (S f) - 1)%Z with (Z.of_nat f) by lia.
        apply nth_error_Some_lt in F1. fold n in F1.
        destruct (Z.leb_spec 0 (Z.of_nat f)); [|lia].
        destruct (Z.ltb_spec (Z.of_nat f) (Z.of_nat (n - 1))); [|lia]. f_equal. lia. }
  rewrite R. cbn [bind]. exists (r ++ [0%Q]). rewrite LS in *.
  split; [reflexivity|]. split; [rewrite app_length; simpl; lia|].
  split; [rewrite nth_error_app2 by lia; replace (n - 1 - length r) with 0 by lia; reflexivity|].
  intros i p q Hp Hq. assert (Hi : i < n - 1).
  { apply nth_error_Some_lt in Hq. lia. }
  rewrite nth_error_app1 by lia. destruct (RR i Hi) as [R1 R2]. split.
  - intros C. apply R1. destruct C as [C|[[C1 C2]|[C1 (t & C2 & C3)]]].
    + destruct (nth_error_lt_Some tracks (S i)) as [t Ht]; [fold n; lia|].
      assert (B : t <= list_max tracks) by (apply list_max_ge; eapply nth_error_In; eauto).
      destruct (TT t ltac:(lia)) as (N & f & F1 & F2 & F2' & F3).
      assert (C0 : count t tracks <> 0) by (intros X; apply count_0 in X; apply X; eapply nth_error_In; eauto).
      specialize (F2' C0). pose proof (proj1 (F3 _) Ht) as B1.
      assert (f = Z.of_nat (S i)).
      { destruct (Z.eq_dec f (Z.of_nat (S i))); auto.
        assert (nth_error tracks i = Some t) by (apply F3; lia). congruence. }
      destruct (Nat.eq_dec t 0) as [->|Nt].
      * exfalso. destruct (nth_error_lt_Some tracks i) as [u Hu]; [fold n; lia|].
        pose proof (SO i (S i) u 0 ltac:(lia) Hu Ht). assert (u = 0) by lia. congruence.
      * exists f. split; [apply TL; exists t; split; [lia|auto]|].
        subst f. unfold pyidx. replace (Z.of_nat (S i) - 1)%Z with (Z.of_nat i) by lia.
        destruct (Z.leb_spec 0 (Z.of_nat i)); [|lia].
        destruct (Z.ltb_spec (Z.of_nat i) (Z.of_nat (n - 1))); [|lia]. f_equal. lia.
    + (* the first track is not 0 *)
      destruct (nth_error_lt_Some tracks 0) as [t Ht]; [fold n; lia|].
      assert (Nt : t <> 0) by congruence.
      assert (B : t <= list_max tracks) by (apply list_max_ge; eapply nth_error_In; eauto).
      destruct (TT t ltac:(lia)) as (N & f & F1 & F2 & F2' & F3).
      pose proof (proj1 (F3 _) Ht) as B1.
      assert (C0 : count t tracks <> 0) by (intros X; apply count_0 in X; apply X; eapply nth_error_In; eauto).
      specialize (F2' C0). assert (f = 0%Z) by lia. subst f.
      exists 0%Z. split; [apply TL; exists t; split; [lia|auto]|].
      rewrite pyidx_neg by lia. destruct (Z.leb_spec (- Z.of_nat (n - 1)) (0 - 1)); [|lia]. f_equal. lia.
    + destruct (TT t ltac:(lia)) as (N & f & F1 & F2 & F2' & F3).
      rewrite (F2 (proj2 (count_0 _ _) C3)) in F1.
      exists (-1)%Z. split; [apply TL; exists t; split; [lia|auto]|].
      rewrite pyidx_neg by lia. destruct (Z.leb_spec (- Z.of_nat (n - 1)) (-1 - 1)); [|lia]. f_equal. lia.
  - intros C. rewrite R2; [apply SS; auto|].
    intros (z & I & E). apply TL in I as (t & B & E'). apply C. eapply POS; eauto.
Qed.
End Distance.

(** ** Ends of a track *)
Lemma track_ends : forall s tracks index number i t, tables s tracks index number ->
  nth_error tracks i = Some t -> t < s ->
  exists f l, nth_error index t = Some (Z.of_nat f) /\ nth_error number t = Some (l + 1 - f) /\ f <= l /\
    first_of tracks i f /\ last_of tracks i l.
Proof.
  intros s tracks index number i t (_ & _ & TT) Hi Ht.
  destruct (TT t Ht) as (N & f & F1 & F2 & F2' & F3).
  assert (C : count t tracks <> 0) by (intros X; apply count_0 in X; apply X; eapply nth_error_In; eauto).
  specialize (F2' C). exists (Z.to_nat f), (Z.to_nat f + count t tracks - 1).
  assert (E : forall j, nth_error tracks j = Some t <-> (Z.to_nat f <= j < Z.to_nat f + count t tracks)).
  { intros j. rewrite F3. lia. }
  assert (A : nth_error tracks (Z.to_nat f) = Some t) by (apply E; lia).
  assert (B : nth_error tracks (Z.to_nat f + count t tracks - 1) = Some t) by (apply E; lia).
  split; [rewrite F1; f_equal; lia|]. split; [rewrite N; f_equal; lia|]. split; [lia|].
  split; (split; [congruence|]); (split; [eapply nth_error_Some_lt; eauto|]).
  - intros j Hj. rewrite Hi in Hj. apply E in Hj. lia.
  - intros j _ Hj. rewrite Hi in Hj. apply E in Hj. lia.
Qed.

Lemma first_of_unique : forall tracks i f g, first_of tracks i f -> first_of tracks i g -> f = g.
Proof. intros tracks i f g (A & B & C) (A' & B' & C'). specialize (C g A'). specialize (C' f A). lia. Qed.
Lemma last_of_unique : forall tracks i f g, last_of tracks i f -> last_of tracks i g -> f = g.
Proof. intros tracks i f g (A & B & C) (A' & B' & C'). specialize (C g B' A'). specialize (C' f B A). lia. Qed.

Lemma pygather_spec : forall {A} (l : list A) ix,
  (forall z, In z ix -> exists a, pyget l z = Some a) ->
  exists r, pygather l ix = Some r /\ length r = length ix /\
    forall k z, nth_error ix k = Some z -> nth_error r k = pyget l z.
Proof.
  induction ix as [|z ix IH]; intros V.
  - exists []. split; [reflexivity|]. split; [reflexivity|]. intros [|k]; discriminate.
  - cbn [pygather]. destruct (V z (or_introl eq_refl)) as [a Ha]. rewrite Ha. cbn [bind].
    destruct IH as (r & -> & L & R); [intros; apply V; right; assumption|]. cbn [bind].
    exists (a :: r). split; [reflexivity|]. split; [simpl; lia|].
    intros [|k] z' H; simpl in *; [apply Some_inj in H; subst; congruence|auto].
Qed.

Lemma pyget_of_nat : forall {A} (l : list A) i, pyget l (Z.of_nat i) = nth_error l i.
Proof.
  intros. unfold pyget, pyidx. destruct (Z.leb_spec 0 (Z.of_nat i)); [|lia].
  destruct (Z.ltb_spec (Z.of_nat i) (Z.of_nat (length l))); cbn [bind].
  - rewrite Nat2Z.id. reflexivity.
  - symmetry. apply nth_error_None. lia.
Qed.
Lemma pyget_neg : forall {A} (l : list A) z, (- Z.of_nat (length l) <= z < 0)%Z -> exists a, pyget l z = Some a.
Proof.
  intros. unfold pyget. rewrite pyidx_neg by lia. destruct (Z.leb_spec (- Z.of_nat (length l)) z); [|lia].
  cbn [bind]. apply nth_error_lt_Some. lia.
Qed.

(** Entries of the two tables: absent, or the ends of the track. *)
Lemma table_entry : forall s tracks index number t, tables s tracks index number -> t < s ->
  (nth_error index t = Some (-1)%Z /\ nth_error number t = Some 0) \/
  exists f k, nth_error index t = Some (Z.of_nat f) /\ nth_error number t = Some (S k) /\ f + k < length tracks.
Proof.
  intros s tracks index number t (_ & _ & TT) Ht.
  destruct (TT t Ht) as (N & f & F1 & F2 & F2' & F3).
  destruct (Nat.eq_dec (count t tracks) 0) as [C|C].
  - left. rewrite (F2 C) in F1. rewrite C in N. auto.
  - right. specialize (F2' C). exists (Z.to_nat f), (count t tracks - 1).
    split; [rewrite F1; f_equal; lia|]. split; [rewrite N; f_equal; lia|].
    assert (nth_error tracks (Z.to_nat f + (count t tracks - 1)) = Some t) by (apply F3; lia).
    eapply nth_error_Some_lt; eauto.
Qed.

(** ** Longitudes *)
Lemma norm_360 : forall x r, (r - 180 <= Qmod (x - (r - 180)) 360 + (r - 180))%Q /\
  (Qmod (x - (r - 180)) 360 + (r - 180) < r + 180)%Q /\ Qcong 360 (Qmod (x - (r - 180)) 360 + (r - 180)) x.
Proof.
  intros x r. destruct (Qmod_range (x - (r - 180)) 360) as [A B]; [lra|].
  split; [lra|]. split; [lra|].
  assert (E : (x == (x - (r - 180)) + (r - 180))%Q) by ring. rewrite E at 2. apply Qcong_add. apply Qmod_cong.
Qed.

Lemma normalize_spec : forall tracks lon, nsorted tracks -> length lon = length tracks ->
  exists new, normalize_lon tracks lon = Some new /\ length new = length lon /\
    forall i f a b l0, nth_error lon i = Some a -> nth_error new i = Some b ->
      first_of tracks i f -> nth_error lon f = Some l0 ->
      (l0 - 180 <= b)%Q /\ (b < l0 + 180)%Q /\ Qcong 360 b a.
Proof.
  intros tracks lon S L. unfold normalize_lon. destruct lon as [|x lon'] eqn:EL.
  - exists []. split; [reflexivity|]. split; [reflexivity|]. intros [|i]; discriminate.
  - rewrite <- EL in *. assert (NE : tracks <> []) by (intros ->; subst; discriminate). clear EL.
    destruct (sorted_tables tracks NE S) as (index & number & -> & T). cbn [bind fst snd].
    destruct (pygather_spec lon index) as (l0 & R & L0 & V).
    { intros z H. apply In_nth_error in H as [t Ht]. pose proof T as (L1 & _).
      assert (Bt : t < Datatypes.S (list_max tracks)) by (rewrite <- L1; eapply nth_error_Some_lt; eauto).
      destruct (table_entry _ _ _ _ t T Bt) as [[E _]|(f & k & E & _ & B)]; rewrite Ht in E; apply Some_inj in E; subst z.
      - apply pyget_neg. rewrite L. destruct tracks; [congruence|simpl; lia].
      - rewrite pyget_of_nat. apply nth_error_lt_Some. lia. }
    rewrite R. cbn [bind]. pose proof T as (L1 & L2 & _).
    set (v := map (fun l : Q => (l - 180)%Q) l0).
    destruct (repeat_tracks _ _ _ _ v S (below_max tracks) T) as [R1 R2].
    { unfold v. rewrite map_length. congruence. }
    eexists. split; [reflexivity|].
    split; [rewrite map_length, combine_length, R1; lia|].
    intros i f a b r Ha Hb HF Hr.
    destruct (nth_error_lt_Some tracks i) as [t Ht].
    { rewrite <- L. eapply nth_error_Some_lt; eauto. }
    destruct (track_ends _ _ _ _ i t T Ht (below_max _ _ (nth_error_In _ _ Ht))) as (f' & l & E1 & _ & _ & F' & _).
    rewrite (first_of_unique _ _ _ _ HF F') in *.
    assert (X : nth_error (repeat_by v number) i = Some (r - 180)%Q).
    { rewrite (R2 i t Ht). unfold v. rewrite nth_error_map, (V t _ E1), pyget_of_nat, Hr. reflexivity. }
    rewrite nth_error_map, (nth_error_combine _ _ _ _ _ Ha X) in Hb. cbn [option_map fst snd] in Hb.
    apply Some_inj in Hb. subst b. apply norm_360.
Qed.

Lemma normalize_rel_spec : forall field lon, length field = length lon ->
  length (normalize_rel field lon) = length lon /\
  forall i a l b, nth_error field i = Some a -> nth_error lon i = Some l ->
    nth_error (normalize_rel field lon) i = Some b ->
    (l - 180 <= b)%Q /\ (b < l + 180)%Q /\ Qcong 360 b a.
Proof.
  intros field lon L. unfold normalize_rel. split; [rewrite map_length, combine_length; lia|].
  intros i a l b Ha Hl Hb. rewrite nth_error_map, (nth_error_combine _ _ _ _ _ Ha Hl) in Hb.
  cbn [option_map fst snd] in Hb. apply Some_inj in Hb. subst b.
  destruct (Qmod_range (a - l + 180) 360) as [A B]; [lra|].
  split; [lra|]. split; [lra|].
  assert (E : (a == (a - l + 180) + (l - 180))%Q) by ring. rewrite E at 2.
  assert (E2 : (Qmod (a - l + 180) 360 + l - 180 == Qmod (a - l + 180) 360 + (l - 180))%Q) by ring.
  rewrite E2. apply Qcong_add. apply Qmod_cong.
Qed.

(** ** Directions *)
(** Values at the ends of every track. *)
Lemma ends_gather : forall {A} tracks index number (l : list A) (sh : list Z),
  tables (S (list_max tracks)) tracks index number -> length l = length tracks -> 2 <= length tracks ->
  length sh = S (list_max tracks) ->
  (forall t z k, nth_error index t = Some z -> nth_error number t = Some k -> nth_error sh t = Some (z + Z.of_nat k - 1)%Z) ->
  exists a b, pygather l index = Some a /\ pygather l sh = Some b /\
    length a = S (list_max tracks) /\ length b = S (list_max tracks) /\
    forall i t, nth_error tracks i = Some t -> exists f g,
      first_of tracks i f /\ last_of tracks i g /\
      nth_error a t = nth_error l f /\ nth_error b t = nth_error l g.
Proof.
  intros A tracks index number l sh T L N2 LS SH. pose proof T as (L1 & L2 & _).
  destruct (pygather_spec l index) as (a & Ra & La & Va).
  { intros z H. apply In_nth_error in H as [t Ht].
    assert (Bt : t < S (list_max tracks)) by (rewrite <- L1; eapply nth_error_Some_lt; eauto).
    destruct (table_entry _ _ _ _ t T Bt) as [[E _]|(f & k & E & _ & B)]; rewrite Ht in E; apply Some_inj in E; subst z.
    - apply pyget_neg. lia.
    - rewrite pyget_of_nat. apply nth_error_lt_Some. lia. }
  destruct (pygather_spec l sh) as (b & Rb & Lb & Vb).
  { intros z H. apply In_nth_error in H as [t Ht].
    assert (Bt : t < S (list_max tracks)) by (rewrite <- LS; eapply nth_error_Some_lt; eauto).
    destruct (table_entry _ _ _ _ t T Bt) as [[E N]|(f & k & E & N & B)];
      rewrite (SH _ _ _ E N) in Ht; apply Some_inj in Ht; subst z.
    - apply pyget_neg. lia.
    - replace (Z.of_nat f + Z.of_nat (S k) - 1)%Z with (Z.of_nat (f + k)) by lia.
      rewrite pyget_of_nat. apply nth_error_lt_Some. lia. }
  exists a, b. split; auto. split; auto. split; [congruence|]. split; [congruence|].
  intros i t Ht. destruct (track_ends _ _ _ _ i t T Ht (below_max _ _ (nth_error_In _ _ Ht))) as (f & g & E1 & E2 & Le & F & G).
  exists f, g. split; auto. split; auto. split.
  - rewrite (Va _ _ E1), pyget_of_nat. reflexivity.
  - rewrite (Vb _ _ (SH _ _ _ E1 E2)).
    replace (Z.of_nat f + Z.of_nat (g + 1 - f) - 1)%Z with (Z.of_nat g) by lia. apply pyget_of_nat.
Qed.

Lemma nth_error_combine_map : forall {A B C} (h : A * B -> C) a b i x y,
  nth_error a i = Some x -> nth_error b i = Some y -> nth_error (map h (combine a b)) i = Some (h (x, y)).
Proof. intros. rewrite nth_error_map, (nth_error_combine _ _ _ _ _ H H0). reflexivity. Qed.

(** The per-track test [test] on the end values, repeated over the rows. *)
Lemma ends_mask : forall {A} tracks index number (l : list A) a b (test : A * A -> bool),
  nsorted tracks -> tables (S (list_max tracks)) tracks index number -> length l = length tracks ->
  length a = S (list_max tracks) -> length b = S (list_max tracks) ->
  (forall i t, nth_error tracks i = Some t -> exists f g,
      first_of tracks i f /\ last_of tracks i g /\
      nth_error a t = nth_error l f /\ nth_error b t = nth_error l g) ->
  mask_is (repeat_by (map test (combine b a)) number) (length tracks)
    (fun i => forall f g x y, first_of tracks i f -> last_of tracks i g ->
       nth_error l f = Some x -> nth_error l g = Some y -> test (y, x) = true).
Proof.
  intros A tracks index number l a b test S T L La Lb E.
  destruct (repeat_tracks _ _ _ _ (map test (combine b a)) S (below_max tracks) T) as [R1 R2].
  { rewrite map_length, combine_length. lia. }
  split; auto. intros i Hi. destruct (nth_error_lt_Some tracks i Hi) as [t Ht].
  destruct (E i t Ht) as (f & g & F & G & Ea & Eb). rewrite (R2 i t Ht).
  destruct (nth_error_lt_Some l f) as [x Hx]. { destruct F as (_ & ? & _). lia. }
  destruct (nth_error_lt_Some l g) as [y Hy]. { destruct G as (_ & ? & _). lia. }
  rewrite (nth_error_combine_map test b a t y x) by congruence. split.
  - intros H f' g' x' y' F' G' Hx' Hy'.
    rewrite <- (first_of_unique _ _ _ _ F F') in Hx'. rewrite <- (last_of_unique _ _ _ _ G G') in Hy'.
    rewrite Hx in Hx'. rewrite Hy in Hy'. apply Some_inj in Hx'. apply Some_inj in Hy'. subst. congruence.
  - intros H. f_equal. eapply H; eauto.
Qed.

Lemma map_combine_map : forall {A B C D} (f : A * B -> C) (h : C * (A * B) -> D) (l : list (A * B)),
  map h (combine (map f l) l) = map (fun p => h (f p, p)) l.
Proof. induction l; simpl; congruence. Qed.

Lemma shifted_table : forall (index : list Z) (number : list nat) (h : Z * nat -> Z),
  length index = length number ->
  (forall z k, h (z, k) = (z + Z.of_nat k - 1)%Z) ->
  forall t z k, nth_error index t = Some z -> nth_error number t = Some k ->
    nth_error (map h (combine index number)) t = Some (z + Z.of_nat k - 1)%Z.
Proof. intros. rewrite (nth_error_combine_map h _ _ _ _ _ H1 H2), H0. reflexivity. Qed.

Lemma toward_spec : forall tracks lon west delta,
  nsorted tracks -> length lon = length tracks -> 2 <= length tracks ->
  exists m, toward_mask tracks lon west delta = Some m /\
    mask_is m (length tracks) (fun i => forall f g x y, first_of tracks i f -> last_of tracks i g ->
      nth_error lon f = Some x -> nth_error lon g = Some y ->
      (if west then (y < x)%Q else (x < y)%Q) /\
      (forall v, delta = Some v -> (v < y - x)%Q)).
Proof.
  intros tracks lon west delta S L N2. assert (NE : tracks <> []) by (intros ->; simpl in N2; lia).
  unfold toward_mask. destruct (sorted_tables tracks NE S) as (index & number & -> & T). cbn [bind fst snd].
  pose proof T as (L1 & L2 & _).
  set (sh := map (fun p : Z * nat => (fst p - 1 + Z.of_nat (snd p))%Z) (combine index number)).
  destruct (ends_gather tracks index number lon sh T L N2) as (a & b & -> & -> & La & Lb & E).
  { unfold sh. rewrite map_length, combine_length. lia. }
  { apply shifted_table; [congruence|]. intros. cbn [fst snd]. lia. }
  cbn [bind]. eexists. split; [reflexivity|].
  set (test := fun p : Q * Q => (if west then Qlt_bool (fst p - snd p) 0 else Qlt_bool 0 (fst p - snd p)) &&
       match delta with None => true | Some v => Qlt_bool v (fst p - snd p) end).
  assert (ET : match delta with
     | Some v => map (fun p : bool * Q => fst p && Qlt_bool v (snd p))
         (combine (map (fun x => if west then Qlt_bool x 0 else Qlt_bool 0 x) (map (fun p => (fst p - snd p)%Q) (combine b a)))
                  (map (fun p => (fst p - snd p)%Q) (combine b a)))
     | None => map (fun x => if west then Qlt_bool x 0 else Qlt_bool 0 x) (map (fun p => (fst p - snd p)%Q) (combine b a))
     end = map test (combine b a)).
  { destruct delta as [v|].
    - rewrite !map_map, combine_map_same, map_map. apply map_ext. intros p. reflexivity.
    - rewrite !map_map. apply map_ext. intros p. unfold test. rewrite andb_true_r. reflexivity. }
  rewrite ET. destruct (ends_mask tracks index number lon a b test S T L La Lb E) as [M1 M2].
  split; auto. intros i Hi. rewrite (M2 i Hi). unfold test. cbn [fst snd].
  split; intros H f g x y F G Hx Hy; specialize (H f g x y F G Hx Hy).
  - apply andb_true_iff in H as [H1 H2]. split.
    + destruct west; apply Qlt_bool_iff in H1; lra.
    + intros v ->. apply Qlt_bool_iff in H2. exact H2.
  - destruct H as [H1 H2]. apply andb_true_iff. split.
    + destruct west; apply Qlt_bool_iff; lra.
    + destruct delta as [v|]; [|reflexivity]. apply Qlt_bool_iff. auto.
Qed.

Lemma direction_lat_spec : forall tracks lon lat dir value, (dir = South \/ dir = North) ->
  nsorted tracks -> length lat = length tracks -> 2 <= length tracks ->
  exists m, direction_mask tracks lon lat dir value = Some m /\
    mask_is m (length tracks) (fun i => forall f g x y, first_of tracks i f -> last_of tracks i g ->
      nth_error lat f = Some x -> nth_error lat g = Some y ->
      match dir with South => (y < x)%Q | _ => (x < y)%Q end /\ (value < Qabs (y - x))%Q).
Proof.
  intros tracks lon lat dir value D S L N2. assert (NE : tracks <> []) by (intros ->; simpl in N2; lia).
  unfold direction_mask. destruct (sorted_tables tracks NE S) as (index & number & -> & T). cbn [bind fst snd].
  pose proof T as (L1 & L2 & _).
  set (sh := map (fun p : Z * nat => (fst p + Z.of_nat (snd p) - 1)%Z) (combine index number)).
  destruct (ends_gather tracks index number lat sh T L N2) as (a & b & Ra & Rb & La & Lb & E).
  { unfold sh. rewrite map_length, combine_length. lia. }
  { apply shifted_table; [congruence|]. intros. reflexivity. }
  destruct D as [-> | ->]; rewrite Rb; cbn [bind]; rewrite Ra; cbn [bind]; eexists; (split; [reflexivity|]).
  - set (test := fun p : Q * Q => Qlt_bool (fst p - snd p) 0 && Qlt_bool value (Qabs (fst p - snd p))).
    destruct (ends_mask tracks index number lat a b test S T L La Lb E) as [M1 M2].
    split; auto. intros i Hi. etransitivity; [exact (M2 i Hi)|]. unfold test. cbn [fst snd].
    split; intros H f g x y F G Hx Hy; specialize (H f g x y F G Hx Hy).
    + apply andb_true_iff in H as [H1 H2]. apply Qlt_bool_iff in H1. apply Qlt_bool_iff in H2. split; [lra|auto].
    + apply andb_true_iff. split; apply Qlt_bool_iff; [lra|tauto].
  - set (test := fun p : Q * Q => Qlt_bool 0 (fst p - snd p) && Qlt_bool value (Qabs (fst p - snd p))).
    destruct (ends_mask tracks index number lat a b test S T L La Lb E) as [M1 M2].
    split; auto. intros i Hi. etransitivity; [exact (M2 i Hi)|]. unfold test. cbn [fst snd].
    split; intros H f g x y F G Hx Hy; specialize (H f g x y F G Hx Hy).
    + apply andb_true_iff in H as [H1 H2]. apply Qlt_bool_iff in H1. apply Qlt_bool_iff in H2. split; [lra|auto].
    + apply andb_true_iff. split; apply Qlt_bool_iff; [lra|tauto].
Qed.

(** The eastward displacement between two longitudes, between -180 and 180. *)
Definition lon_shift (x y d : Q) : Prop := Qcong 360 d (y - x) /\ (-180 <= d)%Q /\ (d < 180)%Q.

Lemma lon_shift_val : forall x y d, lon_shift x y d ->
  (d == Qmod (y - (x - 180)) 360 + x - 180 - x)%Q.
Proof.
  intros x y d (C & A & B). destruct (Qmod_range (y - (x - 180)) 360) as [A' B']; [lra|].
  apply (Qcong_unique 360 (-180)%Q); try lra.
  eapply Qcong_trans; [exact C|]. apply Qcong_sym.
  assert (E : (Qmod (y - (x - 180)) 360 + x - 180 - x == Qmod (y - (x - 180)) 360 + -180)%Q) by ring.
  rewrite E. assert (E2 : (y - x == (y - (x - 180)) + -180)%Q) by ring. rewrite E2. apply Qcong_add. apply Qmod_cong.
Qed.

Lemma lon_shift_exists : forall x y, lon_shift x y (Qmod (y - (x - 180)) 360 + x - 180 - x)%Q.
Proof.
  intros x y. destruct (Qmod_range (y - (x - 180)) 360) as [A' B']; [lra|].
  split; [|split; lra].
  assert (E : (Qmod (y - (x - 180)) 360 + x - 180 - x == Qmod (y - (x - 180)) 360 + -180)%Q) by ring.
  rewrite E. assert (E2 : (y - x == (y - (x - 180)) + -180)%Q) by ring. rewrite E2. apply Qcong_add. apply Qmod_cong.
Qed.

Lemma direction_lon_spec : forall tracks lon lat dir value, (dir = West \/ dir = East) ->
  nsorted tracks -> length lon = length tracks -> 2 <= length tracks ->
  exists m, direction_mask tracks lon lat dir value = Some m /\
    mask_is m (length tracks) (fun i => forall f g x y d, first_of tracks i f -> last_of tracks i g ->
      nth_error lon f = Some x -> nth_error lon g = Some y -> lon_shift x y d ->
      match dir with West => (d < 0)%Q | _ => (0 < d)%Q end /\ (value < Qabs d)%Q).
Proof.
  intros tracks lon lat dir value D S L N2. assert (NE : tracks <> []) by (intros ->; simpl in N2; lia).
  unfold direction_mask. destruct (sorted_tables tracks NE S) as (index & number & -> & T). cbn [bind fst snd].
  pose proof T as (L1 & L2 & _).
  set (sh := map (fun p : Z * nat => (fst p + Z.of_nat (snd p) - 1)%Z) (combine index number)).
  destruct (ends_gather tracks index number lon sh T L N2) as (a & b & Ra & Rb & La & Lb & E).
  { unfold sh. rewrite map_length, combine_length. lia. }
  { apply shifted_table; [congruence|]. intros. reflexivity. }
  destruct D as [-> | ->]; rewrite Ra; cbn [bind]; rewrite Rb; cbn [bind]; eexists; (split; [reflexivity|]).
  - set (test := fun p : Q * Q => Qlt_bool (Qmod (fst p - (snd p - 180)) 360 + snd p - 180 - snd p) 0 &&
         Qlt_bool value (Qabs (Qmod (fst p - (snd p - 180)) 360 + snd p - 180 - snd p))).
    destruct (ends_mask tracks index number lon a b test S T L La Lb E) as [M1 M2].
    split; auto. intros i Hi. etransitivity; [exact (M2 i Hi)|]. unfold test. cbn [fst snd]. split.
    + intros H f g x y d F G Hx Hy Hd. specialize (H f g x y F G Hx Hy).
      apply andb_true_iff in H as [H1 H2]. apply Qlt_bool_iff in H1. apply Qlt_bool_iff in H2.
      rewrite (lon_shift_val _ _ _ Hd). auto.
    + intros H f g x y F G Hx Hy. specialize (H f g x y _ F G Hx Hy (lon_shift_exists x y)).
      apply andb_true_iff. split; apply Qlt_bool_iff; tauto.
  - set (test := fun p : Q * Q => Qlt_bool 0 (Qmod (fst p - (snd p - 180)) 360 + snd p - 180 - snd p) &&
         Qlt_bool value (Qabs (Qmod (fst p - (snd p - 180)) 360 + snd p - 180 - snd p))).
    destruct (ends_mask tracks index number lon a b test S T L La Lb E) as [M1 M2].
    split; auto. intros i Hi. etransitivity; [exact (M2 i Hi)|]. unfold test. cbn [fst snd]. split.
    + intros H f g x y d F G Hx Hy Hd. specialize (H f g x y F G Hx Hy).
      apply andb_true_iff in H as [H1 H2]. apply Qlt_bool_iff in H1. apply Qlt_bool_iff in H2.
      rewrite (lon_shift_val _ _ _ Hd). auto.
    + intros H f g x y F G Hx Hy. specialize (H f g x y _ F G Hx Hy (lon_shift_exists x y)).
      apply andb_true_iff. split; apply Qlt_bool_iff; tauto.
Qed.

(** ** First observation in a box *)
Definition same_box (res a b : Q) : Prop := Qfloor (a / res) = Qfloor (b / res).

Lemma box_same : forall res a b, (0 < res)%Q ->
  Qeq_bool (a - Qmod a res) (b - Qmod b res) = true <-> same_box res a b.
Proof.
  intros res a b H. rewrite Qeq_bool_iff. unfold same_box, Qmod.
  assert (E : forall x k : Q, (x - (x - res * k) == res * k)%Q) by (intros; ring).
  rewrite !E. split.
  - generalize (Qfloor (a / res)), (Qfloor (b / res)). intros u v X.
    assert (Y : (inject_Z u == inject_Z v)%Q).
    { apply (Qmult_inj_l _ _ res); [intros C; rewrite C in H; lra|]. exact X. }
    unfold inject_Z, Qeq in Y. simpl in Y. lia.
  - intros ->. reflexivity.
Qed.

Lemma first_seen_spec : forall keys seen,
  length (first_seen seen keys) = length keys /\
  forall i k, nth_error keys i = Some k ->
    (nth_error (first_seen seen keys) i = Some true <->
     (forall s, In s seen -> same_key k s = false) /\
     forall j k', j < i -> nth_error keys j = Some k' -> same_key k k' = false).
Proof.
  induction keys as [|a keys IH]; intros seen.
  - split; [reflexivity|]. intros [|i]; discriminate.
  - cbn [first_seen]. destruct (IH (a :: seen)) as [L F]. split; [simpl; lia|].
    intros [|i] k H.
    + simpl in H. apply Some_inj in H. subst a. cbn [nth_error]. split.
      * intros E. apply Some_inj in E. apply negb_true_iff in E. split; [|intros; lia].
        intros s I. destruct (same_key k s) eqn:X; auto.
        assert (existsb (same_key k) seen = true) by (apply existsb_exists; eauto). congruence.
      * intros [E _]. f_equal. apply negb_true_iff. destruct (existsb (same_key k) seen) eqn:X; auto.
        apply existsb_exists in X as (s & I & Y). rewrite (E s I) in Y. discriminate.
    + simpl in H. cbn [nth_error]. rewrite (F i k H). split.
      * intros [E1 E2]. split; [intros; apply E1; right; auto|].
        intros [|j] k' Hj Hk; simpl in Hk; [apply Some_inj in Hk; subst; apply E1; left; auto|].
        apply (E2 j); auto; lia.
      * intros [E1 E2]. split.
        -- intros s [<-|I]; auto. apply (E2 0); auto; lia.
        -- intros j k' Hj Hk. apply (E2 (S j)); auto; lia.
Qed.

Lemma first_in_box_spec : forall res tracks lon lat, (0 < res)%Q ->
  length lon = length tracks -> length lat = length tracks ->
  mask_is (first_in_box_mask res tracks lon lat) (length tracks) (fun i =>
    forall j a b x y, j < i -> nth_error tracks j = nth_error tracks i ->
      nth_error lon i = Some a -> nth_error lon j = Some b -> nth_error lat i = Some x -> nth_error lat j = Some y ->
      ~ (same_box res a b /\ same_box res x y)).
Proof.
  intros res tracks lon lat HR L1 L2. unfold first_in_box_mask.
  set (keys := combine _ tracks).
  destruct (first_seen_spec keys []) as [LK F].
  assert (KL : length keys = length tracks).
  { unfold keys. rewrite combine_length, map_length, combine_length. lia. }
  assert (KV : forall i t a x, nth_error tracks i = Some t -> nth_error lon i = Some a -> nth_error lat i = Some x ->
     nth_error keys i = Some (box_key res a x, t)).
  { intros. unfold keys. apply nth_error_combine; auto.
    rewrite (nth_error_combine_map (fun p => box_key res (fst p) (snd p)) lon lat i a x); auto. }
  split; [congruence|]. intros i Hi.
  destruct (nth_error_lt_Some tracks i Hi) as [t Ht].
  destruct (nth_error_lt_Some lon i) as [a Ha]; [lia|].
  destruct (nth_error_lt_Some lat i) as [x Hx]; [lia|].
  rewrite (F i _ (KV i t a x Ht Ha Hx)).
  assert (SK : forall b y u, same_key (box_key res a x, t) (box_key res b y, u) = true <->
             same_box res a b /\ same_box res x y /\ t = u).
  { intros b y u. unfold same_key, box_key. cbn [fst snd]. rewrite !andb_true_iff, !box_same, Nat.eqb_eq by auto. tauto. }
  split.
  - intros [_ H] j a' b x' y Hj Tj Ha' Hb Hx' Hy [S1 S2].
    assert (a' = a) by congruence. assert (x' = x) by congruence. subst.
    rewrite Ht in Tj. specialize (H j _ Hj (KV j t b y Tj Hb Hy)).
    assert (same_key (box_key res a x, t) (box_key res b y, t) = true) by (apply SK; auto). congruence.
  - intros H. split; [intros s []|]. intros j k' Hj Hk.
    destruct (nth_error_lt_Some tracks j) as [u Hu]; [lia|].
    destruct (nth_error_lt_Some lon j) as [b Hb]; [lia|].
    destruct (nth_error_lt_Some lat j) as [y Hy]; [lia|].
    rewrite (KV j u b y Hu Hb Hy) in Hk. apply Some_inj in Hk. subst k'.
    destruct (same_key _ _) eqn:X; auto. apply SK in X as (S1 & S2 & ->).
    exfalso. apply (H j a b x y Hj ltac:(congruence) Ha Hb Hx Hy). auto.
Qed.

(** ** Counts per track *)
Lemma lifetime_spec : forall tracks, tracks <> [] -> nsorted tracks ->
  exists r, lifetime tracks = Some r /\ length r = length tracks /\
    forall i t, nth_error tracks i = Some t -> nth_error r i = Some (count t tracks).
Proof.
  intros tracks NE S. unfold lifetime. destruct (sorted_tables tracks NE S) as (index & number & -> & T).
  cbn [bind snd]. pose proof T as (L1 & L2 & TT).
  destruct (repeat_tracks _ _ _ _ number S (below_max tracks) T L2) as [R1 R2].
  eexists. split; [reflexivity|]. split; [exact R1|]. intros i t Ht. rewrite (R2 i t Ht).
  apply TT. apply below_max. eapply nth_error_In; eauto.
Qed.

Lemma count_loop_spec : forall tracks mask number s,
  length mask = length tracks -> length number = s -> (forall t, In t tracks -> t < s) ->
  exists r, count_by_track_loop tracks mask number = Some r /\ length r = s /\
    forall t n, nth_error number t = Some n -> nth_error r t = Some (n + count t (select mask tracks)).
Proof.
  induction tracks as [|u tracks IH]; intros [|b mask] number s L N B; try discriminate.
  - exists number. split; [reflexivity|]. split; auto. intros t n H. simpl. change (count t []) with 0. rewrite Nat.add_0_r. exact H.
  - cbn [count_by_track_loop select]. injection L as L. destruct b.
    + destruct (nth_error_lt_Some number u) as [k Hk]. { rewrite N. apply B. left; auto. }
      rewrite Hk. cbn [bind]. unfold store. destruct (Nat.ltb_spec u (length number)).
      2:{ apply nth_error_Some_lt in Hk. lia. }
      cbn [bind]. destruct (IH mask (upd number u (S k)) s L) as (r & R & LR & V).
      { rewrite length_upd. exact N. } { intros; apply B; right; auto. }
      exists r. split; [exact R|]. split; [exact LR|]. intros t n Ht. rewrite count_cons.
      destruct (Nat.eqb_spec u t) as [->|NE].
      * rewrite (V t (S k)); [f_equal; assert (n = k) by congruence; lia|]. apply nth_error_upd_eq. auto.
      * rewrite (V t n); [f_equal|]. rewrite nth_error_upd_neq by auto. exact Ht.
    + apply IH; auto. intros; apply B; right; auto.
Qed.

Lemma count_by_track_spec : forall tracks mask, tracks <> [] -> length mask = length tracks ->
  exists r, count_by_track tracks mask = Some r /\ length r = S (list_max tracks) /\
    forall t, t <= list_max tracks -> nth_error r t = Some (count t (select mask tracks)).
Proof.
  intros tracks mask NE L. unfold count_by_track. destruct tracks as [|a l] eqn:E; [congruence|]. rewrite <- E in *.
  destruct (count_loop_spec tracks mask (repeat 0 (S (list_max tracks))) (S (list_max tracks)) L) as (r & R & LR & V).
  { apply repeat_length. } { apply below_max. }
  exists r. split; [exact R|]. split; [exact LR|]. intros t Ht. rewrite (V t 0); [reflexivity|].
  rewrite nth_error_repeat_lt. destruct (Nat.ltb_spec t (S (list_max tracks))); [reflexivity|lia].
Qed.
