(** Aligned iteration of two datasets. *)
From Coq Require Import List Arith ZArith Bool QArith Qround Lia Lqa Permutation.
From Verif Require Import Base Qaux Spec Generic_model Obs_spec Obs_model Obs_words Obs_proofs Obs_align.
Import ListNotations.
Local Close Scope Q_scope.
Local Open Scope nat_scope.

Lemma iterable_groups : forall argsort bins x, sorts argsort -> increasing bins -> 2 <= length bins -> iterable bins x ->
  exists gs, iter_on argsort false x (Some bins) = (gs, true) /\ visits_bins bins x (map view gs) /\ gs <> [] /\
    (~ qsorted x -> forall g, In g gs -> exists l, fst (fst g) = Index l).
Proof.
  intros argsort bins x AS I L IT.
  assert (NZ : forall gs, visits_bins bins x (map view gs) -> (exists v, In v x /\ inside bins v) -> gs <> []).
  { intros gs (_ & V & _) (v & Hv & IV) ->. apply In_nth_error in Hv as [k Hk]. apply (proj2 (V k)). eauto. }
  destruct IT as [(NE & S & IN)|(NS & EX)].
  - destruct (iter_on_sorted argsort false x bins NE S I L IN) as (gs & E & V & _).
    exists gs. split; [auto|]. split; [auto|]. split; [|contradiction].
    apply NZ; auto. destruct x as [|a x]; [congruence|]. exists a. split; [left; auto|apply IN; left; auto].
  - destruct EX as (v & Hv & IV). pose proof IV as IV'. destruct IV as (b0 & bl & H0 & Hl & A & B).
    destruct (iter_on_unsorted argsort x bins AS NS I L b0 bl H0 Hl) as [K _].
    destruct K as (gs & E & V & IX). { exists v. split; [auto|]. split; [auto|]. lra. }
    exists gs. split; [auto|]. split; [auto|]. split; [apply NZ; eauto|auto].
Qed.

Lemma lows_view : forall gs, map (fun g : list nat * Q * Q => snd (fst g)) (map view gs) = lows gs.
Proof. intros. unfold lows. rewrite map_map. reflexivity. Qed.

Lemma increasing_flat : forall ar others gs, increasing (lows gs) -> increasing (map (fun p : aligned => snd (fst p)) (flat_map (pairs_of ar others) gs)).
Proof.
  intros ar others gs. induction gs as [|[[r b0] b1] gs IH]; intros I; simpl; [intros i j a b _ H; destruct i; discriminate|].
  assert (T : increasing (map (fun p : aligned => snd (fst p)) (flat_map (pairs_of ar others) gs))) by (apply IH; eapply increasing_rest; eauto).
  assert (LB : forall q, In q (map (fun p : aligned => snd (fst p)) (flat_map (pairs_of ar others) gs)) -> (b0 < q)%Q).
  { intros q H. apply in_map_iff in H as (p & <- & H). apply in_flat_map in H as ([[r' c0] c1] & Hg & H).
    pose proof (increasing_head _ _ _ I Hg) as LT. unfold low in LT. simpl in LT. cbn [pairs_of] in H.
    destruct (find _ _); [destruct H as [<-|[]]; auto|]. destruct (_ && _); [|destruct H]. destruct H as [<-|[]]; auto. }
  assert (C : forall (q : aligned), snd (fst q) = b0 -> increasing (map (fun p : aligned => snd (fst p)) ([q] ++ flat_map (pairs_of ar others) gs))).
  { intros q Q0 i j a b L Hi Hj. destruct j as [|j]; [lia|]. simpl in Hj. destruct i as [|i].
    - simpl in Hi. apply Some_inj in Hi. subst a. rewrite Q0. apply LB. eapply nth_error_In; eauto.
    - simpl in Hi. apply (T i j); auto. lia. }
  destruct (find _ _); [apply C; auto|]. destruct (_ && _); [apply C; auto|exact T].
Qed.

Lemma adjacent_hi : forall bins j j' lo lo' hi hi', increasing bins -> nth_error bins j = Some lo -> nth_error bins (S j) = Some hi ->
  nth_error bins j' = Some lo' -> nth_error bins (S j') = Some hi' -> (lo == lo')%Q -> j = j'.
Proof.
  intros bins j j' lo lo' hi hi' I H1 H2 H3 H4 E. destruct (lt_eq_lt_dec j j') as [[L| ->]|L]; auto.
  - pose proof (I _ _ _ _ L H1 H3). lra.
  - pose proof (I _ _ _ _ L H3 H1). lra.
Qed.

Theorem align_pairs : forall argsort all_ref x y bins, sorts argsort -> increasing bins -> 2 <= length bins ->
  iterable bins x -> iterable bins y -> (all_ref = true -> ~ qsorted x) ->
  exists ps, align_on all_ref (iter_on argsort false x (Some bins)) (iter_on argsort false y (Some bins)) = (ps, true) /\
    increasing (map (fun p : aligned => snd (fst p)) ps) /\
    (forall rx ry lo hi, In (rx, ry, lo, hi) ps ->
       (exists j, nth_error bins j = Some lo /\ nth_error bins (S j) = Some hi) /\
       (forall k, In k (rows_list rx) <-> exists v, nth_error x k = Some v /\ within lo hi v) /\
       (forall k, In k (rows_list ry) <-> exists v, nth_error y k = Some v /\ within lo hi v)) /\
    (forall j lo hi, nth_error bins j = Some lo -> nth_error bins (S j) = Some hi ->
       ((exists rx ry, In (rx, ry, lo, hi) ps) <->
        (exists v, In v x /\ within lo hi v) /\
        ((exists v, In v y /\ within lo hi v) \/ (all_ref = true /\ exists v, In v y /\ inside bins v /\ (hi <= v)%Q)))).
Proof.
  intros argsort ar x y bins AS I L IX IY AR.
  destruct (iterable_groups argsort bins x AS I L IX) as (gs & EG & (_ & VG & GG & LG) & _ & XG).
  destruct (iterable_groups argsort bins y AS I L IY) as (hs & EH & (_ & VH & GH & LH) & NH & _).
  rewrite lows_view in LG, LH. rewrite EG, EH.
  assert (INV : forall (gs : list group) r b0 b1, In (r, b0, b1) gs -> In (rows_list r, b0, b1) (map view gs)).
  { intros l r b0 b1 H. apply (in_map view) in H. exact H. }
  (* group of a bin *)
  assert (BIN : forall (z : list Q) (gs : list group) j lo hi,
     (forall k, In k (concat (map (fun g => fst (fst g)) (map view gs))) <-> exists v, nth_error z k = Some v /\ inside bins v) ->
     (forall rows lo hi, In (rows, lo, hi) (map view gs) -> rows <> [] /\
        (exists j, nth_error bins j = Some lo /\ nth_error bins (S j) = Some hi) /\
        forall k, In k rows <-> exists v, nth_error z k = Some v /\ (lo <= v)%Q /\ (v < hi)%Q) ->
     nth_error bins j = Some lo -> nth_error bins (S j) = Some hi -> (exists v, In v z /\ within lo hi v) -> exists r, In (r, lo, hi) gs).
  { intros z l j lo hi V G Hl Hh (v & Hv & W1 & W2). apply In_nth_error in Hv as [k Hk].
    assert (IV : inside bins v).
    { destruct (nth_error_lt_Some bins 0) as [b0 H0]; [lia|]. destruct (nth_error_lt_Some bins (length bins - 1)) as [bl Hbl]; [lia|].
      exists b0, bl. split; [auto|]. split; [auto|]. split.
      - destruct j as [|j]; [rewrite H0 in Hl; apply Some_inj in Hl; subst; auto|]. pose proof (I 0 (S j) b0 lo ltac:(lia) H0 Hl). lra.
      - pose proof (nth_error_Some_lt _ _ _ Hh). destruct (Nat.eq_dec (S j) (length bins - 1)) as [E|E].
        + rewrite <- E, Hh in Hbl. apply Some_inj in Hbl. subst; auto.
        + pose proof (I (S j) (length bins - 1) hi bl ltac:(lia) Hh Hbl). lra. }
    assert (IC : In k (concat (map (fun g => fst (fst g)) (map view l)))) by (apply V; eauto).
    apply in_concat in IC as (rows & IR & IK). apply in_map_iff in IR as ([[r' lo'] hi'] & E & IR). simpl in E. subst r'.
    destruct (G _ _ _ IR) as (_ & (j' & A & B) & C). apply C in IK as (v' & Hv' & D1 & D2). rewrite Hk in Hv'. apply Some_inj in Hv'. subst v'.
    assert (j = j').
    { assert (forall a b la ha lb hb, nth_error bins a = Some la -> nth_error bins (S a) = Some ha -> nth_error bins b = Some lb -> nth_error bins (S b) = Some hb ->
         (la <= v)%Q -> (v < ha)%Q -> (lb <= v)%Q -> a < b -> False) as X.
      { intros a b la ha lb hb Ha Ha' Hb _ Q1 Q2 Q3 LT. destruct (Nat.eq_dec (S a) b) as [<-|N].
        - rewrite Ha' in Hb. apply Some_inj in Hb. subst. lra.
        - pose proof (I (S a) b ha lb ltac:(lia) Ha' Hb). lra. }
      destruct (lt_eq_lt_dec j j') as [[LT|]|LT]; auto; exfalso; [apply (X j j' lo hi lo' hi')|apply (X j' j lo' hi' lo hi)]; auto. }
    subst j'. rewrite Hl in A. rewrite Hh in B. apply Some_inj in A, B. subst lo' hi'.
    apply in_map_iff in IR as ([[r b0] b1] & E & IR). unfold view in E. simpl in E. injection E as E1 E2 E3. subst. eauto. }
  assert (NEV : forall (z : list Q) r lo hi, r <> [] -> (forall k, In k r <-> exists v, nth_error z k = Some v /\ (lo <= v)%Q /\ (v < hi)%Q) -> exists v, In v z /\ within lo hi v).
  { intros z [|k r] lo hi N H; [congruence|]. destruct (proj1 (H k) (or_introl eq_refl)) as (v & A & B). exists v. split; [eapply nth_error_In; eauto|exact B]. }
  rewrite (align_on_spec ar gs true hs true); auto.
  eexists. split; [reflexivity|]. split; [apply increasing_flat; auto|].
  assert (NOY : forall b0 b1 j, nth_error bins j = Some b0 -> nth_error bins (S j) = Some b1 -> find (same_low b0) hs = None -> ~ exists v, In v y /\ within b0 b1 v).
  { intros b0 b1 j A B F EX. destruct (BIN y hs j b0 b1 VH GH A B EX) as (r & Hr).
    apply (proj1 (find_none_same hs b0) F _ Hr). unfold low. simpl. lra. }
  split.
  - intros rx ry lo hi H. apply in_flat_map in H as ([[r b0] b1] & Hg & H). cbn [pairs_of] in H.
    destruct (GG _ _ _ (INV _ _ _ _ Hg)) as (NR & (j & A & B) & C).
    destruct (find (same_low b0) hs) as [o|] eqn:F.
    + destruct H as [H|[]]. injection H as <- <- <- <-. apply find_same in F as [Ho Eo]; auto. destruct o as [[ro o0] o1]. change (o0 == b0)%Q in Eo.
      destruct (GH _ _ _ (INV _ _ _ _ Ho)) as (_ & (j' & A' & B') & C').
      assert (j' = j) by exact (adjacent_hi _ _ _ _ _ _ _ I A' B' A B Eo). subst j'. rewrite A in A'. rewrite B in B'. apply Some_inj in A', B'. subst o0 o1.
      split; [eauto|]. split; [exact C|exact C'].
    + destruct (ar && _) eqn:X; [|destruct H]. destruct H as [H|[]]. injection H as <- <- <- <-.
      split; [eauto|]. split; [exact C|]. intros k. simpl. split; [intros []|]. intros (v & Hv & W). apply (NOY b0 b1 j A B F). exists v. split; [eapply nth_error_In; eauto|auto].
  - intros j lo hi A B. split.
    + intros (rx & ry & H). apply in_flat_map in H as ([[r b0] b1] & Hg & H). cbn [pairs_of] in H.
      destruct (GG _ _ _ (INV _ _ _ _ Hg)) as (NR & _ & C).
      destruct (find (same_low b0) hs) as [o|] eqn:F.
      * destruct H as [H|[]]. injection H as E1 E2 E3 E4. subst b0 b1. split; [eapply NEV; eauto|]. left.
        apply find_same in F as [Ho Eo]; auto. destruct o as [[ro o0] o1]. change (o0 == lo)%Q in Eo.
        destruct (GH _ _ _ (INV _ _ _ _ Ho)) as (NO & (j' & A' & B') & C').
        assert (j' = j) by exact (adjacent_hi _ _ _ _ _ _ _ I A' B' A B Eo). subst j'. rewrite A in A'. rewrite B in B'. apply Some_inj in A', B'. subst o0 o1.
        eapply NEV; eauto.
      * destruct ar; [|destruct H]. cbn [andb] in H. destruct (existsb _ hs) eqn:X; [|destruct H].
        destruct H as [H|[]]. injection H as E1 E2 E3 E4. subst b0 b1. split; [eapply NEV; eauto|]. right. split; [auto|].
        apply existsb_exists in X as ([[ro o0] o1] & Ho & LT). apply Qlt_bool_iff in LT. unfold low in LT. simpl in LT.
        destruct (GH _ _ _ (INV _ _ _ _ Ho)) as (NO & (j' & A' & B') & C').
        destruct (rows_list ro) as [|k q] eqn:RO; [congruence|].
        destruct (proj1 (C' k) (or_introl eq_refl)) as (v & Hv & D1 & D2).
        exists v. split; [eapply nth_error_In; eauto|]. split.
        -- assert (X : In k (concat (map (fun g => fst (fst g)) (map view hs)))).
           { apply in_concat. exists (rows_list ro). split; [|rewrite RO; left; auto].
             apply in_map_iff. exists (rows_list ro, o0, o1). split; [auto|]. apply INV. auto. }
           apply VH in X as (v' & Hv' & IV). rewrite Hv in Hv'. apply Some_inj in Hv'. subst. auto.
        -- assert (LJ : j < j'). { destruct (lt_eq_lt_dec j j') as [[X|X]|X]; auto; exfalso; [subst; rewrite A in A'; apply Some_inj in A'; subst; lra|].
             pose proof (I _ _ _ _ X A' A). lra. }
           destruct (Nat.eq_dec (S j) j') as [<-|N]; [rewrite B in A'; apply Some_inj in A'; subst; auto|].
           pose proof (I (S j) j' hi o0 ltac:(lia) B A'). lra.
    + intros [EX OR]. destruct (BIN x gs j lo hi VG GG A B EX) as (r & Hr).
      destruct OR as [EY|(AT & v & Hv & IV & LE)].
      * destruct (BIN y hs j lo hi VH GH A B EY) as (ro & Ho). exists r, ro. apply in_flat_map. exists (r, lo, hi). split; [auto|].
        cbn [pairs_of]. assert (F : find (same_low lo) hs = Some (ro, lo, hi)) by (apply find_same; auto; split; [auto|unfold low; simpl; lra]).
        rewrite F. left. auto.
      * destruct (find (same_low lo) hs) as [o|] eqn:F.
        -- subst ar. exists r, (fst (fst o)). apply in_flat_map. exists (r, lo, hi). split; [auto|]. cbn [pairs_of]. rewrite F. left. auto.
        -- subst ar. exists r, (Index []). apply in_flat_map. exists (r, lo, hi). split; [auto|]. cbn [pairs_of]. rewrite F. cbn [andb].
           assert (X : existsb (fun o => Qlt_bool lo (low o)) hs = true).
           { apply existsb_exists. apply In_nth_error in Hv as [k Hk].
             assert (IC : In k (concat (map (fun g => fst (fst g)) (map view hs)))) by (apply VH; eauto).
             apply in_concat in IC as (rows & IR & IK). apply in_map_iff in IR as ([[r' lo'] hi'] & E & IR). simpl in E. subst r'.
             destruct (GH _ _ _ IR) as (_ & (j' & A' & B') & C). apply C in IK as (v' & Hv' & D1 & D2). rewrite Hk in Hv'. apply Some_inj in Hv'. subst v'.
             apply in_map_iff in IR as ([[ro b0] b1] & E & IR). unfold view in E. simpl in E. injection E as E1 E2 E3. subst.
             exists (ro, lo', hi'). split; [auto|]. apply Qlt_bool_iff. unfold low. simpl.
             destruct (le_lt_dec j' j) as [LJ|LJ]; [exfalso|apply (I j j'); auto].
             destruct (Nat.eq_dec j' j) as [->|N]; [rewrite B in B'; apply Some_inj in B'; subst; lra|].
             pose proof (I (S j') (S j) hi' hi ltac:(lia) B' B). lra. }
           rewrite X. left. auto.
Qed.
