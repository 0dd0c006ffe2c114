(** Proofs on the components of a network. *)
From Coq Require Import List Arith ZArith Bool Permutation Lia.
From Verif Require Import Base Sort Spec Generic_model Generic_proofs Corr_model Corr_proofs Corr_more TrackObs_more NetGroup_model
  Net_model Net_spec Net_sort Net_dfs Net_links Net_reach Net_relax NetSeg_model NetSeg_spec NetSeg_proofs NetSeg_order.
Import ListNotations.

Section Tag.
Context (enum : list nat -> list nat) (conn : list (nat * nat)) (nb : nat).
Hypothesis EN : forall l x, In x (enum l) <-> In x l.
Hypothesis CB : forall u v, In v (connected conn u) -> u < nb /\ v < nb.
Hypothesis CS : forall u v, In v (connected conn u) -> In u (connected conn v).

Let R (a b : nat) : Prop := In b (connected conn a).
Definition tmark (v : nat) (m : list bool) : list bool := upd m v true.
Definition tout (v : nat) : list nat := enum (connected conn v).
Definition nz (g : list nat) : list bool := map (fun x => negb (x =? 0)) g.

Lemma nz_upd : forall g v t, t <> 0 -> nz (upd g v t) = tmark v (nz g).
Proof.
  intros g v t T. apply nth_error_ext. intros k. unfold nz, tmark. rewrite nth_error_map. destruct (Nat.eq_dec k v) as [->|N].
  - destruct (le_lt_dec (length g) v).
    + rewrite !(proj2 (nth_error_None _ _)); auto; rewrite length_upd; auto. rewrite map_length; auto.
    + rewrite !nth_error_upd_eq; [|rewrite map_length; auto|auto]. simpl. destruct (Nat.eqb_spec t 0); [contradiction|auto].
  - rewrite !nth_error_upd_neq, nth_error_map by auto. auto.
Qed.
Lemma on_nz : forall g k, on (nz g) k <-> exists x, nth_error g k = Some x /\ x <> 0.
Proof.
  intros g k. unfold on, nz. rewrite nth_error_map. destruct (nth_error g k) as [x|]; simpl; split.
  - intros H. apply Some_inj in H. exists x. split; [auto|]. destruct (Nat.eqb_spec x 0); [discriminate|auto].
  - intros (y & E & N). apply Some_inj in E. subst. destruct (Nat.eqb_spec y 0); [contradiction|auto].
  - discriminate.
  - intros (y & E & _). discriminate.
Qed.

Definition painted (tag : nat) (g g' : list nat) : Prop :=
  length g' = length g /\ (forall k x, nth_error g k = Some x -> x <> 0 -> nth_error g' k = Some x) /\
  (forall k, nth_error g k = Some 0 -> nth_error g' k = Some 0 \/ nth_error g' k = Some tag).
Lemma painted_trans : forall tag a b c, painted tag a b -> painted tag b c -> painted tag a c.
Proof.
  intros tag a b c (L1 & K1 & Z1) (L2 & K2 & Z2). split; [lia|]. split; [auto|].
  intros k H. destruct (Z1 k H) as [E|E]; [auto|]. destruct (Nat.eq_dec tag 0) as [->|N]; [auto|]. right. auto.
Qed.
Lemma tag_explore : forall tag, tag <> 0 -> forall fuel v g m', nth_error g v = Some 0 -> explore tmark tout fuel v (nz g) = Some m' ->
  exists g', tag_from enum conn tag fuel v g = Some g' /\ nz g' = m' /\ painted tag g g'.
Proof.
  intros tag T. induction fuel as [|fuel IH]; intros v g m' Z H; [discriminate|]. cbn [explore] in H.
  cbn [tag_from]. rewrite Z. cbn [bind Nat.eqb negb].
  assert (P0 : painted tag g (upd g v tag)).
  { split; [apply length_upd|]. split.
    - intros k x Hk N. rewrite nth_error_upd_neq; auto. intros ->. rewrite Z in Hk. apply Some_inj in Hk. auto.
    - intros k Hk. destruct (Nat.eq_dec k v) as [->|N]; [right; apply nth_error_upd_eq; eapply nth_error_Some_lt; eauto|left; rewrite nth_error_upd_neq; auto]. }
  rewrite <- (nz_upd g v tag T) in H. fold (tout v).
  revert P0 H. generalize (upd g v tag) as cur. induction (tout v) as [|y l IHl]; intros cur PC H.
  - simpl in H. apply Some_inj in H. exists cur. auto.
  - cbn [fold_left bind] in H |- *. destruct (nth_error cur y) as [x|] eqn:Hx.
    + assert (NZ : nth_error (nz cur) y = Some (negb (x =? 0))) by (unfold nz; rewrite nth_error_map, Hx; auto).
      rewrite NZ in H. cbn [bind] in H. destruct (Nat.eqb_spec x 0) as [X0|N]; cbn [negb] in H.
      * rewrite X0 in Hx. destruct (explore tmark tout fuel y (nz cur)) as [m1|] eqn:E1.
        -- destruct (IH y cur m1 Hx E1) as (g1 & G1 & N1 & P1). rewrite G1. rewrite <- N1 in H. apply IHl; auto. eapply painted_trans; eauto.
        -- exfalso. clear - H. induction l; [discriminate|]. auto.
      * assert (E : tag_from enum conn tag fuel y cur = Some cur).
        { destruct fuel; cbn [tag_from]; rewrite Hx; cbn [bind]; destruct (Nat.eqb_spec x 0); [contradiction|auto|contradiction|auto]. }
        rewrite E. apply IHl; auto.
    + exfalso. unfold nz in H. rewrite nth_error_map, Hx in H. cbn [option_map bind] in H. clear - H. induction l; [discriminate|]. auto.
Qed.
Lemma tag_call : forall tag v g, tag <> 0 -> v < nb -> length g = nb -> nth_error g v = Some 0 -> closed R (nz g) ->
  exists g', tag_from enum conn tag nb v g = Some g' /\ length g' = nb /\ closed R (nz g') /\
    (forall k x, nth_error g k = Some x -> x <> 0 -> nth_error g' k = Some x) /\
    (forall k, nth_error g k = Some 0 -> (reach R v k -> nth_error g' k = Some tag) /\ (~ reach R v k -> nth_error g' k = Some 0) /\ (nth_error g' k = Some tag -> reach R v k)).
Proof.
  intros tag v g T V L Z C.
  assert (LZ : length (nz g) = nb) by (unfold nz; rewrite map_length; auto).
  assert (ML : forall v m, length m = nb -> length (tmark v m) = nb) by (intros; unfold tmark; rewrite length_upd; auto).
  assert (MS : forall v m k, v < nb -> length m = nb -> k < nb -> (on (tmark v m) k <-> k = v \/ on m k)).
  { intros u m k U M K. unfold on, tmark. destruct (Nat.eq_dec k u) as [->|N].
    - rewrite nth_error_upd_eq by lia. tauto.
    - rewrite nth_error_upd_neq by auto. tauto. }
  assert (OL : forall v y, v < nb -> In y (tout v) -> y < nb) by (intros u y U H; apply (proj1 (EN _ _)) in H; apply CB in H; tauto).
  destruct (explore_spec nb tmark (fun v k => k = v) tout) with (R := R) (fuel := nb) (v := v) (m := nz g) as (m' & E & PL & P2 & P3 & P4 & P5); auto.
  { intros u k U ->; auto. }
  { intros u k U ->. constructor. }
  { intros u y U H. exists u. split; [auto|]. apply (proj1 (EN _ _)) in H. exact H. }
  { intros u x y U -> H. right. apply EN. exact H. }
  { assert (X : free (tmark v (nz g)) < free (nz g)).
    { apply (free_strict (nz g) (tmark v (nz g)) v).
      - rewrite ML; auto.
      - intros k Hk. apply MS; auto. apply on_lt in Hk. lia.
      - intros Hk. apply on_nz in Hk as (x & Hx & N). rewrite Z in Hx. apply Some_inj in Hx. auto.
      - apply MS; auto. }
    unfold free in X. unfold free. lia. }
  destruct (tag_explore tag T nb v g m' Z E) as (g' & E' & NZ & PT1 & PT2 & PT3).
  assert (C' : closed R m').
  { intros x y Hx Rxy. destruct (on_dec (nz g) x) as [H|H]; [apply P2; eapply C; eauto|]. apply (P5 x y); auto. }
  exists g'. split; [auto|]. split; [lia|]. split; [rewrite NZ; auto|]. split; [auto|]. intros k Hk.
  assert (OFF : ~ on (nz g) k). { intros X. apply on_nz in X as (x & Hx & N). rewrite Hk in Hx. apply Some_inj in Hx. auto. }
  assert (ON : on m' k <-> reach R v k).
  { split.
    - intros X. apply P4 in X as [X|X]; [contradiction|auto].
    - intros X. apply (closed_reach R m' v k C' X). apply P3. auto. }
  assert (TG : on m' k <-> nth_error g' k = Some tag).
  { rewrite <- NZ, on_nz. split.
    - intros (x & Hx & N). destruct (PT3 k Hk) as [X|X]; [congruence|auto].
    - intros X. eauto. }
  split; [|split].
  - intros X. apply TG, ON. auto.
  - intros X. destruct (PT3 k Hk) as [Y|Y]; [auto|]. exfalso. apply X, ON, TG. auto.
  - intros X. apply ON, TG. auto.
Qed.

Lemma reach_sym : forall a b, reach R a b -> reach R b a.
Proof. intros a b H. induction H; [constructor|]. eapply reach_snoc; eauto. apply CS. auto. Qed.

Definition tag_inv (j : nat) (g : list nat) : Prop :=
  length g = nb /\ 1 <= j /\ closed R (nz g) /\
  (forall s x, nth_error g s = Some x -> x < j) /\ (forall t, 1 <= t < j -> exists s, nth_error g s = Some t) /\
  (forall s t x y, nth_error g s = Some x -> nth_error g t = Some y -> x <> 0 -> y <> 0 -> (x = y <-> reach R s t)).

Lemma add_tag : forall j g g' v, v < nb -> tag_inv j g -> length g' = nb -> closed R (nz g') -> nth_error g v = Some 0 ->
  (forall k x, nth_error g k = Some x -> x <> 0 -> nth_error g' k = Some x) ->
  (forall k, nth_error g k = Some 0 -> (reach R v k -> nth_error g' k = Some j) /\ (~ reach R v k -> nth_error g' k = Some 0) /\ (nth_error g' k = Some j -> reach R v k)) ->
  tag_inv (j + 1) g'.
Proof.
  intros j g g' v V (L & J & C & LT & ALL & EQ) L' C' Z KEEP NEW.
  assert (OLD : forall k y, nth_error g' k = Some y -> y <> 0 -> (nth_error g k = Some y /\ y < j) \/ (y = j /\ nth_error g k = Some 0 /\ reach R v k)).
  { intros k y Hy N. destruct (nth_error_lt_Some g k) as [x Hx]; [apply nth_error_Some_lt in Hy; lia|].
    destruct (Nat.eq_dec x 0) as [->|NX].
    - right. destruct (NEW k Hx) as (A & B & D). destruct (Nat.eq_dec y j) as [->|NJ]; [auto|]. exfalso.
      assert (NR : ~ reach R v k) by (intros X; apply A in X; congruence). apply B in NR. congruence.
    - left. rewrite (KEEP k x Hx NX) in Hy. apply Some_inj in Hy. subst. split; [auto|eapply LT; eauto]. }
  assert (JN : forall k y, nth_error g k = Some y -> y <> 0 -> ~ reach R v k).
  { intros k y Hy N X. apply reach_sym in X.
    assert (on (nz g) v) by (apply (closed_reach R (nz g) k v C X); apply on_nz; eauto).
    apply on_nz in H as (x & Hx & NX). rewrite Z in Hx. apply Some_inj in Hx. auto. }
  split; [auto|]. split; [lia|]. split; [auto|]. split; [|split].
  - intros s x Hx. destruct (Nat.eq_dec x 0) as [->|N]; [lia|]. destruct (OLD s x Hx N) as [[_ H]|[-> _]]; lia.
  - intros t T. destruct (Nat.eq_dec t j) as [->|N].
    + exists v. apply NEW; auto. constructor.
    + destruct (ALL t) as [s Hs]; [lia|]. exists s. apply KEEP; auto. lia.
  - intros s t x y Hs Ht NX NY. destruct (OLD s x Hs NX) as [[Hs' LS]|[-> [Hs' RS]]], (OLD t y Ht NY) as [[Ht' LT']|[-> [Ht' RT]]].
    + apply EQ; auto.
    + split; [lia|]. intros X. exfalso. apply (JN s x Hs' NX). eapply reach_trans; [exact RT|apply reach_sym; auto].
    + split; [lia|]. intros X. exfalso. apply (JN t y Ht' NY). eapply reach_trans; [exact RS|auto].
    + split; [|auto]. intros _. eapply reach_trans; [apply reach_sym; eauto|auto].
Qed.

Lemma connected_nil : forall i, connected conn i = [] -> forall k, reach R i k -> k = i.
Proof. intros i E k H. destruct H as [|a b c Rab _]; [auto|]. unfold R in Rab. rewrite E in Rab. destruct Rab. Qed.

Lemma reach_connected : forall a b, reach R a b -> a <> b -> connected conn b <> [].
Proof.
  intros a b H N. apply reach_sym in H. destruct H as [|a b c Rab _]; [congruence|]. unfold R in Rab. intros E. rewrite E in Rab. destruct Rab.
Qed.
Theorem tag_loop_spec : forall len i j g, i + len = nb -> tag_inv j g -> (forall s x, s < i -> nth_error g s = Some x -> x <> 0) ->
  (forall s x, i <= s -> nth_error g s = Some x -> x <> 0 -> connected conn s <> []) ->
  exists g' j', tag_loop enum conn nb (seq i len) j g = Some g' /\ tag_inv j' g' /\ forall s x, nth_error g' s = Some x -> x <> 0.
Proof.
  induction len as [|len IH]; intros i j g E INV DONE PEND.
  - exists g, j. split; [reflexivity|]. split; [auto|]. intros s x Hs. apply (DONE s x); auto. apply nth_error_Some_lt in Hs. destruct INV as (L & _). lia.
  - cbn [seq tag_loop]. pose proof INV as (L & J & C & LT & ALL & EQ).
    destruct (nth_error_lt_Some g i) as [x Hx]; [lia|].
    assert (NEXT : forall g', (forall k y, nth_error g k = Some y -> y <> 0 -> nth_error g' k = Some y) -> length g' = nb -> (exists y, nth_error g' i = Some y /\ y <> 0) ->
      forall s y, s < S i -> nth_error g' s = Some y -> y <> 0).
    { intros g' KEEP L' (y0 & Hy0 & NY0) s y S Hs. destruct (Nat.eq_dec s i) as [->|N]; [rewrite Hy0 in Hs; apply Some_inj in Hs; subst; auto|].
      destruct (nth_error_lt_Some g s) as [z Hz]; [lia|]. assert (NZ : z <> 0) by (apply (DONE s z); auto; lia).
      rewrite (KEEP s z Hz NZ) in Hs. apply Some_inj in Hs. subst. auto. }
    destruct (connected conn i) as [|c cs] eqn:EC.
    + assert (X0 : x = 0). { destruct (Nat.eq_dec x 0); [auto|]. exfalso. apply (PEND i x); auto. }
      subst x. unfold store. destruct (Nat.ltb_spec i (length g)); [|lia]. cbn [bind].
      assert (KEEP : forall k y, nth_error g k = Some y -> y <> 0 -> nth_error (upd g i j) k = Some y).
      { intros k y Hk N. rewrite nth_error_upd_neq; auto. intros ->. rewrite Hx in Hk. apply Some_inj in Hk. auto. }
      assert (AT : nth_error (upd g i j) i = Some j) by (apply nth_error_upd_eq; lia).
      apply IH; [lia| | |].
      * apply (add_tag j g (upd g i j) i); auto; try lia.
        -- rewrite length_upd; auto.
        -- intros a b Ha Rab. assert (a <> i). { intros ->. unfold R in Rab. rewrite EC in Rab. destruct Rab. }
           apply on_nz in Ha as (y & Hy & NY). rewrite nth_error_upd_neq in Hy by auto.
           assert (B : on (nz g) b) by (apply (C a b); [apply on_nz; eauto|auto]). apply on_nz in B as (z & Hz & NZ).
           apply on_nz. exists z. auto.
        -- intros k Hk. split; [|split].
           ++ intros RC. apply (connected_nil i EC) in RC. subst. auto.
           ++ intros NR. rewrite nth_error_upd_neq; auto. intros ->. apply NR. constructor.
           ++ intros Hj. destruct (Nat.eq_dec k i) as [->|N]; [constructor|]. rewrite nth_error_upd_neq in Hj by auto. rewrite Hk in Hj. apply Some_inj in Hj. lia.
      * apply (NEXT (upd g i j)); auto; [rewrite length_upd; auto|]. exists j. split; [auto|lia].
      * intros s y S Hs N. rewrite nth_error_upd_neq in Hs by lia. apply (PEND s y); auto. lia.
    + rewrite Hx. cbn [bind]. destruct (Nat.eqb_spec x 0) as [X0|N]; cbn [negb].
      * subst x. destruct (tag_call j i g) as (g' & E' & L' & C' & KEEP & NEW); auto; try lia. rewrite E'. cbn [bind].
        apply IH; [lia| | |].
        -- apply (add_tag j g g' i); auto. lia.
        -- apply (NEXT g'); auto. exists j. split; [apply NEW; auto; constructor|lia].
        -- intros s y S Hs N. destruct (nth_error_lt_Some g s) as [z Hz]; [apply nth_error_Some_lt in Hs; lia|].
           destruct (Nat.eq_dec z 0) as [->|NZ]; [|apply (PEND s z); auto; lia].
           destruct (NEW s Hz) as (_ & B & D). destruct (Nat.eq_dec y j) as [->|NJ].
           ++ apply (reach_connected i s); [apply D; auto|lia].
           ++ exfalso. assert (NR : ~ reach R i s). { intros X. destruct (NEW s Hz) as (A & _). apply A in X. congruence. } apply B in NR. congruence.
      * apply IH; auto; try lia.
        -- intros s y S Hs. destruct (Nat.eq_dec s i) as [->|NE]; [rewrite Hx in Hs; apply Some_inj in Hs; subst; auto|]. apply (DONE s y); auto. lia.
        -- intros s y S. apply PEND. lia.
Qed.
Theorem tags_spec : exists g j, tag_loop enum conn nb (seq 0 nb) 1 (repeat 0 nb) = Some g /\ length g = nb /\
  (forall s x, nth_error g s = Some x -> 1 <= x < j) /\ (forall t, 1 <= t < j -> exists s, nth_error g s = Some t) /\
  (forall s t x y, nth_error g s = Some x -> nth_error g t = Some y -> (x = y <-> reach R s t)).
Proof.
  assert (Z : forall s x, nth_error (repeat 0 nb) s = Some x -> x = 0).
  { intros s x H. rewrite nth_error_repeat_lt in H. destruct (s <? nb); [|discriminate]. apply Some_inj in H. auto. }
  destruct (tag_loop_spec nb 0 1 (repeat 0 nb)) as (g & j & E & (L & J & C & LT & ALL & EQ) & NZ); auto.
  - split; [apply repeat_length|]. split; [auto|]. split; [|split; [|split]].
    + intros a b H. apply on_nz in H as (x & Hx & N). apply Z in Hx. contradiction.
    + intros s x H. apply Z in H. lia.
    + intros t T. lia.
    + intros s t x y H _ N. apply Z in H. contradiction.
  - intros s x S. lia.
  - intros s x _ H N. apply Z in H. contradiction.
  - exists g, j. split; [auto|]. split; [auto|]. split; [|split; [auto|]].
    + intros s x H. split; [apply NZ in H; lia|eapply LT; eauto].
    + intros s t x y Hs Ht. apply EQ; auto; [eapply NZ|eapply NZ]; eauto.
Qed.
End Tag.

(** ** Dissociation *)
Lemma joined_sym : forall rows ids u v, joined_ids rows ids u v -> joined_ids rows ids v u.
Proof. intros rows ids u v (x & y & E & U & V). exists y, x. tauto. Qed.
Lemma reach_nwalk : forall (R : nat -> nat -> Prop) a b, reach R a b <-> exists k, nwalk R k a b.
Proof.
  intros R a b. split.
  - intros H. induction H as [|a b c H1 H2 [k IH]]; [exists 0; constructor|]. exists (S k). econstructor; eauto.
  - intros (k & W). induction W; [constructor|econstructor; eauto].
Qed.

Theorem tag_segment_spec : forall enum rows, (forall l x, In x (enum l) <-> In x l) -> rows <> [] -> segment_sorted rows -> links_ok rows ->
  exists seg tags j, segment_track_array rows = Some seg /\ length seg = length rows /\ tag_segment enum rows = Some tags /\
    (forall k s, nth_error seg k = Some s -> exists t, nth_error tags s = Some t /\ 1 <= t < j) /\
    (forall t, 1 <= t < j -> exists k s, nth_error seg k = Some s /\ nth_error tags s = Some t) /\
    (forall p q s s' t t', nth_error seg p = Some s -> nth_error seg q = Some s' -> nth_error tags s = Some t -> nth_error tags s' = Some t' ->
       (t = t' <-> exists e, relative rows e p q)).
Proof.
  intros enum rows EN NE SS LK. destruct (index_spec rows NE SS) as (seg & first & last & EI & ES & SF & LL & SL & FULL & PL & P).
  pose proof SF as (LS & SO & SAME).
  destruct (connexions_spec rows seg first last seg SF LK LL SL LS) as (conn & EC & CC).
  set (nb := length first) in *.
  assert (CB : forall u v, In v (connected conn u) -> u < nb /\ v < nb).
  { intros u v H. apply CC in H as (x & y & _ & U & V). split; apply FULL; eauto. }
  assert (CS : forall u v, In v (connected conn u) -> In u (connected conn v)) by (intros u v H; apply CC, joined_sym, CC; auto).
  destruct (tags_spec enum conn nb EN CB CS) as (tags & j & ET & LT & T1 & T2 & T3).
  exists seg, tags, j. split; [auto|]. split; [auto|]. split.
  { unfold tag_segment. rewrite EI. cbn [bind]. rewrite PL. cbn [bind]. rewrite EC. cbn [bind]. replace (nb - 1 + 1) with nb by lia. auto. }
  split; [|split].
  - intros k s Hk. assert (S : s < nb) by (apply FULL; eauto). destruct (nth_error_lt_Some tags s) as [t Ht]; [lia|]. exists t. split; [auto|]. eapply T1; eauto.
  - intros t T. destruct (T2 t T) as [s Hs]. assert (S : s < nb) by (apply nth_error_Some_lt in Hs; lia). apply FULL in S as [k Hk]. eauto.
  - intros p q s s' t t' Hp Hq Ht Ht'. rewrite (T3 s s' t t' Ht Ht'), reach_nwalk. split.
    + intros (k & W). exists k. apply (relative_walk rows [] [] seg eq_refl LS SAME k p q s s' Hp Hq). exists k. split; [auto|].
      apply (nwalk_iff (fun a b => In b (connected conn a)) (joined_ids rows seg) CC). auto.
    + intros (e & H). apply (relative_walk rows [] [] seg eq_refl LS SAME e p q s s' Hp Hq) in H as (k & _ & W). exists k.
      apply (nwalk_iff (fun a b => In b (connected conn a)) (joined_ids rows seg) CC). auto.
Qed.

(** Result of dissociate_network. *)
Theorem dissociate_spec : forall enum rows r0, (forall l x, In x (enum l) <-> In x l) -> segment_sorted rows -> links_ok rows -> nth_error rows 0 = Some r0 ->
  exists ix t new, dissociate_network enum rows = Some (ix, t, new) /\ Permutation ix (seq 0 (length rows)) /\ length new = length rows /\
    (forall p q a b, p < q -> nth_error new p = Some a -> nth_error new q = Some b -> ordered [0; 1; 2] a b) /\
    (forall k i, nth_error ix k = Some i -> exists r r', nth_error rows i = Some r /\ nth_error new k = Some r' /\
       segment r' = segment r /\ time r' = time r /\ rest r' = rest r /\ link_moved ix (nxt r) (nxt r') /\ link_moved ix (prv r) (prv r')) /\
    (forall k l i j a b, nth_error ix k = Some i -> nth_error ix l = Some j -> nth_error new k = Some a -> nth_error new l = Some b ->
       (track a = track b <-> exists e, relative rows e i j)) /\
    exists nb, forall t, (exists a, In a new /\ track a = t) <-> (if track r0 =? 0 then t < nb else 1 <= t <= nb).
Proof.
  intros enum rows r0 EN SS LK H0. assert (NE : rows <> []) by (destruct rows; [discriminate|discriminate]).
  destruct (tag_segment_spec enum rows EN NE SS LK) as (seg & tags & j & ES & LS & ET & T1 & T2 & T3).
  unfold dissociate_network. rewrite ET. cbn [bind]. rewrite H0. cbn [bind]. rewrite ES. cbn [bind].
  set (f := fun t => if track r0 =? 0 then t - 1 else t).
  set (tags' := if track r0 =? 0 then map (fun t => t - 1) tags else tags).
  assert (TN : forall s t, nth_error tags s = Some t -> nth_error tags' s = Some (f t)).
  { intros s t H. unfold tags', f. destruct (track r0 =? 0); [rewrite nth_error_map, H; auto|auto]. }
  assert (FI : forall a b, 1 <= a -> 1 <= b -> (f a = f b <-> a = b)). { intros a b A B. unfold f. destruct (track r0 =? 0); lia. }
  destruct (gather_total tags' seg) as [tr G].
  { intros s H. apply In_nth_error in H as [k Hk]. destruct (T1 k s Hk) as (t & Ht & _). apply TN in Ht. eapply nth_error_Some_lt; eauto. }
  rewrite G. cbn [bind]. apply gather_Some in G as [LG GN].
  set (mid := map (fun rt => set_track (fst rt) (snd rt)) (combine rows tr)).
  assert (MN : forall i r s t, nth_error rows i = Some r -> nth_error seg i = Some s -> nth_error tags s = Some t -> nth_error mid i = Some (set_track r (f t))).
  { intros i r s t Hr Hs Ht. unfold mid. rewrite nth_error_map, nth_comb, Hr. pose proof (nth_error_Some_lt _ _ _ Hs).
    destruct (nth_error_lt_Some tr i) as [x Hx]; [lia|]. rewrite Hx. simpl. f_equal. f_equal.
    destruct (GN i s Hs) as (y & Y1 & Y2). rewrite (TN s t Ht) in Y1. congruence. }
  assert (ML : length mid = length rows). { unfold mid. rewrite map_length, combine_length. lia. }
  assert (SEG : forall i r, nth_error rows i = Some r -> exists s t, nth_error seg i = Some s /\ nth_error tags s = Some t /\ 1 <= t < j /\ nth_error mid i = Some (set_track r (f t))).
  { intros i r Hr. destruct (nth_error_lt_Some seg i) as [s Hs]; [apply nth_error_Some_lt in Hr; lia|]. destruct (T1 i s Hs) as (t & Ht & B).
    exists s, t. split; [auto|]. split; [auto|]. split; [auto|]. apply (MN i r s t); auto. }
  assert (MLK : links_ok mid).
  { intros r H. apply In_nth_error in H as [i Hi]. destruct (nth_error_lt_Some rows i) as [r' Hr]; [apply nth_error_Some_lt in Hi; lia|].
    destruct (SEG i r' Hr) as (s & t & _ & _ & _ & M). rewrite M in Hi. apply Some_inj in Hi. subst r. rewrite ML. apply (LK r'). eapply nth_error_In; eauto. }
  destruct (sort_spec [0; 1; 2] mid MLK) as (ix & tt & new & E & P & _ & [LM MV] & ORD). { intros g [<-|[<-|[<-|[]]]]; auto. }
  rewrite ML in P. exists ix, tt, new. split; [exact E|]. split; [auto|].
  assert (LIX : length ix = length rows) by (rewrite (Permutation_length P), seq_length; auto).
  split; [lia|]. split; [auto|].
  assert (DET : forall k i, nth_error ix k = Some i -> exists r r' s t, nth_error rows i = Some r /\ nth_error new k = Some r' /\ nth_error seg i = Some s /\ nth_error tags s = Some t /\
     1 <= t < j /\ same_obs (set_track r (f t)) r' /\ link_moved ix (nxt r) (nxt r') /\ link_moved ix (prv r) (prv r')).
  { intros k i Hk. destruct (MV k i Hk) as (m & r' & Hm & Hr' & SO & L1 & L2).
    destruct (nth_error_lt_Some rows i) as [r Hr]; [apply nth_error_Some_lt in Hm; lia|]. destruct (SEG i r Hr) as (s & t & Hs & Ht & B & M).
    rewrite M in Hm. apply Some_inj in Hm. subst m. exists r, r', s, t. simpl in L1, L2. auto 10. }
  split; [|split].
  - intros k i Hk. destruct (DET k i Hk) as (r & r' & s & t & Hr & Hr' & _ & _ & _ & (S1 & S2 & S3 & S4) & L1 & L2). exists r, r'. simpl in *. auto 10.
  - intros k l i i' a b Hk Hl Ha Hb. destruct (DET k i Hk) as (r & r' & s & t & Hr & Hr' & Hs & Ht & B & (S1 & _) & _).
    destruct (DET l i' Hl) as (q & q' & s' & t' & Hq & Hq' & Hs' & Ht' & B' & (S1' & _) & _).
    rewrite Ha in Hr'. rewrite Hb in Hq'. apply Some_inj in Hr', Hq'. subst r' q'. simpl in S1, S1'. rewrite <- S1, <- S1'. rewrite FI by lia.
    apply (T3 i i' s s'); auto.
  - exists (j - 1). intros x. split.
    + intros (a & Ha & <-). apply In_nth_error in Ha as [k Hk]. destruct (nth_error_lt_Some ix k) as [i Hi]; [apply nth_error_Some_lt in Hk; lia|].
      destruct (DET k i Hi) as (r & r' & s & t & Hr & Hr' & _ & _ & B & (S1 & _) & _). rewrite Hk in Hr'. apply Some_inj in Hr'. subst r'. simpl in S1. rewrite <- S1.
      unfold f. destruct (track r0 =? 0); lia.
    + intros X. set (t := if track r0 =? 0 then x + 1 else x). assert (B : 1 <= t < j) by (unfold t; destruct (track r0 =? 0); lia).
      assert (FT : f t = x) by (unfold f, t; destruct (track r0 =? 0); lia).
      destruct (T2 t B) as (i & s & Hs & Ht).
      assert (IN : In i ix). { apply (Permutation_in _ (Permutation_sym P)), in_seq. apply nth_error_Some_lt in Hs. lia. }
      apply In_nth_error in IN as [k Hk]. destruct (DET k i Hk) as (r & r' & s' & t' & Hr & Hr' & Hs' & Ht' & _ & (S1 & _) & _).
      rewrite Hs in Hs'. apply Some_inj in Hs'. subst s'. rewrite Ht in Ht'. apply Some_inj in Ht'. subst t'.
      exists r'. split; [eapply nth_error_In; eauto|]. simpl in S1. congruence.
Qed.
