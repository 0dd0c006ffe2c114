(** Proofs on the connections of segments and on relatives. *)
From Coq Require Import List Arith ZArith Bool Lia.
From Verif Require Import Base Sort Spec Generic_model Generic_proofs Corr_model Corr_proofs Corr_more TrackObs_more NetGroup_model
  Net_model Net_spec Net_dfs Net_links Net_reach Net_relax NetSeg_model NetSeg_spec.
Import ListNotations.

Lemma event_iff : forall rows i j, event rows i j <-> nat_link rows i j.
Proof.
  intros rows i j. unfold event, nat_link, end_link. split.
  - intros [(r & H & L & E)|(r & H & L & E)]; [right; exists i, r|left; exists j, r]; repeat split; auto; lia.
  - intros [(k & r & E & H & L & P & N)|(k & r & E & H & L & P & N)]; apply Nat2Z.inj in E; subst k; [right|left]; exists r; auto.
Qed.

Lemma nth_comb : forall {A B} (l : list A) (m : list B) k, nth_error (combine l m) k =
  match nth_error l k, nth_error m k with Some a, Some b => Some (a, b) | _, _ => None end.
Proof.
  induction l as [|a l IH]; intros m k; [destruct k; reflexivity|]. destruct m as [|b m]; [destruct k; simpl; [reflexivity|destruct (nth_error l k); reflexivity]|].
  destruct k; simpl; auto.
Qed.

(** ** The index of the segments *)
Definition triples (first last : list nat) : list (nat * nat * nat) := combine (combine first last) (seq 0 (length first)).
Lemma In_triples : forall first last a b s, length last = length first ->
  (In (a, b, s) (triples first last) <-> nth_error first s = Some a /\ nth_error last s = Some b).
Proof.
  intros first last a b s L. unfold triples. split.
  - intros H. apply In_nth_error in H as [k Hk]. rewrite nth_comb in Hk.
    destruct (nth_error (combine first last) k) as [[a' b']|] eqn:E1; [|discriminate].
    rewrite nth_comb in E1. destruct (nth_error first k) eqn:F; [|discriminate]. destruct (nth_error last k) eqn:E2; [|discriminate].
    rewrite nth_error_seq in Hk. destruct (k <? length first); [|discriminate]. injection E1 as -> ->. injection Hk as -> -> <-. simpl. auto.
  - intros [A B]. apply nth_error_In with s. rewrite !nth_comb, A, B, nth_error_seq.
    apply nth_error_Some_lt in A. destruct (Nat.ltb_spec s (length first)); [reflexivity|lia].
Qed.

Definition seg_facts (rows : list nrow) (seg : list nat) : Prop :=
  length seg = length rows /\
  (forall i j a b, i < j -> nth_error seg i = Some a -> nth_error seg j = Some b -> a <= b) /\
  (forall i j s, nth_error seg i = Some s -> (nth_error seg j = Some s <-> same_segment rows i j)).

Lemma between_values : forall seg, nth_error seg 0 = Some 0 ->
  (forall i x y, nth_error seg i = Some x -> nth_error seg (S i) = Some y -> y = x \/ y = S x) ->
  forall k v, nth_error seg k = Some v -> forall s, s <= v -> exists i, nth_error seg i = Some s.
Proof.
  intros seg Z ST. induction k as [|k IH]; intros v Hv s LE.
  - rewrite Z in Hv. apply Some_inj in Hv. subst. exists 0. replace s with 0 by lia. auto.
  - destruct (nth_error_lt_Some seg k) as [x Hx]; [apply nth_error_Some_lt in Hv; lia|].
    destruct (ST k x v Hx Hv) as [->| ->]; [eapply IH; eauto|].
    destruct (Nat.eq_dec s (S x)) as [->|N]; [eauto|]. eapply IH; eauto. lia.
Qed.

Theorem index_spec : forall rows, rows <> [] -> segment_sorted rows ->
  exists seg first last, index_segment_track rows = Some (seg, first, last, 0%Z) /\ segment_track_array rows = Some seg /\ seg_facts rows seg /\
    length last = length first /\ slices_of seg (triples first last) /\
    (forall s, s < length first <-> exists k, nth_error seg k = Some s) /\ pyget seg (-1) = Some (length first - 1) /\ 0 < length first.
Proof.
  intros rows NE SS. destruct (seg_spec rows NE SS) as (seg & ES & LS & SO & SAME & Z0 & ST).
  assert (NS : seg <> []) by (destruct seg; [discriminate|congruence]).
  set (g := map Z.of_nat seg).
  assert (GN : forall k v, nth_error g k = Some v <-> exists s, nth_error seg k = Some s /\ v = Z.of_nat s).
  { intros k v. unfold g. rewrite nth_error_map. destruct (nth_error seg k) as [s|]; simpl; split.
    - intros H. apply Some_inj in H. subst. eauto.
    - intros (t & H & ->). apply Some_inj in H. subst. auto.
    - discriminate.
    - intros (t & H & _). discriminate. }
  assert (SG : zsorted g).
  { intros i j a b L Ha Hb. apply GN in Ha as (s & Hs & ->). apply GN in Hb as (t & Ht & ->). pose proof (SO i j s t L Hs Ht). lia. }
  assert (NG : g <> []) by (unfold g; destruct seg; [congruence|discriminate]).
  destruct (build_index_tile g NG SG) as (first & last & i0 & EB & LL & I0 & RG & TILE & _ & _ & _).
  destruct (build_index_first g first last i0 SG EB) as (_ & _ & I1 & _ & P & _).
  assert (i0 = 0%Z).
  { apply In_nth_error in I0 as [k Hk]. apply GN in Hk as (s & _ & ->).
    assert (X : In 0%Z g) by (apply nth_error_In with 0; apply GN; exists 0; auto). apply RG in X. lia. }
  subst i0.
  assert (FULL : forall s, s < length first <-> exists k, nth_error seg k = Some s).
  { intros s. split.
    - intros L. apply In_nth_error in I1 as [k Hk]. apply GN in Hk as (v & Hv & E). apply (between_values seg Z0 ST k v Hv). lia.
    - intros (k & Hk). assert (X : In (Z.of_nat s) g) by (apply nth_error_In with k; apply GN; eauto). apply RG in X. lia. }
  exists seg, first, last. split; [unfold index_segment_track; rewrite ES; cbn [bind]; fold g; rewrite EB; reflexivity|].
  split; [auto|]. split; [split; [auto|split; auto]|]. split; [auto|]. split; [|split; [auto|split; [|auto]]].
  - split; [|split].
    + intros a b s H. apply In_triples in H as [A B]; auto. destruct (TILE s a b A B) as [LE RW].
      assert (RW' : forall k, a <= k < b <-> nth_error seg k = Some s).
      { intros k. rewrite RW, GN. split.
        - intros (t & Ht & E). replace s with t by lia. auto.
        - intros Hk. exists s. split; [auto|lia]. }
      split; [|auto]. apply nth_error_Some_lt in A. apply FULL in A as [k Hk]. apply RW' in Hk. lia.
    + intros k s Hk. assert (X : s < length first) by (apply FULL; eauto).
      destruct (nth_error_lt_Some first s X) as [a A]. destruct (nth_error_lt_Some last s) as [b B]; [lia|].
      exists a, b. apply In_triples; auto.
    + intros p q e f L Hp Hq. unfold triples in Hp, Hq. rewrite nth_comb in Hp, Hq.
      destruct (nth_error (combine first last) p) as [x|]; [|discriminate]. destruct (nth_error (combine first last) q) as [y|]; [|discriminate].
      rewrite nth_error_seq in Hp, Hq. destruct (p <? length first); [|discriminate]. destruct (q <? length first); [|discriminate].
      apply Some_inj in Hp, Hq. subst. simpl. lia.
  - rewrite pyget_last by auto. destruct (nth_error_lt_Some seg (length seg - 1)) as [v Hv]; [destruct seg; [congruence|simpl; lia]|].
    rewrite Hv. f_equal. assert (v < length first) by (apply FULL; eauto).
    assert (X : length first - 1 < length first) by lia. apply FULL in X as [k Hk].
    destruct (Nat.eq_dec k (length seg - 1)) as [->|N]; [rewrite Hv in Hk; apply Some_inj in Hk; auto|].
    pose proof (nth_error_Some_lt _ _ _ Hk). assert (length first - 1 <= v) by (eapply (SO k (length seg - 1)); eauto; lia). lia.
Qed.

(** ** Connections *)
Section Conn.
Context (rows : list nrow) (seg : list nat) (first last : list nat) (ids : list nat).
Hypothesis SF : seg_facts rows seg.
Hypothesis LK : links_ok rows.
Hypothesis LL : length last = length first.
Hypothesis SL : slices_of seg (triples first last).
Hypothesis LI : length ids = length rows.

Lemma sf_len : length seg = length rows. Proof. apply SF. Qed.
Lemma sf_same : forall i j s, nth_error seg i = Some s -> (nth_error seg j = Some s <-> same_segment rows i j). Proof. apply SF. Qed.
Lemma link_bounds : forall x y, nat_link rows x y -> x < length rows /\ y < length rows.
Proof.
  intros x y H. destruct (end_link_nat rows seg sf_len LK _ _ H) as (a & b & A & C & LA & LB). apply Nat2Z.inj in A, C. subst. auto.
Qed.
Lemma link_index : forall z, link_ok (length rows) z -> z <> (-1)%Z -> exists k, z = Z.of_nat k /\ k < length rows.
Proof. intros z [H|H] N; [contradiction|]. exists (Z.to_nat z). lia. Qed.

Lemma splits_spec : exists s, splits ids rows first = Some s /\
  forall u v, In (u, v) (concat s) <-> exists j i r, nth_error rows j = Some r /\ first_row rows j /\ prv r = Z.of_nat i /\ nth_error ids i = Some u /\ nth_error ids j = Some v.
Proof.
  unfold splits. set (f := fun a : nat => let! r := nth_error rows a in
    if (prv r =? -1)%Z then Some []
    else let! s1 := pyget ids (prv r) in let! s2 := nth_error ids a in Some [(s1, s2)]).
  assert (F : forall a, In a first -> exists r, nth_error rows a = Some r /\ first_row rows a /\
     ((prv r = (-1)%Z /\ f a = Some []) \/ exists i u v, prv r = Z.of_nat i /\ nth_error ids i = Some u /\ nth_error ids a = Some v /\ f a = Some [(u, v)])).
  { intros a H. apply In_nth_error in H as [s Hs]. destruct (nth_error_lt_Some last s) as [b B]; [apply nth_error_Some_lt in Hs; lia|].
    assert (T : In (a, b, s) (triples first last)) by (apply In_triples; auto).
    destruct (slice_rows rows seg _ sf_len SL a b s T) as (AB & BL & HA & HB).
    destruct (nth_error_lt_Some rows a) as [r Hr]; [lia|]. exists r. split; [auto|].
    split; [apply (first_iff rows seg _ sf_len SL sf_same a s HA); eauto|].
    unfold f. rewrite Hr. cbn [bind]. destruct (LK r (nth_error_In _ _ Hr)) as [_ OK].
    destruct (Z.eqb_spec (prv r) (-1)) as [E|N]; [left; auto|]. right.
    destruct (link_index _ OK N) as (i & E & I). destruct (nth_error_lt_Some ids i) as [u U]; [lia|].
    destruct (nth_error_lt_Some ids a) as [v V]; [lia|]. exists i, u, v. split; [auto|]. split; [auto|]. split; [auto|].
    rewrite (pyget_nat ids (prv r) i E) by lia. rewrite U. cbn [bind]. rewrite V. reflexivity. }
  destruct (sequence_spec f first) as (s & E & L & N).
  { intros a H. destruct (F a H) as (r & _ & _ & [[_ E]|(i & u & v & _ & _ & _ & E)]); eauto. }
  exists s. split; [exact E|]. intros u v. split.
  - intros H. apply in_concat in H as (l & Hl & Huv). apply In_nth_error in Hl as [k Hk].
    destruct (nth_error_lt_Some first k) as [a A]; [apply nth_error_Some_lt in Hk; lia|].
    destruct (N k a A) as (l' & Fa & Hl'). rewrite Hk in Hl'. apply Some_inj in Hl'. subst l'.
    destruct (F a (nth_error_In _ _ A)) as (r & Hr & FR & [[_ E']|(i & u' & v' & P & U & V & E')]); rewrite Fa in E'; apply Some_inj in E'; subst l.
    + destruct Huv.
    + destruct Huv as [Huv|[]]. injection Huv as -> ->. exists a, i, r. auto.
  - intros (j & i & r & Hr & FR & P & U & V). destruct (nth_error_lt_Some seg j) as [t Ht]; [apply nth_error_Some_lt in Hr; rewrite sf_len; auto|].
    apply (first_iff rows seg _ sf_len SL sf_same j t Ht) in FR as [b T]. apply In_triples in T as [A B]; auto.
    destruct (N t j A) as (l & Fa & Hl). apply in_concat. exists l. split; [eapply nth_error_In; eauto|].
    destruct (F j (nth_error_In _ _ A)) as (r' & Hr' & _ & [[P' E']|(i' & u' & v' & P' & U' & V' & E')]); rewrite Hr in Hr'; apply Some_inj in Hr'; subst r'.
    + rewrite P in P'. lia.
    + rewrite Fa in E'. apply Some_inj in E'. subst l. rewrite P in P'. apply Nat2Z.inj in P'. subst i'. rewrite U in U'. rewrite V in V'. apply Some_inj in U', V'. subst. left; auto.
Qed.
Lemma merges_spec : exists s, merges ids rows last = Some s /\
  forall u v, In (u, v) (concat s) <-> exists i j r, nth_error rows i = Some r /\ last_row rows i /\ nxt r = Z.of_nat j /\ nth_error ids j = Some u /\ nth_error ids i = Some v.
Proof.
  unfold merges. set (f := fun b : nat => let! r := pyget rows (Z.of_nat b - 1) in
    if (nxt r =? -1)%Z then Some []
    else let! s1 := pyget ids (nxt r) in let! s2 := pyget ids (Z.of_nat b - 1) in Some [(s1, s2)]).
  assert (F : forall b, In b last -> 0 < b /\ exists r, nth_error rows (b - 1) = Some r /\ last_row rows (b - 1) /\
     ((nxt r = (-1)%Z /\ f b = Some []) \/ exists i u v, nxt r = Z.of_nat i /\ nth_error ids i = Some u /\ nth_error ids (b - 1) = Some v /\ f b = Some [(u, v)])).
  { intros b H. apply In_nth_error in H as [s Hs]. destruct (nth_error_lt_Some first s) as [a A]; [apply nth_error_Some_lt in Hs; lia|].
    assert (T : In (a, b, s) (triples first last)) by (apply In_triples; auto).
    destruct (slice_rows rows seg _ sf_len SL a b s T) as (AB & BL & HA & HB). split; [lia|].
    destruct (nth_error_lt_Some rows (b - 1)) as [r Hr]; [lia|]. exists r. split; [auto|].
    split. { apply (last_iff rows seg _ sf_len SL sf_same (b - 1) s HB). replace (S (b - 1)) with b by lia. eauto. }
    assert (EB : (Z.of_nat b - 1)%Z = Z.of_nat (b - 1)) by lia.
    unfold f. rewrite (pyget_nat rows _ (b - 1) EB) by lia. rewrite Hr. cbn [bind]. destruct (LK r (nth_error_In _ _ Hr)) as [OK _].
    destruct (Z.eqb_spec (nxt r) (-1)) as [E|N]; [left; auto|]. right.
    destruct (link_index _ OK N) as (i & E & I). destruct (nth_error_lt_Some ids i) as [u U]; [lia|].
    destruct (nth_error_lt_Some ids (b - 1)) as [v V]; [lia|]. exists i, u, v. split; [auto|]. split; [auto|]. split; [auto|].
    rewrite (pyget_nat ids (nxt r) i E) by lia. rewrite U. cbn [bind]. rewrite (pyget_nat ids _ (b - 1) EB) by lia. rewrite V. reflexivity. }
  destruct (sequence_spec f last) as (s & E & L & N).
  { intros a H. destruct (F a H) as (_ & r & _ & _ & [[_ E]|(i & u & v & _ & _ & _ & E)]); eauto. }
  exists s. split; [exact E|]. intros u v. split.
  - intros H. apply in_concat in H as (l & Hl & Huv). apply In_nth_error in Hl as [k Hk].
    destruct (nth_error_lt_Some last k) as [b B]; [apply nth_error_Some_lt in Hk; lia|].
    destruct (N k b B) as (l' & Fa & Hl'). rewrite Hk in Hl'. apply Some_inj in Hl'. subst l'.
    destruct (F b (nth_error_In _ _ B)) as (_ & r & Hr & FR & [[_ E']|(i & u' & v' & P & U & V & E')]); rewrite Fa in E'; apply Some_inj in E'; subst l.
    + destruct Huv.
    + destruct Huv as [Huv|[]]. injection Huv as -> ->. exists (b - 1), i, r. auto.
  - intros (i & j & r & Hr & FR & P & U & V). destruct (nth_error_lt_Some seg i) as [t Ht]; [apply nth_error_Some_lt in Hr; rewrite sf_len; auto|].
    apply (last_iff rows seg _ sf_len SL sf_same i t Ht) in FR as [a T]. apply In_triples in T as [A B]; auto.
    destruct (N t _ B) as (l & Fa & Hl). apply in_concat. exists l. split; [eapply nth_error_In; eauto|].
    destruct (F _ (nth_error_In _ _ B)) as (_ & r' & Hr' & _ & CASES). replace (S i - 1) with i in * by lia.
    rewrite Hr in Hr'. apply Some_inj in Hr'. subst r'. destruct CASES as [[P' E']|(i' & u' & v' & P' & U' & V' & E')].
    + rewrite P in P'. lia.
    + rewrite Fa in E'. apply Some_inj in E'. subst l. rewrite P in P'. apply Nat2Z.inj in P'. subst i'. rewrite U in U'. rewrite V in V'. apply Some_inj in U', V'. subst. left; auto.
Qed.

(** Two identifiers are connected when an event joins two rows with them. *)
Definition joined_ids (u v : nat) : Prop := exists x y, (event rows x y \/ event rows y x) /\ nth_error ids x = Some u /\ nth_error ids y = Some v.
Theorem connexions_spec : exists conn, connexions ids rows first last = Some conn /\
  forall u v, In v (connected conn u) <-> joined_ids u v.
Proof.
  destruct splits_spec as (s & ES & HS). destruct merges_spec as (m & EM & HM).
  exists (concat s ++ concat m). split; [unfold connexions; rewrite ES; cbn [bind]; rewrite EM; reflexivity|].
  intros u v. unfold connected. rewrite nodup_In, in_flat_map. split.
  - intros ([a b] & H & C). simpl in C.
    assert (X : joined_ids a b).
    { apply in_app_or in H as [H|H].
      - apply HS in H as (j & i & r & Hr & FR & P & U & V). exists i, j. split; [left; right; eauto|auto].
      - apply HM in H as (i & j & r & Hr & FR & P & U & V). exists j, i. split; [right; left; eauto|auto]. }
    apply in_app_or in C as [C|C]; [destruct (Nat.eqb_spec a u); [|destruct C]|destruct (Nat.eqb_spec b u); [|destruct C]];
      destruct C as [C|[]]; subst; auto.
    destruct X as (x & y & E & U & V). exists y, x. tauto.
  - intros (x & y & E & U & V).
    assert (X : forall x y u v, event rows x y -> nth_error ids x = Some u -> nth_error ids y = Some v -> In (u, v) (concat s ++ concat m) \/ In (v, u) (concat s ++ concat m)).
    { clear x y u v E U V. intros x y u v [(r & H & L & N)|(r & H & L & N)] U V.
      - right. apply in_or_app. right. apply HM. exists x, y, r. auto.
      - left. apply in_or_app. left. apply HS. exists y, x, r. auto. }
    assert (Y : In (u, v) (concat s ++ concat m) \/ In (v, u) (concat s ++ concat m)).
    { destruct E as [E|E]; [apply (X x y); auto|]. destruct (X y x v u E V U); auto. }
    destruct Y as [Y|Y]; eexists; (split; [exact Y|]); simpl; rewrite Nat.eqb_refl; apply in_or_app; [left|right]; left; auto.
Qed.

(** Walks between identifiers and relatives. *)
Hypothesis SI : forall i j s, nth_error ids i = Some s -> (nth_error ids j = Some s <-> same_segment rows i j).
Theorem relative_walk : forall k i j s t, nth_error ids i = Some s -> nth_error ids j = Some t ->
  (relative rows k i j <-> exists e, e <= k /\ nwalk joined_ids e s t).
Proof.
  intros k i j s t Hs Ht. split.
  - intros H. revert s Hs Ht. induction H as [k i j H|k i j l (x & y & Sx & Sy & E) H IH]; intros s Hs Ht.
    + exists 0. split; [lia|]. apply (SI i j s Hs) in H. rewrite Ht in H. apply Some_inj in H. subst. constructor.
    + apply (SI i x s Hs) in Sx. destruct (nth_error_lt_Some ids j) as [u Hu].
      { destruct Sy as (a & b & A & _). apply nth_error_Some_lt in A. lia. }
      apply (SI j y u Hu) in Sy. destruct (IH u Hu Ht) as (e & LE & W). exists (S e). split; [lia|]. econstructor; [|exact W]. exists x, y. auto.
  - intros (e & LE & W). revert k i LE Hs. induction W as [a|e a b c (x & y & E & U & V) W IH]; intros k i LE Hs.
    + apply relative_same. apply (SI i j a Hs). auto.
    + destruct k as [|k]; [lia|]. apply (relative_step rows k i y j).
      * exists x, y. split; [apply (SI i x a Hs); auto|]. split; [apply (SI y y b V); auto|auto].
      * apply IH; auto. lia.
Qed.
End Conn.
