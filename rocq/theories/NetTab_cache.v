(** Proofs on the tables kept by a network between calls. *)
From Coq Require Import List Arith ZArith Bool Lia.
From Verif Require Import Base Spec Generic_model Generic_proofs Corr_model NetGroup_spec NetGroup_model NetGroup_more NetGroup_props Obs_model Obs_proofs Net_model Net_links NetSeg_proofs NetTab_model NetTab_proofs.
Import ListNotations.
Local Open Scope nat_scope.

(** ** Identifiers depend only on the places where the labels change *)
Lemma unique_step : forall id1 id2 u, length id1 = length id2 -> build_unique_array id1 id2 = Some u ->
  length u = length id1 /\ nth_error u 0 = Some 0 /\ forall i a b a' b' x, nth_error id1 i = Some a -> nth_error id2 i = Some b -> nth_error id1 (S i) = Some a' -> nth_error id2 (S i) = Some b' -> nth_error u i = Some x ->
    nth_error u (S i) = Some (if (a' =? a) && (b' =? b) then x else S x).
Proof.
  intros [|p1 id1] [|p2 id2] u L E; try discriminate. unfold build_unique_array in E. apply Some_inj in E. assert (LU : length u = length (p1 :: id1)) by (subst u; apply length_unique_loop; exact L). split; [exact LU|]. split.
  - subst u. cbn [unique_loop nth_error]. rewrite !Nat.eqb_refl. reflexivity.
  - intros i a b a' b' x A B A' B' X. destruct (nth_error_lt_Some u (S i)) as [y Y]; [rewrite LU; apply nth_error_Some_lt in A'; exact A'|]. rewrite Y. f_equal.
    apply (unique_loop_step (p1 :: id1) (p2 :: id2) 0 p1 p2 L (S i) a b x); [exact A|exact B|cbn [nth_error]; rewrite E; exact X|exact A'|exact B'|rewrite E; exact Y].
Qed.
Lemma unique_ext : forall id1 id2 id1' id2', length id1 = length id2 -> length id1' = length id2' -> length id1 = length id1' ->
  (forall i a b a' b' c d c' d', nth_error id1 i = Some a -> nth_error id2 i = Some b -> nth_error id1 (S i) = Some a' -> nth_error id2 (S i) = Some b' ->
     nth_error id1' i = Some c -> nth_error id2' i = Some d -> nth_error id1' (S i) = Some c' -> nth_error id2' (S i) = Some d' -> (a' = a /\ b' = b <-> c' = c /\ d' = d)) ->
  build_unique_array id1 id2 = build_unique_array id1' id2'.
Proof.
  intros id1 id2 id1' id2' L L' LL H. destruct (build_unique_array id1 id2) as [u|] eqn:E.
  - destruct (build_unique_array id1' id2') as [u'|] eqn:E'.
    + f_equal. destruct (unique_step _ _ _ L E) as (LU & Z & ST). destruct (unique_step _ _ _ L' E') as (LU' & Z' & ST').
      apply nth_error_ext. induction i as [|i IH]; [rewrite Z, Z'; reflexivity|]. destruct (le_lt_dec (length id1) (S i)) as [W|W].
      { rewrite (proj2 (nth_error_None u (S i))) by lia. rewrite (proj2 (nth_error_None u' (S i))) by lia. reflexivity. }
      destruct (nth_error_lt_Some id1 i ltac:(lia)) as [a A]. destruct (nth_error_lt_Some id2 i ltac:(lia)) as [b B]. destruct (nth_error_lt_Some id1 (S i) ltac:(lia)) as [a' A']. destruct (nth_error_lt_Some id2 (S i) ltac:(lia)) as [b' B'].
      destruct (nth_error_lt_Some id1' i ltac:(lia)) as [c C]. destruct (nth_error_lt_Some id2' i ltac:(lia)) as [d D]. destruct (nth_error_lt_Some id1' (S i) ltac:(lia)) as [c' C']. destruct (nth_error_lt_Some id2' (S i) ltac:(lia)) as [d' D'].
      destruct (nth_error_lt_Some u i ltac:(lia)) as [x X]. rewrite (ST i a b a' b' x A B A' B' X). rewrite X in IH. symmetry in IH. rewrite (ST' i c d c' d' x C D C' D' IH). f_equal.
      pose proof (H i _ _ _ _ _ _ _ _ A B A' B' C D C' D') as Q. destruct (Nat.eqb_spec a' a), (Nat.eqb_spec b' b), (Nat.eqb_spec c' c), (Nat.eqb_spec d' d); cbn; try reflexivity; exfalso; tauto.
    + exfalso. destruct id1' as [|x id1']; [destruct id1; [discriminate E|discriminate LL]|]. destruct id2' as [|y id2']; [discriminate L'|discriminate E'].
  - destruct id1 as [|x id1]; [destruct id1'; [reflexivity|discriminate LL]|]. destruct id2 as [|y id2]; [discriminate L|discriminate E].
Qed.

(** ** new_numbering and numbering_segment *)
Lemma numbering_step : forall segs start u, new_numbering segs start = Some u -> length u = length segs /\ nth_error u 0 = Some start /\
  forall i a a' x, nth_error segs i = Some a -> nth_error segs (S i) = Some a' -> nth_error u i = Some x -> nth_error u (S i) = Some (if a' =? a then x else S x).
Proof.
  intros [|s0 segs] start u E; [discriminate E|]. unfold new_numbering in E. apply Some_inj in E. cbn [numbering_loop] in E. rewrite Nat.eqb_refl in E. subst u.
  assert (LL : forall l j p, length (numbering_loop j p l) = length l) by (induction l as [|y l IH]; intros j p; cbn; [reflexivity|rewrite IH; reflexivity]).
  split; [cbn; rewrite LL; reflexivity|]. split; [reflexivity|].
  assert (G : forall l j p i a a' x, nth_error (p :: l) i = Some a -> nth_error (p :: l) (S i) = Some a' -> nth_error (j :: numbering_loop j p l) i = Some x -> nth_error (j :: numbering_loop j p l) (S i) = Some (if a' =? a then x else S x)).
  { induction l as [|y l IH]; intros j p i a a' x A A' X; [destruct i; discriminate A'|]. destruct i as [|i].
    - cbn in *. injection A as ->. injection A' as ->. injection X as ->. destruct (a' =? a); reflexivity.
    - change (nth_error (y :: l) (S i) = Some a') in A'. change (nth_error (y :: l) i = Some a) in A. cbn [numbering_loop nth_error] in X |- *.
      set (j' := if y =? p then j else S j) in *. exact (IH j' y i a a' x A A' X). }
  apply G.
Qed.
Lemma put_slice_nth : forall {A} (l src : list A) a b k, a <= b -> b <= length l -> length src = b - a ->
  nth_error (put_slice l a b src) k = if (a <=? k) && (k <? b) then nth_error src (k - a) else nth_error l k.
Proof.
  intros A l src a b k AB BL LS. unfold put_slice. destruct (Nat.leb_spec a k) as [H|H]; cbn [andb].
  - rewrite nth_error_app2 by (rewrite firstn_length; lia). rewrite firstn_length. replace (Nat.min a (length l)) with a by lia. destruct (Nat.ltb_spec k b) as [H'|H'].
    + rewrite nth_error_app1 by lia. reflexivity.
    + rewrite nth_error_app2 by lia. rewrite nth_skipn. f_equal. lia.
  - rewrite nth_error_app1 by (rewrite firstn_length; lia). apply nth_firstn. exact H.
Qed.
Lemma put_slice_length : forall {A} (l src : list A) a b, a <= b -> b <= length l -> length src = b - a -> length (put_slice l a b src) = length l.
Proof. intros A l src a b AB BL LS. unfold put_slice. rewrite !app_length, firstn_length, skipn_length. lia. Qed.
Lemma nth_slice_ : forall {A} (l : list A) a b k, nth_error (slice l a b) k = if k <? b - a then nth_error l (a + k) else None.
Proof. intros A l a b k. unfold slice. destruct (Nat.ltb_spec k (b - a)) as [H|H]; [rewrite nth_firstn by exact H; apply nth_skipn|]. apply nth_error_None. rewrite firstn_length. lia. Qed.
Lemma slice_len : forall {A} (l : list A) a b, b <= length l -> length (slice l a b) = b - a.
Proof. intros A l a b H. unfold slice. rewrite firstn_length, skipn_length. lia. Qed.
(** Two slices have no row in common. *)
Definition apart (sl : list (nat * nat * nat)) : Prop := forall p q a b x a' b' x' k, p <> q -> nth_error sl p = Some (a, b, x) -> nth_error sl q = Some (a', b', x') -> a <= k < b -> ~ a' <= k < b'.
Lemma slices_apart : forall seg sl, slices_of seg sl -> apart sl.
Proof.
  intros seg sl (H1 & _ & H3) p q a b x a' b' x' k N P Q K K'. destruct (H1 a b x (nth_error_In _ _ P)) as [_ J]. destruct (H1 a' b' x' (nth_error_In _ _ Q)) as [_ J']. apply J in K. apply J' in K'. rewrite K in K'. apply Some_inj in K'. subst x'.
  destruct (lt_eq_lt_dec p q) as [[W|W]|W]; [specialize (H3 _ _ _ _ W P Q)|contradiction|specialize (H3 _ _ _ _ W Q P)]; cbn in H3; lia.
Qed.
Lemma number_slices_spec : forall start sl s, apart sl -> (forall a b x, In (a, b, x) sl -> a < b /\ b <= length s) ->
  exists s', number_slices start sl s = Some s' /\ length s' = length s /\
    (forall k, (forall a b x, In (a, b, x) sl -> ~ a <= k < b) -> nth_error s' k = nth_error s k) /\
    (forall a b x, In (a, b, x) sl -> nth_error s' a = Some start /\ forall i v v' y, a <= i -> S i < b -> nth_error s i = Some v -> nth_error s (S i) = Some v' -> nth_error s' i = Some y -> nth_error s' (S i) = Some (if v' =? v then y else S y)).
Proof.
  intros start sl. induction sl as [|[[a b] x] sl IH]; intros s AP B.
  - exists s. split; [reflexivity|]. split; [reflexivity|]. split; [reflexivity|]. intros a b x [].
  - destruct (B a b x (or_introl eq_refl)) as [AB BL]. cbn [number_slices]. assert (SL : length (slice s a b) = b - a) by (apply slice_len; exact BL).
    destruct (new_numbering (slice s a b) start) as [u|] eqn:EU; [|exfalso; destruct (slice s a b); [cbn in SL; lia|discriminate EU]]. cbn [bind]. destruct (numbering_step _ _ _ EU) as (LU & U0 & US).
    assert (LP : length (put_slice s a b u) = length s) by (apply put_slice_length; lia).
    assert (AP' : apart sl) by (intros p q a1 b1 x1 a2 b2 x2 k N P Q; exact (AP (S p) (S q) a1 b1 x1 a2 b2 x2 k ltac:(lia) P Q)).
    destruct (IH (put_slice s a b u) AP') as (s' & E & LS & OUT & INS). { intros a' b' x' I. rewrite LP. apply (B a' b' x'). right. exact I. }
    exists s'. split; [exact E|]. split; [lia|].
    assert (DIS : forall a' b' x' k, In (a', b', x') sl -> a' <= k < b' -> ~ a <= k < b).
    { intros a' b' x' k I K K'. apply In_nth_error in I as [q Q]. exact (AP 0 (S q) a b x a' b' x' k ltac:(lia) eq_refl Q K' K). }
    split.
    + intros k N. rewrite OUT by (intros a' b' x' I; apply (N a' b' x'); right; exact I). rewrite put_slice_nth by lia. destruct (Nat.leb_spec a k); destruct (Nat.ltb_spec k b); cbn; try reflexivity. exfalso. apply (N a b x (or_introl eq_refl)). lia.
    + intros a' b' x' [I|I].
      * injection I as -> -> ->.
        assert (ME : forall k, a' <= k < b' -> nth_error s' k = nth_error u (k - a')).
        { intros k K. rewrite OUT by (intros a2 b2 x2 I2 K2; exact (DIS a2 b2 x2 k I2 K2 K)). rewrite put_slice_nth by lia. destruct (Nat.leb_spec a' k); [|lia]. destruct (Nat.ltb_spec k b'); [|lia]. reflexivity. }
        split; [rewrite ME by lia; rewrite Nat.sub_diag; exact U0|]. intros i v v' y H1 H2 V V' Y. rewrite ME in Y |- * by lia. replace (S i - a') with (S (i - a')) by lia. apply (US (i - a') v v' y); [| |exact Y].
        -- rewrite nth_slice_. destruct (Nat.ltb_spec (i - a') (b' - a')); [|lia]. replace (a' + (i - a')) with i by lia. exact V.
        -- rewrite nth_slice_. destruct (Nat.ltb_spec (S (i - a')) (b' - a')); [|lia]. replace (a' + S (i - a')) with (S i) by lia. exact V'.
      * destruct (INS a' b' x' I) as [I0 I1]. split; [exact I0|]. intros i v v' y H1 H2 V V' Y. apply (I1 i v v' y H1 H2); [| |exact Y].
        -- rewrite put_slice_nth by lia. destruct (Nat.leb_spec a i); destruct (Nat.ltb_spec i b); cbn; try exact V. exfalso. exact (DIS a' b' x' i I ltac:(lia) ltac:(lia)).
        -- rewrite put_slice_nth by lia. destruct (Nat.leb_spec a (S i)); destruct (Nat.ltb_spec (S i) b); cbn; try exact V'. exfalso. exact (DIS a' b' x' (S i) I ltac:(lia) ltac:(lia)).
Qed.
Lemma numbering_segment_spec : forall n start, length (sg n) = length (tr n) -> tr n <> [] -> nsorted (tr n) ->
  exists s', numbering_segment n start = Some (Net (tr n) s' (c_net n) (c_arr n) (c_seg n)) /\ length s' = length (tr n) /\
    (forall i t, nth_error (tr n) i = Some t -> (i = 0 \/ nth_error (tr n) (i - 1) <> Some t) -> nth_error s' i = Some start) /\
    (forall i t v v' y, nth_error (tr n) i = Some t -> nth_error (tr n) (S i) = Some t -> nth_error (sg n) i = Some v -> nth_error (sg n) (S i) = Some v' -> nth_error s' i = Some y ->
       nth_error s' (S i) = Some (if v' =? v then y else S y)).
Proof.
  intros n start L NE SO. destruct (slices_spec (tr n) NE SO) as (sl & E & SL). unfold numbering_segment. rewrite E. cbn [bind].
  assert (B : forall a b x, In (a, b, x) sl -> a < b /\ b <= length (sg n)).
  { intros a b x I. destruct (proj1 SL a b x I) as [AB J]. split; [exact AB|]. assert (X : nth_error (tr n) (b - 1) = Some x) by (apply J; lia). apply nth_error_Some_lt in X. lia. }
  destruct (number_slices_spec start sl (sg n) (slices_apart _ _ SL) B) as (s' & ES & LS & _ & INS). rewrite ES. cbn [bind]. exists s'. split; [reflexivity|]. split; [lia|]. destruct SL as (S1 & S2 & _). split.
  - intros i t T F. destruct (S2 i t T) as (a & b & I). destruct (S1 a b t I) as [AB J]. pose proof (proj2 (J i) T) as K. assert (i = a). { destruct F as [->|F]; [lia|]. destruct (Nat.eq_dec i a) as [Q|Q]; [exact Q|]. exfalso. apply F. apply J. lia. } subst i. apply (INS a b t I).
  - intros i t v v' y T T' V V' Y. destruct (S2 i t T) as (a & b & I). destruct (S1 a b t I) as [AB J]. pose proof (proj2 (J i) T) as K. pose proof (proj2 (J (S i)) T') as K'. exact (proj2 (INS a b t I) i v v' y ltac:(lia) ltac:(lia) V V' Y).
Qed.
Lemma numbering_segment_unique : forall n n' start, length (sg n) = length (tr n) -> tr n <> [] -> nsorted (tr n) -> numbering_segment n start = Some n' ->
  tr n' = tr n /\ length (sg n') = length (tr n) /\ c_net n' = c_net n /\ c_arr n' = c_arr n /\ c_seg n' = c_seg n /\ build_unique_array (sg n') (tr n') = build_unique_array (sg n) (tr n).
Proof.
  intros n n' start L NE SO E. destruct (numbering_segment_spec n start L NE SO) as (s' & E' & LS & _ & ST). rewrite E in E'. apply Some_inj in E'. subst n'. cbn [tr sg c_net c_arr c_seg]. do 5 (split; [first [reflexivity|exact LS]|]).
  apply unique_ext; [exact LS|exact L|lia|]. intros i a b a' b' c d c' d' A B A' B' C D C' D'. rewrite B in D. rewrite B' in D'. apply Some_inj in D, D'. subst d d'. destruct (Nat.eq_dec b' b) as [Q|Q]; [|tauto].
  subst b'. pose proof (ST i b c c' a B B' C C' A) as X. rewrite A' in X. apply Some_inj in X. destruct (Nat.eqb_spec c' c) as [W|W]; split; intros [Q1 Q2]; split; try reflexivity; try lia; try contradiction.
Qed.
Lemma numbering_network_unique : forall n n' start, length (sg n) = length (tr n) -> nsorted (tr n) -> numbering_network n start = Some n' ->
  nsorted (tr n') /\ length (tr n') = length (tr n) /\ sg n' = sg n /\ c_net n' = c_net n /\ c_arr n' = c_arr n /\ c_seg n' = c_seg n /\ build_unique_array (sg n') (tr n') = build_unique_array (sg n) (tr n).
Proof.
  intros n n' start L SO E. unfold numbering_network in E. apply bind_Some in E as (t' & ET & E). apply Some_inj in E. subst n'. cbn [tr sg c_net c_arr c_seg]. destruct (numbering_step _ _ _ ET) as (LT & _ & ST).
  assert (NE : tr n <> []) by (intros Q; rewrite Q in ET; discriminate ET). destruct (numbering_spec (tr n) start NE SO) as (u & EU & LU & _ & _ & IFF). rewrite ET in EU. apply Some_inj in EU. subst u.
  split. { intros i j a b I A B. destruct (nth_error_lt_Some (tr n) i) as [p P]; [apply nth_error_Some_lt in A; lia|]. destruct (nth_error_lt_Some (tr n) j) as [q Q]; [apply nth_error_Some_lt in B; lia|].
    destruct (IFF j i q p b a Q P B A) as [_ W]. pose proof (SO i j p q I P Q). destruct (le_lt_dec a b) as [Z|Z]; [exact Z|]. apply W in Z. lia. }
  split; [exact LT|]. do 4 (split; [reflexivity|]). apply unique_ext; [lia|exact L|reflexivity|]. intros i a b a' b' c d c' d' A B A' B' C D C' D'. rewrite A in C. rewrite A' in C'. apply Some_inj in C, C'. subst c c'.
  pose proof (ST i d d' b D D' B) as X. rewrite B' in X. apply Some_inj in X. destruct (Nat.eqb_spec d' d) as [W|W]; split; intros [Q1 Q2]; split; try assumption; try lia; try contradiction.
Qed.
