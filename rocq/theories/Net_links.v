(** Proofs on the segments of a network and on find_link. *)
From Coq Require Import List Arith ZArith QArith Qround Bool Lia Lqa.
From Verif Require Import Base Sort Spec Generic_model Corr_model NetGroup_spec NetGroup_model NetGroup_more
  Obs_spec Obs_model Obs_proofs Obs_align Net_model Net_spec Net_dfs.
Import ListNotations.
Local Close Scope Q_scope.
Local Open Scope nat_scope.

(** ** Slices of the segments *)
Definition qof (s : nat) : Q := inject_Z (Z.of_nat s).
Lemma qof_le : forall a b, a <= b -> (qof a <= qof b)%Q.
Proof. intros. unfold qof. rewrite <- Zle_Qle. lia. Qed.

Lemma sequence_spec : forall {A B} (f : A -> option B) l, (forall a, In a l -> exists b, f a = Some b) ->
  exists r, sequence (map f l) = Some r /\ length r = length l /\ forall k a, nth_error l k = Some a -> exists b, f a = Some b /\ nth_error r k = Some b.
Proof.
  induction l as [|a l IH]; intros H.
  - exists []. simpl. repeat split; auto. intros [|k] a E; discriminate.
  - destruct (H a (or_introl eq_refl)) as [b Hb]. destruct IH as (r & E & L & S); [intros; apply H; right; auto|].
    cbn [map sequence]. rewrite Hb. cbn [bind]. rewrite E. cbn [bind]. exists (b :: r). repeat split; simpl; auto.
    intros [|k] x Hx; simpl in *; [apply Some_inj in Hx; subst; eauto|auto].
Qed.

Definition slices_of (seg : list nat) (sl : list (nat * nat * nat)) : Prop :=
  (forall a b s, In (a, b, s) sl -> a < b /\ forall k, a <= k < b <-> nth_error seg k = Some s) /\
  (forall k s, nth_error seg k = Some s -> exists a b, In (a, b, s) sl) /\
  (forall p q e f, p < q -> nth_error sl p = Some e -> nth_error sl q = Some f -> snd e < snd f).

Lemma slices_spec : forall seg, seg <> [] -> (forall i j a b, i < j -> nth_error seg i = Some a -> nth_error seg j = Some b -> a <= b) ->
  exists sl, segment_slices seg = Some sl /\ slices_of seg sl.
Proof.
  intros seg NE S. unfold segment_slices. set (x := map _ seg).
  assert (NX : x <> []) by (destruct seg; [congruence|discriminate]).
  assert (XN : forall k v, nth_error x k = Some v <-> exists s, nth_error seg k = Some s /\ v = qof s).
  { intros k v. unfold x. rewrite nth_error_map. destruct (nth_error seg k) as [s|]; simpl; split.
    - intros H. apply Some_inj in H. subst. eauto.
    - intros (t & H & ->). apply Some_inj in H. subst. auto.
    - discriminate.
    - intros (t & H & _). discriminate. }
  assert (SX : qsorted x).
  { intros i j a b L Ha Hb. apply XN in Ha as (s & Hs & ->). apply XN in Hb as (t & Ht & ->). apply qof_le. eapply S; eauto. }
  destruct (default_bins_spec x NX) as (bins & DB & I & L & IN & lo0 & IL & BV).
  assert (E : iter_on (fun _ => []) true x None = iter_on (fun _ => []) true x (Some bins)).
  { unfold iter_on. rewrite DB. reflexivity. }
  destruct (iter_on_sorted (fun _ => []) true x bins NX SX I L IN) as (gs & EG & (ND & VI & GR & LO) & SLI).
  rewrite E, EG.
  assert (LOI : exists c, lo0 = qof c).
  { apply In_nth_error in IL as [k Hk]. apply XN in Hk as (s & _ & ->). eauto. }
  destruct LOI as [c ->].
  assert (BZ : forall j b, nth_error bins j = Some b -> (b == qof (c + j))%Q).
  { intros j b H. apply BV in H. subst b. unfold qof. rewrite <- inject_Z_plus. rewrite Nat2Z.inj_add. reflexivity. }
  set (f := fun g : rows * Q * Q => match g with (Slice a b, lo, _) => Some (a, b, Z.to_nat (Qfloor lo)) | _ => None end).
  assert (GB : forall g, In g gs -> exists a b lo hi j, g = (Slice a b, lo, hi) /\ (lo == qof (c + j))%Q /\ (hi == qof (c + j + 1))%Q /\ nth_error bins j = Some lo /\ a < b /\
     forall k, a <= k < b <-> nth_error seg k = Some (c + j)).
  { intros [[r lo] hi] H. destruct (SLI _ H) as (a & b & Er). simpl in Er. subst r.
    destruct (GR (seq a (b - a)) lo hi) as (NR & (j & B1 & B2) & RW).
    { apply (in_map Obs_proofs.view) in H. exact H. }
    exists a, b, lo, hi, j. split; [auto|]. split; [apply BZ; auto|]. split; [rewrite (BZ _ _ B2); replace (c + Datatypes.S j) with (c + j + 1) by lia; reflexivity|].
    split; [auto|]. assert (AB : a < b). { destruct (b - a) eqn:D; [simpl in NR; congruence|lia]. }
    split; [auto|]. intros k. specialize (RW k). rewrite in_seq in RW. replace (a + (b - a)) with b in RW by lia. rewrite RW. split.
    - intros (v & Hv & V1 & V2). apply XN in Hv as (s & Hs & ->). rewrite (BZ _ _ B1) in V1. rewrite (BZ _ _ B2) in V2.
      unfold qof in V1, V2. rewrite <- Zle_Qle in V1. rewrite <- Zlt_Qlt in V2. rewrite Hs. f_equal. lia.
    - intros Hs. exists (qof (c + j)). split; [apply XN; eauto|]. rewrite (BZ _ _ B1), (BZ _ _ B2). unfold qof. rewrite <- Zle_Qle, <- Zlt_Qlt. lia. }
  destruct (sequence_spec f gs) as (sl & ES & SL & SN).
  { intros g H. destruct (GB g H) as (a & b & lo & hi & j & -> & _). simpl. eauto. }
  exists sl. split; [exact ES|]. assert (SL' : length sl = @length group gs) by exact SL.
  assert (FV : forall a b lo hi j, (lo == qof (c + j))%Q -> f (Slice a b, lo, hi) = Some (a, b, c + j)).
  { intros a b lo hi j H. simpl. do 2 f_equal. rewrite (Qfloor_comp _ _ H). unfold qof. rewrite Qfloor_Z. lia. }
  assert (SG : forall k e, nth_error sl k = Some e -> exists g, nth_error gs k = Some g /\ f g = Some e).
  { intros k e H. destruct (nth_error_lt_Some gs k) as [g Hg]; [apply nth_error_Some_lt in H; lia|].
    destruct (SN k g Hg) as (b & Hb & Hr). rewrite H in Hr. apply Some_inj in Hr. subst. eauto. }
  split; [|split].
  - intros a b s H. apply In_nth_error in H as [k Hk]. apply SG in Hk as (g & Hg & Fg).
    destruct (GB g (nth_error_In _ _ Hg)) as (a' & b' & lo & hi & j & -> & Q1 & _ & _ & AB & RW).
    rewrite (FV a' b' lo hi j Q1) in Fg. apply Some_inj in Fg. injection Fg as <- <- <-. auto.
  - intros k s Hs.
    assert (IC : In k (concat (map (fun g => fst (fst g)) (map Obs_proofs.view gs)))).
    { apply VI. exists (qof s). split; [apply XN; eauto|]. apply IN. apply (nth_error_In x k). apply XN. eauto. }
    apply in_concat in IC as (rw & IR & IK). rewrite map_map in IR. apply in_map_iff in IR as (g & <- & Hg).
    destruct (GB g Hg) as (a & b & lo & hi & j & -> & Q1 & _ & _ & AB & RW). simpl in IK. apply in_seq in IK.
    assert (Sj : nth_error seg k = Some (c + j)) by (apply RW; lia). rewrite Hs in Sj. apply Some_inj in Sj. subst s.
    apply In_nth_error in Hg as [p Hp]. destruct (SN p _ Hp) as (e & Fe & Ee). rewrite (FV a b lo hi j Q1) in Fe. apply Some_inj in Fe. subst e.
    exists a, b. eapply nth_error_In; eauto.
  - intros p q e g LT He Hg. apply SG in He as (g1 & Hg1 & F1). apply SG in Hg as (g2 & Hg2 & F2).
    destruct (GB g1 (nth_error_In _ _ Hg1)) as (a1 & b1 & l1 & h1 & j1 & -> & Q1 & _).
    destruct (GB g2 (nth_error_In _ _ Hg2)) as (a2 & b2 & l2 & h2 & j2 & -> & Q2 & _).
    rewrite (FV a1 b1 l1 h1 j1 Q1) in F1. rewrite (FV a2 b2 l2 h2 j2 Q2) in F2. apply Some_inj in F1, F2. subst. simpl.
    assert (X : (l1 < l2)%Q).
    { apply (LO p q); auto; rewrite map_map, nth_error_map; [rewrite Hg1|rewrite Hg2]; reflexivity. }
    rewrite Q1, Q2 in X. unfold qof in X. rewrite <- Zlt_Qlt in X. lia.
Qed.

(** ** Numbers of the segments *)
Lemma seg_spec : forall rows, rows <> [] -> segment_sorted rows ->
  exists seg, segment_track_array rows = Some seg /\ length seg = length rows /\
    (forall i j a b, i < j -> nth_error seg i = Some a -> nth_error seg j = Some b -> a <= b) /\
    (forall i j s, nth_error seg i = Some s -> (nth_error seg j = Some s <-> same_segment rows i j)) /\
    nth_error seg 0 = Some 0 /\
    (forall i x y, nth_error seg i = Some x -> nth_error seg (S i) = Some y -> y = x \/ y = S x).
Proof.
  intros rows NE SS. unfold segment_track_array.
  destruct (unique_spec (map segment rows) (map track rows)) as (u & E & L & Z0 & ST & EQ).
  { rewrite !map_length. auto. }
  { destruct rows; [congruence|discriminate]. }
  { intros i j a b a' b' LT H1 H2 H3 H4. rewrite nth_error_map in H1, H2, H3, H4.
    destruct (nth_error rows i) as [r|] eqn:Hr; [|discriminate]. destruct (nth_error rows j) as [t|] eqn:Ht; [|discriminate].
    simpl in *. apply Some_inj in H1, H2, H3, H4. subst. exact (SS i j r t LT Hr Ht). }
  rewrite map_length in L. exists u. split; [auto|]. split; [auto|].
  assert (G : forall i x, nth_error u i = Some x -> exists r, nth_error rows i = Some r).
  { intros i x H. apply nth_error_lt_Some. apply nth_error_Some_lt in H. lia. }
  assert (EQR : forall i j r t x y, nth_error rows i = Some r -> nth_error rows j = Some t -> nth_error u i = Some x -> nth_error u j = Some y ->
     (x = y <-> segment r = segment t /\ track r = track t) /\ (x < y <-> track r < track t \/ (track r = track t /\ segment r < segment t))).
  { intros i j r t x y Hr Ht Hx Hy. apply (EQ i j); auto; rewrite nth_error_map; [rewrite Hr|rewrite Hr|rewrite Ht|rewrite Ht]; auto. }
  split; [|split; [|split]]; auto.
  - intros i j a b LT Ha Hb. destruct (G i a Ha) as [r Hr]. destruct (G j b Hb) as [t Ht].
    destruct (EQR j i t r b a Ht Hr Hb Ha) as [_ X].
    destruct (SS i j r t LT Hr Ht) as [H|[H1 H2]].
    + destruct (le_lt_dec a b); auto. exfalso. apply X in l. lia.
    + destruct (le_lt_dec a b); auto. exfalso. apply X in l. lia.
  - intros i j s Hs. destruct (G i s Hs) as [r Hr]. split.
    + intros Hj. destruct (G j s Hj) as [t Ht]. destruct (EQR i j r t s s Hr Ht Hs Hj) as [X _].
      exists r, t. destruct (proj1 X eq_refl) as [H1 H2]. auto.
    + intros (a & b & Ha & Hb & T & S). rewrite Hr in Ha. apply Some_inj in Ha. subst a.
      destruct (nth_error_lt_Some u j) as [y Hy]; [apply nth_error_Some_lt in Hb; lia|].
      destruct (EQR i j r b s y Hr Hb Hs Hy) as [X _]. rewrite Hy. f_equal. symmetry. apply X. auto.
Qed.

(** ** Links at the ends *)
Section Links.
Context (rows : list nrow) (seg : list nat) (sl : list (nat * nat * nat)).
Hypothesis LEN : length seg = length rows.
Hypothesis LK : links_ok rows.
Hypothesis SL : slices_of seg sl.
Hypothesis SAME : forall i j s, nth_error seg i = Some s -> (nth_error seg j = Some s <-> same_segment rows i j).

Definition end_link (x y : Z) : Prop :=
  (exists j r, y = Z.of_nat j /\ nth_error rows j = Some r /\ first_row rows j /\ prv r = x /\ x <> (-1)%Z) \/
  (exists i r, x = Z.of_nat i /\ nth_error rows i = Some r /\ last_row rows i /\ nxt r = y /\ y <> (-1)%Z).

Lemma first_iff : forall a s, nth_error seg a = Some s -> (first_row rows a <-> exists b, In (a, b, s) sl).
Proof.
  intros a s Hs. destruct SL as (S1 & S2 & S3). split.
  - intros F. destruct (S2 a s Hs) as (a' & b & H). destruct (S1 _ _ _ H) as [AB RW].
    assert (a' <= a < b) by (apply RW; auto).
    assert (a <= a'). { apply F. apply (SAME a a' s Hs). apply RW. lia. }
    assert (a = a') by lia. subst. eauto.
  - intros (b & H) k SK. destruct (S1 _ _ _ H) as [AB RW]. apply (SAME a k s Hs) in SK. apply RW in SK. lia.
Qed.
Lemma last_iff : forall i s, nth_error seg i = Some s -> (last_row rows i <-> exists a, In (a, S i, s) sl).
Proof.
  intros a s Hs. destruct SL as (S1 & S2 & S3). split.
  - intros F. destruct (S2 a s Hs) as (a' & b & H). destruct (S1 _ _ _ H) as [AB RW].
    assert (a' <= a < b) by (apply RW; auto).
    assert (b - 1 <= a). { apply F. apply (SAME a (b - 1) s Hs). apply RW. lia. }
    assert (b = S a) by lia. subst. eauto.
  - intros (b & H) k SK. destruct (S1 _ _ _ H) as [AB RW]. apply (SAME a k s Hs) in SK. apply RW in SK. lia.
Qed.

Lemma slice_rows : forall a b s, In (a, b, s) sl -> a < b /\ b <= length rows /\ nth_error seg a = Some s /\ nth_error seg (b - 1) = Some s.
Proof.
  intros a b s H. destruct SL as (S1 & _). destruct (S1 _ _ _ H) as [AB RW].
  assert (A : nth_error seg a = Some s) by (apply RW; lia). assert (B : nth_error seg (b - 1) = Some s) by (apply RW; lia).
  split; [auto|]. split; [|auto]. apply nth_error_Some_lt in B. lia.
Qed.

Lemma end_links_list : forall l, incl l sl -> exists el, end_links rows l = Some el /\
  forall x y, In (x, y) el <-> exists a b s, In (a, b, s) l /\
    ((exists r, nth_error rows a = Some r /\ prv r = x /\ x <> (-1)%Z /\ y = Z.of_nat a) \/
     (exists r, nth_error rows (b - 1) = Some r /\ nxt r = y /\ y <> (-1)%Z /\ x = Z.of_nat (b - 1))).
Proof.
  induction l as [|[[a b] s] l IH]; intros I.
  - exists []. split; [auto|]. intros x y. split; [intros []|]. intros (a & b & s & [] & _).
  - destruct IH as (el & E & S). { intros e He. apply I. right. auto. }
    destruct (slice_rows a b s (I _ (or_introl eq_refl))) as (AB & BL & HA & HB).
    cbn [end_links]. destruct (Nat.eqb_spec a b); [lia|].
    destruct (nth_error_lt_Some rows a) as [ra Ra]; [lia|]. destruct (nth_error_lt_Some rows (b - 1)) as [rb Rb]; [lia|].
    rewrite Ra. cbn [bind]. rewrite Rb. cbn [bind]. rewrite E. cbn [bind]. eexists. split; [reflexivity|].
    intros x y. rewrite !in_app_iff, S. split.
    + intros [H|[H|(a' & b' & s' & H & C)]].
      * exists a, b, s. split; [left; auto|]. left. exists ra. destruct (Z.eqb_spec (prv ra) (-1)); [destruct H|].
        destruct H as [H|[]]. injection H as <- <-. auto.
      * exists a, b, s. split; [left; auto|]. right. exists rb. destruct (Z.eqb_spec (nxt rb) (-1)); [destruct H|].
        destruct H as [H|[]]. injection H as <- <-. auto.
      * exists a', b', s'. split; [right; auto|auto].
    + intros (a' & b' & s' & [H|H] & C).
      * injection H as <- <- <-. destruct C as [(r & R1 & <- & R2 & ->)|(r & R1 & <- & R2 & ->)].
        -- left. rewrite Ra in R1. apply Some_inj in R1. subst r. destruct (Z.eqb_spec (prv ra) (-1)); [contradiction|left; auto].
        -- right. left. rewrite Rb in R1. apply Some_inj in R1. subst r. destruct (Z.eqb_spec (nxt rb) (-1)); [contradiction|left; auto].
      * right. right. exists a', b', s'. auto.
Qed.

Lemma end_links_spec : exists el, end_links rows sl = Some el /\ forall x y, In (x, y) el <-> end_link x y.
Proof.
  destruct (end_links_list sl (incl_refl sl)) as (el & E & S). exists el. split; [auto|].
  assert (SEGR : forall i r, nth_error rows i = Some r -> exists s, nth_error seg i = Some s).
  { intros i r H. apply nth_error_lt_Some. apply nth_error_Some_lt in H. lia. }
  intros x y. rewrite S. split.
  - intros (a & b & s & H & C). destruct (slice_rows a b s H) as (AB & BL & HA & HB).
    destruct C as [(r & R1 & R2 & R3 & R4)|(r & R1 & R2 & R3 & R4)].
    + left. exists a, r. split; [auto|]. split; [auto|]. split; [apply (first_iff a s HA); eauto|auto].
    + right. exists (b - 1), r. split; [auto|]. split; [auto|]. split; [apply (last_iff (b - 1) s HB); replace (Datatypes.S (b - 1)) with b by lia; eauto|auto].
  - intros [(j & r & -> & Hr & F & P & N)|(i & r & -> & Hr & F & P & N)]; destruct (SEGR _ _ Hr) as [s Hs].
    + apply (first_iff _ s Hs) in F as [b H]. exists j, b, s. split; [auto|]. left. eauto.
    + apply (last_iff _ s Hs) in F as [a H]. exists a, (Datatypes.S i), s. split; [auto|]. right. exists r. replace (Datatypes.S i - 1) with i by lia. auto.
Qed.

(** The links with their segments: all between rows, with their segments. *)
Definition nat_link (x y : nat) : Prop := end_link (Z.of_nat x) (Z.of_nat y).
Lemma end_link_nat : forall x y, end_link x y -> exists a b, x = Z.of_nat a /\ y = Z.of_nat b /\ a < length rows /\ b < length rows.
Proof.
  assert (OK : forall r z, In r rows -> (nxt r = z \/ prv r = z) -> z <> (-1)%Z -> exists a, z = Z.of_nat a /\ a < length rows).
  { intros r z H E N. destruct (LK r H) as [[L1|L1] [L2|L2]]; destruct E as [E|E]; subst z; try contradiction;
      first [exists (Z.to_nat (nxt r)); lia|exists (Z.to_nat (prv r)); lia]. }
  intros x y [(j & r & -> & Hr & _ & P & N)|(i & r & -> & Hr & _ & P & N)]; pose proof (nth_error_Some_lt _ _ _ Hr); apply nth_error_In in Hr.
  - destruct (OK r x Hr (or_intror P) N) as (a & -> & A). eauto 6.
  - destruct (OK r y Hr (or_introl P) N) as (a & -> & A). eauto 6.
Qed.

Lemma links_spec : exists el links, end_links rows sl = Some el /\ link_segments seg el = Some links /\
  forall x y sx sy, In (x, y, sx, sy) links <-> nat_link x y /\ nth_error seg x = Some sx /\ nth_error seg y = Some sy.
Proof.
  destruct end_links_spec as (el & E & S). exists el.
  set (f := fun l : Z * Z => let! a := pyget seg (fst l) in let! b := pyget seg (snd l) in Some (Z.to_nat (fst l), Z.to_nat (snd l), a, b)).
  assert (F : forall x y, In (x, y) el -> exists a b sa sb, x = Z.of_nat a /\ y = Z.of_nat b /\ nth_error seg a = Some sa /\ nth_error seg b = Some sb /\ f (x, y) = Some (a, b, sa, sb)).
  { intros x y H. apply S in H. destruct (end_link_nat x y H) as (a & b & -> & -> & LA & LB).
    destruct (nth_error_lt_Some seg a) as [sa Ha]; [lia|]. destruct (nth_error_lt_Some seg b) as [sb Hb]; [lia|].
    exists a, b, sa, sb. repeat split; auto. unfold f. simpl. unfold pyget, pyidx. rewrite LEN.
    destruct (Z.leb_spec 0 (Z.of_nat a)); [|lia]. destruct (Z.ltb_spec (Z.of_nat a) (Z.of_nat (length rows))); [|lia].
    destruct (Z.leb_spec 0 (Z.of_nat b)); [|lia]. destruct (Z.ltb_spec (Z.of_nat b) (Z.of_nat (length rows))); [|lia].
    cbn [bind]. rewrite !Nat2Z.id, Ha, Hb. reflexivity. }
  destruct (sequence_spec f el) as (links & EL & LL & SN).
  { intros [x y] H. destruct (F x y H) as (a & b & sa & sb & _ & _ & _ & _ & E'). eauto. }
  exists links. split; [auto|]. split; [exact EL|]. intros x y sx sy. split.
  - intros H. apply In_nth_error in H as [k Hk]. destruct (nth_error_lt_Some el k) as [[zx zy] He]; [apply nth_error_Some_lt in Hk; lia|].
    destruct (SN k _ He) as (e & Fe & Ee). rewrite Hk in Ee. apply Some_inj in Ee. subst e. apply nth_error_In in He.
    destruct (F zx zy He) as (a & b & sa & sb & -> & -> & Ha & Hb & F2). rewrite Fe in F2. apply Some_inj in F2. injection F2 as -> -> -> ->.
    split; [apply S; auto|auto].
  - intros (NL & Hx & Hy). apply S in NL. pose proof NL as NL'. apply In_nth_error in NL as [k Hk]. destruct (SN k _ Hk) as (e & Fe & Ee).
    destruct (F _ _ NL') as (a & b & sa & sb & A & B & Ha & Hb & F2). apply Nat2Z.inj in A, B. subst a b.
    rewrite Hx in Ha. rewrite Hy in Hb. apply Some_inj in Ha, Hb. subst. rewrite Fe in F2. apply Some_inj in F2. subst. eapply nth_error_In; eauto.
Qed.

Lemma flows_iff : forall x y, flows rows x y <-> (y = S x /\ same_segment rows x y) \/ nat_link x y.
Proof.
  intros x y. split.
  - intros H. destruct H as [i H|i j r H F N|i j r H F N].
    + left. auto.
    + right. right. exists i, r. repeat split; auto. lia.
    + right. left. exists j, r. repeat split; auto. lia.
  - intros [[-> H]|[(j & r & A & Hr & F & P & N)|(i & r & A & Hr & F & P & N)]].
    + apply flow_next. auto.
    + apply Nat2Z.inj in A. subst j. eapply flow_split; eauto.
    + apply Nat2Z.inj in A. subst i. eapply flow_merge; eauto.
Qed.

Lemma slice_of_spec : forall a b s, In (a, b, s) sl -> slice_of sl s = Some (a, b).
Proof.
  intros a b s H. unfold slice_of. destruct SL as (S1 & S2 & S3).
  destruct (find (fun e => snd e =? s) sl) as [e|] eqn:F.
  - apply find_some in F as [F E]. apply Nat.eqb_eq in E. destruct e as [[a' b'] s']. simpl in *. subst s'.
    apply In_nth_error in H as [p Hp]. apply In_nth_error in F as [q Hq].
    destruct (lt_eq_lt_dec p q) as [[X|X]|X].
    + pose proof (S3 _ _ _ _ X Hp Hq). simpl in *. lia.
    + subst. rewrite Hp in Hq. apply Some_inj in Hq. injection Hq as <- <-. auto.
    + pose proof (S3 _ _ _ _ X Hq Hp). simpl in *. lia.
  - exfalso. apply (find_none _ _ F) in H. simpl in H. rewrite Nat.eqb_refl in H. discriminate.
Qed.
End Links.
