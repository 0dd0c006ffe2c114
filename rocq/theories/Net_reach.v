(** Proofs on find_link. *)
From Coq Require Import List Arith ZArith Bool Lia.
From Verif Require Import Base Net_model Net_spec Net_dfs Net_links.
Import ListNotations.

Lemma nth_fill : forall {A} (l : list A) a b x k, k < length l -> nth_error (fill l a b x) k = if (a <=? k) && (k <? b) then Some x else nth_error l k.
Proof. intros. rewrite nth_error_fill. destruct (Nat.ltb_spec k (length l)); [|lia]. rewrite andb_true_r. reflexivity. Qed.

Section Find.
Context (rows : list nrow) (seg : list nat) (sl : list (nat * nat * nat)) (links : list (nat * nat * nat * nat)).
Hypothesis LEN : length seg = length rows.
Hypothesis SL : slices_of seg sl.
Hypothesis SAME : forall i j s, nth_error seg i = Some s -> (nth_error seg j = Some s <-> same_segment rows i j).
Hypothesis NL : forall x y sx sy, In (x, y, sx, sy) links <-> nat_link rows x y /\ nth_error seg x = Some sx /\ nth_error seg y = Some sy.
Hypothesis FL : forall x y, flows rows x y <-> (y = S x /\ same_segment rows x y) \/ nat_link rows x y.
Hypothesis NLB : forall x y, nat_link rows x y -> x < length rows /\ y < length rows.

Let n := length rows.
Definition seg_of (v : nat) : nat := nth v seg 0.
Definition bounds (v : nat) : nat * nat := match slice_of sl (seg_of v) with Some p => p | None => (0, 0) end.

Lemma bounds_spec : forall v, v < n -> nth_error seg v = Some (seg_of v) /\ slice_of sl (seg_of v) = Some (bounds v) /\
  fst (bounds v) <= v < snd (bounds v) /\ (forall k, fst (bounds v) <= k < snd (bounds v) <-> same_segment rows v k).
Proof.
  intros v V. unfold seg_of. destruct (nth_error_lt_Some seg v) as [s Hs]; [unfold n in V; lia|].
  rewrite (nth_error_nth _ _ 0 Hs). destruct SL as (S1 & S2 & S3). destruct (S2 v s Hs) as (a & b & H).
  unfold bounds, seg_of. rewrite (nth_error_nth _ _ 0 Hs). rewrite (slice_of_spec rows seg sl LEN SL a b s H).
  destruct (S1 _ _ _ H) as [AB RW]. split; [auto|]. split; [auto|]. simpl. split; [apply RW; auto|].
  intros k. rewrite RW. apply SAME. auto.
Qed.
Lemma same_lt : forall i j, same_segment rows i j -> i < n /\ j < n.
Proof. intros i j (a & b & A & B & _). split; eapply nth_error_Some_lt; eauto. Qed.
Lemma same_sym : forall i j, same_segment rows i j -> same_segment rows j i.
Proof. intros i j (a & b & A & B & C & D). exists b, a. auto. Qed.
Lemma same_trans : forall i j k, same_segment rows i j -> same_segment rows j k -> same_segment rows i k.
Proof.
  intros i j k (a & b & A & B & C & D) (b' & c & B' & E & F & G). rewrite B in B'. apply Some_inj in B'. subst b'.
  exists a, c. repeat split; auto; congruence.
Qed.

(** *** Forward *)
Definition fmark (v : nat) (m : list bool) := fill m v (snd (bounds v)) true.
Definition fcover (v k : nat) : Prop := v <= k < snd (bounds v).
Definition fout (v : nat) : list nat := map (fun l => snd (fst l)) (filter (fun l => v <=? fst (fst l)) (forward_links links (seg_of v))).

Lemma In_forward : forall s x y sy, In (x, y, sy) (forward_links links s) <-> nat_link rows x y /\ nth_error seg x = Some s /\ nth_error seg y = Some sy.
Proof.
  intros s x y sy. unfold forward_links. rewrite in_map_iff. split.
  - intros ([[[x' y'] sx'] sy'] & E & H). injection E as -> -> ->. apply filter_In in H as [H E]. apply Nat.eqb_eq in E. subst. apply NL. auto.
  - intros H. exists (x, y, s, sy). split; [auto|]. apply filter_In. rewrite Nat.eqb_refl. split; [apply NL; auto|auto].
Qed.
Lemma fout_spec : forall v y, v < n -> (In y (fout v) <-> exists x, fcover v x /\ nat_link rows x y).
Proof.
  intros v y V. destruct (bounds_spec v V) as (Hs & _ & B & RW). unfold fout. rewrite in_map_iff. split.
  - intros ([[x y'] sy] & E & H). simpl in E. subst y'. apply filter_In in H as [H E]. simpl in E. apply Nat.leb_le in E.
    apply In_forward in H as (L & Sx & Sy). exists x. split; [|auto]. split; [auto|]. apply RW. apply (SAME v x _ Hs). auto.
  - intros (x & [C1 C2] & L). destruct (NLB _ _ L) as [Lx Ly]. destruct (nth_error_lt_Some seg y) as [sy Hy]; [lia|].
    exists (x, y, sy). split; [auto|]. apply filter_In. split; [|simpl; apply Nat.leb_le; auto].
    apply In_forward. split; [auto|]. split; [|auto]. apply (SAME v x _ Hs). apply RW. lia.
Qed.

Lemma forward_explore : forall fuel v m, v < n -> func_forward sl links fuel (seg_of v) v m = explore fmark fout fuel v m.
Proof.
  induction fuel as [|fuel IH]; intros v m V; [reflexivity|]. destruct (bounds_spec v V) as (Hs & Hb & _).
  cbn [func_forward explore]. rewrite Hb. destruct (bounds v) as [a b] eqn:EB. cbn [bind].
  unfold fout, fmark. rewrite EB. cbn [snd].
  assert (ALL : forall l, In l (forward_links links (seg_of v)) -> snd (fst l) < n /\ snd l = seg_of (snd (fst l))).
  { intros [[x y] sy] H. apply In_forward in H as (L & _ & Sy). apply NLB in L. simpl. split; [tauto|].
    unfold seg_of. rewrite (nth_error_nth _ _ 0 Sy). auto. }
  generalize (Some (fill m v b true)) as om. induction (forward_links links (seg_of v)) as [|[[x y] sy] l IHl]; intros om; [reflexivity|].
  destruct (ALL (x, y, sy) (or_introl eq_refl)) as [YN YS]. simpl in YN, YS. subst sy.
  cbn [fold_left filter fst snd]. rewrite Nat.ltb_antisym.
  rewrite IHl by (intros; apply ALL; right; auto).
  destruct (v <=? x); cbn [negb map fold_left fst snd].
  - f_equal. destruct om as [m'|]; [|reflexivity]. cbn [bind]. destruct (nth_error m' y) as [[]|]; cbn [bind]; auto.
  - f_equal. destruct om; reflexivity.
Qed.

Lemma forward_call : forall v m, v < n -> length m = n -> closed (flows rows) m ->
  exists m', func_forward sl links (S n) (seg_of v) v m = Some m' /\ length m' = n /\ closed (flows rows) m' /\
    forall k, on m' k <-> on m k \/ reach (flows rows) v k.
Proof.
  intros v m V L C. rewrite forward_explore by auto. apply (explore_closed n fmark fcover fout); auto.
  - intros. unfold fmark. rewrite length_fill. auto.
  - intros u m0 k U LM K. unfold on, fmark, fcover. rewrite nth_fill by lia.
    destruct (Nat.leb_spec u k), (Nat.ltb_spec k (snd (bounds u))); simpl; split; auto; try (intros [H1|H1]; auto; lia); intros; left; lia.
  - intros u U. destruct (bounds_spec u U) as (_ & _ & B & _). split; lia.
  - intros u k U [K1 K2]. destruct (bounds_spec u U) as (_ & _ & B & RW). apply (same_lt u k). apply RW. lia.
  - intros u y U H. apply fout_spec in H as (x & _ & NLx); auto. apply NLB in NLx. unfold n. tauto.
  - intros u k U [K1 K2]. destruct (bounds_spec u U) as (_ & _ & B & RW).
    induction k as [|k IHk]; [replace u with 0 by lia; constructor|].
    destruct (Nat.eq_dec u (S k)) as [->|N]; [constructor|].
    eapply reach_snoc; [apply IHk; lia|]. apply FL. left. split; [auto|].
    apply (same_trans k u (S k)); [apply same_sym, RW; lia|apply RW; lia].
  - intros u y U H. apply fout_spec in H as (x & Cx & NLx); auto. exists x. split; [auto|]. apply FL. auto.
  - intros u x y U [X1 X2] F. destruct (bounds_spec u U) as (_ & _ & B & RW). apply FL in F as [[-> F]|F].
    + left. split; [lia|]. apply RW. apply (same_trans u x (S x)); auto. apply RW. lia.
    + right. apply fout_spec; auto. exists x. split; [split; auto|auto].
Qed.

(** *** Backward *)
Definition flows_back (x y : nat) : Prop := flows rows y x.
Definition bmark (v : nat) (m : list bool) := fill m (fst (bounds v)) (v + 1) true.
Definition bcover (v k : nat) : Prop := fst (bounds v) <= k <= v.
Definition bout (v : nat) : list nat := map (fun l => snd (fst l)) (filter (fun l => fst (fst l) <=? v) (backward_links links (seg_of v))).

Lemma In_backward : forall s x y sy, In (x, y, sy) (backward_links links s) <-> nat_link rows y x /\ nth_error seg x = Some s /\ nth_error seg y = Some sy.
Proof.
  intros s x y sy. unfold backward_links. rewrite in_map_iff. split.
  - intros ([[[x' y'] sx'] sy'] & E & H). injection E as -> -> ->. apply filter_In in H as [H E]. apply Nat.eqb_eq in E. subst. apply NL in H. tauto.
  - intros H. exists (y, x, sy, s). split; [auto|]. apply filter_In. rewrite Nat.eqb_refl. split; [apply NL; tauto|auto].
Qed.
Lemma bout_spec : forall v y, v < n -> (In y (bout v) <-> exists x, bcover v x /\ nat_link rows y x).
Proof.
  intros v y V. destruct (bounds_spec v V) as (Hs & _ & B & RW). unfold bout. rewrite in_map_iff. split.
  - intros ([[x y'] sy] & E & H). simpl in E. subst y'. apply filter_In in H as [H E]. simpl in E. apply Nat.leb_le in E.
    apply In_backward in H as (L & Sx & Sy). exists x. split; [|auto]. split; [|auto]. apply RW. apply (SAME v x _ Hs). auto.
  - intros (x & [C1 C2] & L). destruct (NLB _ _ L) as [Lx Ly]. destruct (nth_error_lt_Some seg y) as [sy Hy]; [lia|].
    exists (x, y, sy). split; [auto|]. apply filter_In. split; [|simpl; apply Nat.leb_le; auto].
    apply In_backward. split; [auto|]. split; [|auto]. apply (SAME v x _ Hs). apply RW. lia.
Qed.
Lemma backward_explore : forall fuel v m, v < n -> func_backward sl links fuel (seg_of v) v m = explore bmark bout fuel v m.
Proof.
  induction fuel as [|fuel IH]; intros v m V; [reflexivity|]. destruct (bounds_spec v V) as (Hs & Hb & _).
  cbn [func_backward explore]. rewrite Hb. destruct (bounds v) as [a b] eqn:EB. cbn [bind].
  unfold bout, bmark. rewrite EB. cbn [fst].
  assert (ALL : forall l, In l (backward_links links (seg_of v)) -> snd (fst l) < n /\ snd l = seg_of (snd (fst l))).
  { intros [[x y] sy] H. apply In_backward in H as (L & _ & Sy). apply NLB in L. simpl. split; [tauto|].
    unfold seg_of. rewrite (nth_error_nth _ _ 0 Sy). auto. }
  generalize (Some (fill m a (v + 1) true)) as om. induction (backward_links links (seg_of v)) as [|[[x y] sy] l IHl]; intros om; [reflexivity|].
  destruct (ALL (x, y, sy) (or_introl eq_refl)) as [YN YS]. simpl in YN, YS. subst sy.
  cbn [fold_left filter fst snd]. rewrite Nat.ltb_antisym.
  rewrite IHl by (intros; apply ALL; right; auto).
  destruct (x <=? v); cbn [negb map fold_left fst snd].
  - f_equal. destruct om as [m'|]; [|reflexivity]. cbn [bind]. destruct (nth_error m' y) as [[]|]; cbn [bind]; auto.
  - f_equal. destruct om; reflexivity.
Qed.

Lemma bmark_length : forall v m, length m = n -> length (bmark v m) = n.
Proof. intros. unfold bmark. rewrite length_fill. auto. Qed.
Lemma bmark_spec : forall v m k, v < n -> length m = n -> k < n -> (on (bmark v m) k <-> bcover v k \/ on m k).
Proof.
  intros u m0 k U LM K. unfold on, bmark, bcover. rewrite nth_fill by lia.
  destruct (Nat.leb_spec (fst (bounds u)) k), (Nat.ltb_spec k (u + 1)); simpl; split; auto; try (intros [H1|H1]; auto; lia); intros; left; lia.
Qed.
Lemma bcover_self : forall v, v < n -> bcover v v.
Proof. intros u U. destruct (bounds_spec u U) as (_ & _ & B & _). split; lia. Qed.
Lemma bcover_lt : forall v k, v < n -> bcover v k -> k < n.
Proof. intros u k U [K1 K2]. lia. Qed.
Lemma bout_lt : forall v y, v < n -> In y (bout v) -> y < n.
Proof. intros u y U H. apply bout_spec in H as (x & _ & NLx); auto. apply NLB in NLx. unfold n. tauto. Qed.
Lemma bcover_reach : forall v k, v < n -> bcover v k -> reach flows_back v k.
Proof.
  intros u k U [K1 K2]. destruct (bounds_spec u U) as (_ & _ & B & RW).
  remember (u - k) as d eqn:D. revert k K1 K2 D. induction d as [|d IHd]; intros k K1 K2 D; [replace u with k by lia; constructor|].
  eapply reach_snoc; [apply (IHd (S k)); lia|]. unfold flows_back. apply FL. left. split; [auto|].
  apply (same_trans k u (S k)); [apply same_sym, RW; lia|apply RW; lia].
Qed.
Lemma bout_step : forall v y, v < n -> In y (bout v) -> exists x, bcover v x /\ flows_back x y.
Proof. intros u y U H. apply bout_spec in H as (x & Cx & NLx); auto. exists x. split; [auto|]. apply FL. auto. Qed.
Lemma bstep_out : forall v x y, v < n -> bcover v x -> flows_back x y -> bcover v y \/ In y (bout v).
Proof.
  intros u x y U [X1 X2] F. destruct (bounds_spec u U) as (_ & _ & B & RW). apply FL in F as [[-> F]|F].
  + left. split; [|lia]. apply RW. apply (same_trans u (S y) y); [apply RW; lia|apply same_sym; auto].
  + right. apply bout_spec; auto. exists x. split; [split; auto|auto].
Qed.
Lemma backward_call : forall v m, v < n -> length m = n -> closed flows_back m ->
  exists m', func_backward sl links (S n) (seg_of v) v m = Some m' /\ length m' = n /\ closed flows_back m' /\
    forall k, on m' k <-> on m k \/ reach flows_back v k.
Proof.
  intros v m V L C. rewrite backward_explore by auto. apply (explore_closed n bmark bcover bout); auto.
  - apply bmark_length. - apply bmark_spec. - apply bcover_self. - apply bcover_lt. - apply bout_lt. - apply bcover_reach. - apply bout_step. - apply bstep_out.
Qed.
Lemma backward_post : forall v m, v < n -> length m = n ->
  exists m', func_backward sl links (S n) (seg_of v) v m = Some m' /\ post n bcover flows_back v m m'.
Proof.
  intros v m V L. rewrite backward_explore by auto. apply (explore_spec n bmark bcover bout); auto.
  - apply bmark_length. - apply bmark_spec. - apply bcover_self. - apply bcover_lt. - apply bout_lt. - apply bcover_reach. - apply bout_step. - apply bstep_out.
  - pose proof (bmark_length v m L). unfold free. lia.
Qed.

Lemma reach_back : forall x y, reach flows_back x y <-> reach (flows rows) y x.
Proof.
  intros x y. split; intros H; induction H; try constructor; eapply reach_snoc; eauto.
Qed.
End Find.

(** ** The masks *)
Theorem link_mask_spec : forall forward rows i_obs, rows <> [] -> segment_sorted rows -> links_ok rows -> (forall i, In i i_obs -> i < length rows) ->
  exists m, link_mask forward (negb forward) rows i_obs = Some m /\ length m = length rows /\
    forall k, nth_error m k = Some true <->
      exists i, In i i_obs /\ if forward then reach (flows rows) i k else reach (flows rows) k i.
Proof.
  intros fw rows i_obs NE SS LK B. unfold link_mask.
  destruct (seg_spec rows NE SS) as (seg & ES & LS & SO & SAME & _). rewrite ES. cbn [bind].
  destruct (slices_spec seg) as (sl & ESL & SL); auto. { destruct seg; [simpl in LS; destruct rows; [congruence|discriminate]|discriminate]. }
  rewrite ESL. cbn [bind].
  destruct (links_spec rows seg sl LS LK SL SAME) as (el & links & E1 & E2 & NL). rewrite E1. cbn [bind]. rewrite E2. cbn [bind].
  assert (NLB : forall x y, nat_link rows x y -> x < length rows /\ y < length rows).
  { intros x y H. destruct (end_link_nat rows seg LS LK _ _ H) as (a & b & A & C & LA & LB). apply Nat2Z.inj in A, C. subst. auto. }
  pose proof (flows_iff rows seg LS) as FL.
  rewrite LS.
  set (R := if fw then flows rows else flows_back rows).
  assert (X : forall todo m, (forall i, In i todo -> i < length rows) -> length m = length rows -> closed R m ->
    exists m', fold_left (fun om indice =>
      let! m := om in
      let! s := nth_error seg indice in
      let! m1 := (if fw then func_forward sl links (S (length rows)) s indice m else Some m) in
      if negb fw then func_backward sl links (S (length rows)) s indice m1 else Some m1) todo (Some m) = Some m' /\
    length m' = length rows /\ forall k, on m' k <-> on m k \/ exists i, In i todo /\ reach R i k).
  { induction todo as [|i todo IH]; intros m BT LM CM.
    - exists m. split; [auto|]. split; [auto|]. intros k. split; [auto|]. intros [H|(i & [] & _)]. auto.
    - assert (IN : i < length rows) by (apply BT; left; auto).
      cbn [fold_left bind]. destruct (nth_error_lt_Some seg i) as [s Hs]; [lia|]. rewrite Hs. cbn [bind].
      assert (SG : s = seg_of seg i) by (unfold seg_of; rewrite (nth_error_nth _ _ 0 Hs); auto).
      assert (CALL : exists m1, (let! m1 := (if fw then func_forward sl links (S (length rows)) s i m else Some m) in
         if negb fw then func_backward sl links (S (length rows)) s i m1 else Some m1) = Some m1 /\ length m1 = length rows /\ closed R m1 /\
         forall k, on m1 k <-> on m k \/ reach R i k).
      { unfold R in *. destruct fw; cbn [negb].
        - destruct (forward_call rows seg sl links LS SL SAME NL FL NLB i m IN LM CM) as (m1 & E & L1 & C1 & K1).
          exists m1. rewrite SG, E. cbn [bind]. auto.
        - destruct (backward_call rows seg sl links LS SL SAME NL FL NLB i m IN LM CM) as (m1 & E & L1 & C1 & K1).
          exists m1. cbn [bind]. rewrite SG, E. auto. }
      destruct CALL as (m1 & E & L1 & C1 & K1). rewrite E.
      destruct (IH m1) as (m' & E' & L' & K'); auto. { intros; apply BT; right; auto. }
      exists m'. split; [exact E'|]. split; [auto|]. intros k. rewrite K', K1. split.
      + intros [[H|H]|(j & Hj & H)]; [auto|right; exists i; split; [left; auto|auto]|right; exists j; split; [right; auto|auto]].
      + intros [H|(j & [<-|Hj] & H)]; [auto|auto|]. right. exists j. auto. }
  destruct (X i_obs (repeat false (length rows)) B) as (m' & E & L & K).
  { apply repeat_length. }
  { intros x y H. unfold on in H. rewrite nth_error_repeat_lt in H. destruct (x <? length rows); discriminate. }
  exists m'. split; [exact E|]. split; [auto|]. intros k. rewrite (K k). split.
  - intros [H|(i & Hi & H)].
    + unfold on in H. rewrite nth_error_repeat_lt in H. destruct (k <? length rows); discriminate.
    + exists i. split; [auto|]. unfold R in H. destruct fw; [auto|]. apply reach_back. auto.
  - intros (i & Hi & H). right. exists i. split; [auto|]. unfold R. destruct fw; [auto|]. apply reach_back. auto.
Qed.

(** Both directions from one observation, when time goes on along the links. *)
Theorem link_mask_both : forall rows i, rows <> [] -> segment_sorted rows -> links_ok rows -> i < length rows ->
  (forall x y a b, flows rows x y -> nth_error rows x = Some a -> nth_error rows y = Some b -> (time a < time b)%Z) ->
  exists m, link_mask true true rows [i] = Some m /\ length m = length rows /\
    forall k, nth_error m k = Some true <-> reach (flows rows) i k \/ reach (flows rows) k i.
Proof.
  intros rows i NE SS LK IN TI. unfold link_mask.
  destruct (seg_spec rows NE SS) as (seg & ES & LS & SO & SAME & _). rewrite ES. cbn [bind].
  destruct (slices_spec seg) as (sl & ESL & SL); auto. { destruct seg; [simpl in LS; destruct rows; [congruence|discriminate]|discriminate]. }
  rewrite ESL. cbn [bind].
  destruct (links_spec rows seg sl LS LK SL SAME) as (el & links & E1 & E2 & NL). rewrite E1. cbn [bind]. rewrite E2. cbn [bind].
  assert (NLB : forall x y, nat_link rows x y -> x < length rows /\ y < length rows).
  { intros x y H. destruct (end_link_nat rows seg LS LK _ _ H) as (a & b & A & C & LA & LB). apply Nat2Z.inj in A, C. subst. auto. }
  pose proof (flows_iff rows seg LS) as FL. rewrite LS. cbn [fold_left bind].
  destruct (nth_error_lt_Some seg i) as [s Hs]; [lia|]. rewrite Hs. cbn [bind].
  assert (SG : s = seg_of seg i) by (unfold seg_of; rewrite (nth_error_nth _ _ 0 Hs); auto). subst s.
  assert (OFF : forall k, ~ on (repeat false (length rows)) k).
  { intros k H. unfold on in H. rewrite nth_error_repeat_lt in H. destruct (k <? length rows); discriminate. }
  destruct (forward_call rows seg sl links LS SL SAME NL FL NLB i (repeat false (length rows)) IN) as (m1 & F1 & L1 & C1 & K1).
  { apply repeat_length. }
  { intros x y H. destruct (OFF x H). }
  rewrite F1. cbn [bind].
  destruct (backward_post rows seg sl links LS SL SAME NL FL NLB i m1 IN L1) as (m2 & F2 & P1 & P2 & P3 & P4 & P5).
  rewrite F2. exists m2. split; [auto|]. split; [auto|].
  assert (LT : forall x y, reach (flows rows) x y -> x = y \/ exists a b, nth_error rows x = Some a /\ nth_error rows y = Some b /\ (time a < time b)%Z).
  { intros x y H. induction H as [x|x y z H1 H2 IH]; [auto|]. right.
    assert (XY : x < length rows /\ y < length rows).
    { apply FL in H1 as [[-> SM]|NLx]; [apply (same_lt rows x (S x)) in SM; auto|apply NLB; auto]. }
    destruct (nth_error_lt_Some rows x) as [a Ha]; [tauto|]. destruct (nth_error_lt_Some rows y) as [b Hb]; [tauto|].
    pose proof (TI x y a b H1 Ha Hb). destruct IH as [->|(b' & c & Hb' & Hc & T)]; [eauto|]. rewrite Hb in Hb'. apply Some_inj in Hb'. subst b'.
    exists a, c. repeat split; auto. lia. }
  assert (REACHED : forall k, reach (flows_back rows) i k -> on m2 k).
  { assert (ST : forall x, bcover seg sl i x \/ (on m2 x /\ ~ on m1 x) -> forall k, reach (flows_back rows) i x -> reach (flows_back rows) x k -> on m2 k).
    { intros x H k RX RK. induction RK as [x|x y z H1 H2 IH].
      - destruct H as [H|[H _]]; auto.
      - assert (OY : on m2 y) by (apply (P5 x y); auto).
        assert (RY : reach (flows_back rows) i y) by (eapply reach_snoc; eauto).
        apply IH; auto. destruct (on_dec m1 y) as [Y|Y]; [left|right; auto].
        apply K1 in Y as [Y|Y]; [destruct (OFF y Y)|]. apply reach_back in RY.
        destruct (LT _ _ Y) as [<-|(a & b & A & B & T1)]; [apply (bcover_self rows seg sl LS SL SAME); auto|].
        destruct (LT _ _ RY) as [->|(b' & a' & B' & A' & T2)]; [apply (bcover_self rows seg sl LS SL SAME); auto|].
        rewrite A in A'. rewrite B in B'. apply Some_inj in A', B'. subst. lia. }
    intros k H. apply (ST i); auto; [left; apply (bcover_self rows seg sl LS SL SAME); auto|constructor]. }
  intros k. split.
  - intros H. apply P4 in H as [H|H]; [|right; apply reach_back; auto]. apply K1 in H as [H|H]; [destruct (OFF k H)|auto].
  - intros [H|H]; [apply P2, K1; auto|]. apply REACHED, reach_back. auto.
Qed.
