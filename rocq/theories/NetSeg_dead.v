(** Proofs on the removal of dead ends. *)
From Coq Require Import List Arith ZArith Bool Lia Permutation.
From Verif Require Import Base Sort Spec Generic_model Corr_model Corr_proofs Corr_more Solver_proofs TrackObs_more NetGroup_model
  Net_model Net_spec Net_sort Net_dfs Net_links Net_reach Net_relax NetSeg_model NetSeg_spec NetSeg_proofs.
Import ListNotations.

Lemma generate_mask_spec : forall first last ids m, length last = length first -> (forall i, In i ids -> i < length first) ->
  exists m', generate_mask_from_ids ids first last 0 m = Some m' /\ length m' = length m /\
    forall k, k < length m -> (nth_error m' k = Some true <-> nth_error m k = Some true \/
      exists i a b, In i ids /\ nth_error first i = Some a /\ nth_error last i = Some b /\ a <= k < b).
Proof.
  intros first last ids. induction ids as [|i ids IH]; intros m LL B.
  - exists m. split; [reflexivity|]. split; [auto|]. intros k K. split; [auto|]. intros [H|(i & a & b & [] & _)]; auto.
  - cbn [generate_mask_from_ids]. rewrite Z.sub_0_r. assert (I : i < length first) by (apply B; left; auto).
    rewrite (pyget_nat first (Z.of_nat i) i eq_refl I), (pyget_nat last (Z.of_nat i) i eq_refl) by lia.
    destruct (nth_error_lt_Some first i I) as [a A]. destruct (nth_error_lt_Some last i) as [b Hb]; [lia|]. rewrite A, Hb. cbn [bind].
    destruct (IH (fill m a b true) LL) as (m' & E & L & N); [intros; apply B; right; auto|].
    rewrite length_fill in L. exists m'. split; [auto|]. split; [auto|]. intros k K. rewrite N by (rewrite length_fill; auto). rewrite nth_fill by auto.
    destruct (Nat.leb_spec a k), (Nat.ltb_spec k b); cbn [andb]; split; intros H'.
    all: try (destruct H' as [H'|(j & a' & b' & J & X & Y & Z)]; [auto|right; exists j, a', b'; split; [right; auto|auto]]; fail).
    all: try (destruct H' as [H'|(j & a' & b' & [<-|J] & X & Y & Z)]; [auto| |right; exists j, a', b'; auto]; rewrite A in X; rewrite Hb in Y; apply Some_inj in X, Y; subst; first [lia|auto]; fail).
    right. exists i, a, b. split; [left; auto|]. auto.
Qed.

Lemma two_connected : forall conn k, 2 <= length (connected conn k) <-> exists u v, u <> v /\ In u (connected conn k) /\ In v (connected conn k).
Proof.
  intros conn k. assert (ND : NoDup (connected conn k)) by apply NoDup_nodup. split.
  - intros L. destruct (connected conn k) as [|u [|v l]] eqn:E; simpl in L; [lia|lia|].
    exists u, v. inversion ND; subst. simpl. split; [|auto]. intros ->. simpl in *. auto.
  - intros (u & v & N & U & V). destruct (connected conn k) as [|a [|b l]]; simpl in *; [tauto| |lia].
    destruct U as [<-|[]]. destruct V as [<-|[]]. contradiction.
Qed.

Lemma keep_segments_spec : forall rows conn nobs ndays first last k, length last = length first ->
  (forall i a b, nth_error first i = Some a -> nth_error last i = Some b -> a < b /\ b <= length rows) ->
  exists m, keep_segments rows conn nobs ndays k first last = Some m /\ length m = length first /\
    forall i a b, nth_error first i = Some a -> nth_error last i = Some b -> exists ra rb, nth_error rows a = Some ra /\ nth_error rows (b - 1) = Some rb /\
      nth_error m i = Some (((ndays <=? time rb - time ra + 1)%Z && (nobs <=? b - a)) || (2 <=? length (connected conn (k + i)))).
Proof.
  intros rows conn nobs ndays first. induction first as [|a first IH]; intros last k LL B.
  - exists []. destruct last; [|discriminate]. split; [reflexivity|]. split; [auto|]. intros [|i] a b H; discriminate.
  - destruct last as [|b last]; [discriminate|]. cbn [keep_segments]. unfold keep_segment.
    destruct (B 0 a b eq_refl eq_refl) as [AB BL].
    destruct (nth_error_lt_Some rows a) as [ra RA]; [lia|]. destruct (nth_error_lt_Some rows (b - 1)) as [rb RB]; [lia|].
    rewrite RA. cbn [bind]. rewrite (pyget_nat rows (Z.of_nat b - 1) (b - 1)) by lia. rewrite RB. cbn [bind].
    destruct (IH last (S k)) as (m & E & L & N); [simpl in LL; lia|intros i x y X Y; apply (B (S i)); auto|].
    rewrite E. cbn [bind]. eexists. split; [reflexivity|]. split; [simpl; lia|]. intros [|i] x y X Y.
    + cbn [nth_error] in X, Y. apply Some_inj in X, Y. subst x y. exists ra, rb. rewrite Nat.add_0_r. auto.
    + destruct (N i x y X Y) as (r1 & r2 & R1 & R2 & M). exists r1, r2. replace (k + S i) with (S k + i) by lia. auto.
Qed.

Lemma move_trash_spec : forall m rows i r x, nth_error rows i = Some r -> nth_error m i = Some x ->
  nth_error (move_trash m rows) i = Some (if x then Row 0 0 (time r) (-1) (-1) (rest r) else r).
Proof.
  induction m as [|b m IH]; intros [|q rows] [|i] r x H X; try discriminate; cbn [nth_error] in H, X; cbn [move_trash nth_error].
  - apply Some_inj in H, X. subst. auto.
  - apply IH; auto.
Qed.
Lemma length_move_trash : forall m rows, length m = length rows -> length (move_trash m rows) = length rows.
Proof. induction m as [|b m IH]; intros [|q rows] H; try discriminate; [auto|]. cbn [move_trash length]. f_equal. apply IH. simpl in H. lia. Qed.

(** A link after the cut: absent when the row it points to is removed. *)
Definition cut_link (m : list bool) (old new : Z) : Prop :=
  (exists j, old = Z.of_nat j /\ nth_error m j = Some false /\ new = old) \/
  (new = (-1)%Z /\ (old = (-1)%Z \/ exists j, old = Z.of_nat j /\ nth_error m j = Some true)).
Lemma cut_one : forall m z, m <> [] -> link_ok (length m) z -> exists b, pyget m z = Some b /\ cut_link m z (if b : bool then (-1)%Z else z).
Proof.
  intros m z NE [->|H].
  - rewrite pyget_last by auto. destruct (nth_error_lt_Some m (length m - 1)) as [b Hb]; [destruct m; [congruence|simpl; lia]|].
    exists b. split; [auto|]. right. split; [destruct b; auto|auto].
  - rewrite (pyget_nat m z (Z.to_nat z)) by lia. destruct (nth_error_lt_Some m (Z.to_nat z)) as [b Hb]; [lia|]. exists b. split; [auto|].
    destruct b; [right; split; [auto|right]|left]; exists (Z.to_nat z); repeat split; auto; lia.
Qed.
Lemma cut_links_spec : forall m rows, m <> [] -> (forall r, In r rows -> link_ok (length m) (nxt r) /\ link_ok (length m) (prv r)) ->
  exists rows', cut_links m rows = Some rows' /\ length rows' = length rows /\
    forall i r, nth_error rows i = Some r -> exists r', nth_error rows' i = Some r' /\ same_obs r r' /\ cut_link m (nxt r) (nxt r') /\ cut_link m (prv r) (prv r').
Proof.
  intros m rows NE LK. unfold cut_links.
  destruct (sequence_spec (fun r => let! p := pyget m (prv r) in let! n := pyget m (nxt r) in
    Some (set_links r (if n : bool then (-1)%Z else nxt r) (if p : bool then (-1)%Z else prv r))) rows) as (rows' & E & L & N).
  { intros r H. destruct (LK r H) as [L1 L2]. destruct (cut_one m (prv r) NE L2) as (p & -> & _). destruct (cut_one m (nxt r) NE L1) as (n & -> & _). cbn [bind]. eauto. }
  exists rows'. split; [exact E|]. split; [auto|]. intros i r Hi. destruct (N i r Hi) as (r' & E' & Hr'). exists r'. split; [auto|].
  destruct (LK r (nth_error_In _ _ Hi)) as [L1 L2]. destruct (cut_one m (prv r) NE L2) as (p & P & CP). destruct (cut_one m (nxt r) NE L1) as (n & Pn & CN).
  rewrite P in E'. cbn [bind] in E'. rewrite Pn in E'. cbn [bind] in E'. apply Some_inj in E'. subst r'. split; [split; [|split; [|split]]; reflexivity|]. auto.
Qed.

(** ** One pass *)
Theorem dead_mask : forall nobs ndays mask rows, rows <> [] -> segment_sorted rows -> links_ok rows ->
  match mask with Some k => length k = length rows | None => True end ->
  exists seg first last conn m keep kept, index_segment_track rows = Some (seg, first, last, 0%Z) /\ connexions seg rows first last = Some conn /\
    keep_segments rows conn nobs ndays 0 first last = Some m /\
    match mask with None => Some (where_ m) | Some k => if length k =? length seg then Some (usort (where_ m ++ select k seg)) else None end = Some keep /\
    generate_mask_from_ids keep first last 0 (repeat false (length rows)) = Some kept /\ length kept = length rows /\
    forall i, i < length rows -> (nth_error kept i = Some false <-> dead_end rows nobs ndays mask i).
Proof.
  intros nobs ndays mask rows NE SS LK LM.
  destruct (index_spec rows NE SS) as (seg & first & last & EI & ES & SF & LL & SL & FULL & PL & P).
  pose proof SF as (LS & SO & SAME). pose proof SL as (S1 & S2 & S3).
  destruct (connexions_spec rows seg first last seg SF LK LL SL LS) as (conn & EC & CC).
  assert (AT : forall i a b, nth_error first i = Some a -> nth_error last i = Some b -> a < b /\ b <= length rows /\ (forall k, a <= k < b <-> nth_error seg k = Some i)).
  { intros i a b A B. assert (T : In (a, b, i) (triples first last)) by (apply In_triples; auto).
    destruct (slice_rows rows seg _ LS SL a b i T) as (AB & BL & _). destruct (S1 a b i T). auto. }
  destruct (keep_segments_spec rows conn nobs ndays first last 0 LL) as (m & EM & LMM & MN).
  { intros i a b A B. destruct (AT i a b A B) as (X & Y & _). auto. }
  assert (KE : exists keep, match mask with None => Some (where_ m) | Some k => if length k =? length seg then Some (usort (where_ m ++ select k seg)) else None end = Some keep /\
    forall s, In s keep <-> nth_error m s = Some true \/ exists k, match mask with Some mk => nth_error mk k = Some true | None => False end /\ nth_error seg k = Some s).
  { destruct mask as [mk|].
    - rewrite LM, LS, Nat.eqb_refl. eexists. split; [reflexivity|]. intros s. rewrite In_usort, in_app_iff, In_where, In_select. split.
      + intros [H|(k & K1 & K2)]; [auto|]. right. eauto.
      + intros [H|(k & K1 & K2)]; [auto|]. right. eauto.
    - eexists. split; [reflexivity|]. intros s. rewrite In_where. split; [auto|]. intros [H|(k & [] & _)]; auto. }
  destruct KE as (keep & EK & KN).
  assert (KB : forall s, In s keep -> s < length first).
  { intros s H. apply KN in H as [H|(k & _ & H)]; [apply nth_error_Some_lt in H; lia|apply FULL; eauto]. }
  destruct (generate_mask_spec first last keep (repeat false (length rows)) LL KB) as (kept & EG & LG & GN).
  rewrite repeat_length in LG, GN.
  exists seg, first, last, conn, m, keep, kept. split; [auto|]. split; [auto|]. split; [auto|]. split; [auto|]. split; [auto|]. split; [auto|].
  intros i I. destruct (nth_error_lt_Some seg i) as [s Hs]; [lia|].
  assert (SB : s < length first) by (apply FULL; eauto).
  destruct (nth_error_lt_Some first s SB) as [a A]. destruct (nth_error_lt_Some last s) as [b B]; [lia|].
  destruct (AT s a b A B) as (AB & BL & RW). destruct (MN s a b A B) as (ra & rb & RA & RB & MV). cbn [Nat.add] in MV.
  assert (T : In (a, b, s) (triples first last)) by (apply In_triples; auto).
  assert (HA : nth_error seg a = Some s) by (apply RW; lia). assert (HB : nth_error seg (b - 1) = Some s) by (apply RW; lia).
  assert (FA : first_row rows a) by (apply (first_iff rows seg _ LS SL SAME a s HA); eauto).
  assert (LB : last_row rows (b - 1)). { apply (last_iff rows seg _ LS SL SAME (b - 1) s HB). exists a. replace (S (b - 1)) with b by lia. auto. }
  assert (LONG : long_segment rows nobs ndays i <-> (ndays <= time rb - time ra + 1)%Z /\ nobs <= b - a).
  { split.
    - intros (a' & b' & ra' & rb' & SA & SBB & FA' & LB' & RA' & RB' & X & Y).
      apply (SAME i a' s Hs) in SA. apply (SAME i b' s Hs) in SBB.
      assert (a = a'). { apply Nat.le_antisymm; [apply FA, (SAME a a' s HA); auto|apply FA', (SAME a' a s SA); auto]. }
      assert (b - 1 = b'). { apply Nat.le_antisymm; [apply LB', (SAME b' (b - 1) s SBB); auto|apply LB, (SAME (b - 1) b' s HB); auto]. }
      subst a' b'. rewrite RA in RA'. rewrite RB in RB'. apply Some_inj in RA', RB'. subst. split; [auto|lia].
    - intros [X Y]. exists a, (b - 1), ra, rb. split; [apply (SAME i a s Hs); auto|]. split; [apply (SAME i (b - 1) s Hs); auto|].
      split; [auto|]. split; [auto|]. split; [auto|]. split; [auto|]. split; [auto|lia]. }
  assert (TOUCH : forall j u, nth_error seg j = Some u -> (touches rows i j <-> In u (connected conn s))).
  { intros j u Hj. rewrite CC. split.
    - intros (x & y & X & Y & E). exists x, y. split; [auto|]. split; [apply (SAME i x s Hs); auto|apply (SAME j y u Hj); auto].
    - intros (x & y & E & X & Y). exists x, y. split; [apply (SAME i x s Hs); auto|]. split; [apply (SAME j y u Hj); auto|auto]. }
  assert (BTW : between rows i <-> 2 <= length (connected conn s)).
  { rewrite two_connected. split.
    - intros (j & k & J & K & N).
      assert (BJ : exists u, nth_error seg j = Some u). { destruct J as (x & y & _ & (p & q & Hp & _) & _). apply nth_error_lt_Some. apply nth_error_Some_lt in Hp. lia. }
      assert (BK : exists u, nth_error seg k = Some u). { destruct K as (x & y & _ & (p & q & Hp & _) & _). apply nth_error_lt_Some. apply nth_error_Some_lt in Hp. lia. }
      destruct BJ as [u U]. destruct BK as [v V]. exists u, v. split; [|split; [apply (TOUCH j u U); auto|apply (TOUCH k v V); auto]].
      intros ->. apply N, (SAME j k v U). auto.
    - intros (u & v & N & U & V).
      assert (X : u < length first /\ v < length first).
      { apply CC in U as (x & y & _ & _ & Y). apply CC in V as (x' & y' & _ & _ & Y'). split; apply FULL; eauto. }
      destruct X as [X1 X2]. apply FULL in X1 as [j J]. apply FULL in X2 as [k K]. exists j, k.
      split; [apply (TOUCH j u J); auto|]. split; [apply (TOUCH k v K); auto|]. intros Q. apply (SAME j k u J) in Q. rewrite K in Q. apply Some_inj in Q. auto. }
  assert (KEPT : nth_error kept i = Some true <-> In s keep).
  { rewrite GN by auto. split.
    - intros [H|(u & x & y & U & X & Y & Z)].
      + rewrite nth_error_repeat_lt in H. destruct (i <? length rows); discriminate.
      + destruct (AT u x y X Y) as (_ & _ & R). apply R in Z. rewrite Hs in Z. apply Some_inj in Z. subst. auto.
    - intros H. right. exists s, a, b. split; [auto|]. split; [auto|]. split; [auto|]. apply RW. auto. }
  assert (IN : In s keep <-> long_segment rows nobs ndays i \/ between rows i \/ protected rows mask i).
  { rewrite KN, MV, LONG, BTW. split.
    - intros [H|(k & K1 & K2)].
      + apply Some_inj in H. apply orb_true_iff in H as [H|H]; [left|right; left].
        * apply andb_true_iff in H as [X Y]. apply Z.leb_le in X. apply Nat.leb_le in Y. auto.
        * apply Nat.leb_le in H. auto.
      + right. right. destruct mask as [mk|]; [|destruct K1]. exists k. split; [apply (SAME i k s Hs); auto|auto].
    - intros [[X Y]|[H|H]].
      + left. f_equal. apply orb_true_iff. left. apply andb_true_iff. split; [apply Z.leb_le; auto|apply Nat.leb_le; auto].
      + left. f_equal. apply orb_true_iff. right. apply Nat.leb_le. auto.
      + right. destruct mask as [mk|]; [|destruct H]. destruct H as (k & K1 & K2). exists k. split; [auto|]. apply (SAME i k s Hs). auto. }
  destruct (nth_error_lt_Some kept i) as [x Hx]; [lia|]. unfold dead_end. split.
  - intros H. assert (N : ~ In s keep). { intros Q. apply KEPT in Q. congruence. } rewrite IN in N. tauto.
  - intros H. destruct x; [|auto]. exfalso. apply KEPT in Hx. apply IN in Hx. tauto.
Qed.

Lemma ordered_sorted : forall rows, (forall p q a b, p < q -> nth_error rows p = Some a -> nth_error rows q = Some b -> ordered [0; 1; 2] a b) -> segment_sorted rows.
Proof.
  intros rows O i j a b L A B. specialize (O i j a b L A B). cbn [ordered field_value] in O. lia.
Qed.
Lemma remove_unfold : forall recursive nobs ndays mask rows seg first last conn m keep kept rows1 ix t rows2,
  index_segment_track rows = Some (seg, first, last, 0%Z) -> connexions seg rows first last = Some conn ->
  keep_segments rows conn nobs ndays 0 first last = Some m ->
  match mask with None => Some (where_ m) | Some k => if length k =? length seg then Some (usort (where_ m ++ select k seg)) else None end = Some keep ->
  generate_mask_from_ids keep first last 0 (repeat false (length rows)) = Some kept ->
  cut_links (map negb kept) (move_trash (map negb kept) rows) = Some rows1 -> sort [0; 1; 2] rows1 = Some (ix, t, rows2) ->
  remove_dead_end recursive nobs ndays mask rows = match recursive with O => Some rows2 | S r => remove_dead_end r nobs ndays None rows2 end.
Proof.
  intros recursive nobs ndays mask rows seg first last conn m keep kept rows1 ix t rows2 H1 H2 H3 H4 H5 H6 H7.
  destruct recursive; cbn [remove_dead_end]; rewrite H1; cbn [bind]; rewrite H2; cbn [bind]; rewrite H3; cbn [bind]; rewrite H4; cbn [bind];
    rewrite H5; cbn [bind]; rewrite H6; cbn [bind]; rewrite H7; reflexivity.
Qed.

Theorem one_pass : forall nobs ndays mask rows, rows <> [] -> segment_sorted rows -> links_ok rows ->
  match mask with Some k => length k = length rows | None => True end ->
  exists removed ix new, length removed = length rows /\
    (forall i, i < length rows -> (nth_error removed i = Some true <-> dead_end rows nobs ndays mask i)) /\
    trimmed removed ix rows new /\ links_ok new /\
    forall recursive, remove_dead_end recursive nobs ndays mask rows = match recursive with O => Some new | S r => remove_dead_end r nobs ndays None new end.
Proof.
  intros nobs ndays mask rows NE SS LK LM.
  destruct (dead_mask nobs ndays mask rows NE SS LK LM) as (seg & first & last & conn & m & keep & kept & H1 & H2 & H3 & H4 & H5 & LKP & DE).
  set (removed := map negb kept).
  assert (RN : forall i x, nth_error removed i = Some x <-> nth_error kept i = Some (negb x)).
  { intros i x. unfold removed. rewrite nth_error_map. destruct (nth_error kept i) as [y|]; simpl; [|split; discriminate].
    split; intros H; apply Some_inj in H; [subst; rewrite negb_involutive; auto|subst y; rewrite negb_involutive; auto]. }
  assert (LR : length removed = length rows) by (unfold removed; rewrite map_length; auto).
  assert (RNE : removed <> []) by (destruct removed; [destruct rows; [congruence|discriminate]|discriminate]).
  set (mid := move_trash removed rows).
  assert (LMID : length mid = length rows) by (apply length_move_trash; auto).
  assert (MID : forall i r, nth_error rows i = Some r -> exists x, nth_error removed i = Some x /\ nth_error mid i = Some (if x then Row 0 0 (time r) (-1) (-1) (rest r) else r)).
  { intros i r H. destruct (nth_error_lt_Some removed i) as [x X]; [apply nth_error_Some_lt in H; lia|]. exists x. split; [auto|]. apply move_trash_spec; auto. }
  destruct (cut_links_spec removed mid RNE) as (rows1 & H6 & L1 & C1).
  { intros r H. apply In_nth_error in H as [i Hi]. destruct (nth_error_lt_Some rows i) as [q Q]; [apply nth_error_Some_lt in Hi; lia|].
    destruct (MID i q Q) as (x & _ & Y). rewrite Hi in Y. apply Some_inj in Y. subst r. rewrite LR.
    destruct x; [simpl; split; left; auto|]. apply LK. eapply nth_error_In; eauto. }
  assert (LK1 : links_ok rows1).
  { intros r H. apply In_nth_error in H as [i Hi]. destruct (nth_error_lt_Some mid i) as [q Q]; [apply nth_error_Some_lt in Hi; lia|].
    destruct (C1 i q Q) as (r' & R' & _ & CN & CP). rewrite Hi in R'. apply Some_inj in R'. subst r'.
    assert (X : forall o z, cut_link removed o z -> link_ok (length rows1) z).
    { intros o z [(j & E & J & ->)|[-> _]]; [right|left; auto]. apply nth_error_Some_lt in J. lia. }
    eauto. }
  destruct (sort_spec [0; 1; 2] rows1 LK1) as (ix & t & new & E & P & _ & MV & ORD). { intros g [<-|[<-|[<-|[]]]]; auto. }
  pose proof MV as [LN MN]. rewrite L1, LMID in P.
  assert (LIX : length ix = length rows) by (rewrite (Permutation_length P), seq_length; auto).
  exists removed, ix, new. split; [auto|]. split; [|split; [|split]].
  - intros i I. rewrite RN. apply DE. auto.
  - split; [auto|]. split; [lia|]. split; [auto|]. intros k i Hk.
    destruct (MN k i Hk) as (r1 & r' & R1 & R' & (O1 & O2 & O3 & O4) & M1 & M2).
    destruct (nth_error_lt_Some rows i) as [r Hr]; [apply nth_error_Some_lt in R1; lia|].
    destruct (MID i r Hr) as (x & X & Y). destruct (C1 i _ Y) as (r1' & R1' & (S1 & S2 & S3 & S4) & CN & CP). rewrite R1 in R1'. apply Some_inj in R1'. subst r1'.
    exists r, r'. split; [auto|]. split; [auto|].
    assert (NEG : forall z, link_moved ix (-1)%Z z -> z = (-1)%Z). { intros z [(a & b & _ & B & _)|[-> _]]; [lia|auto]. }
    assert (COMB : forall o u z, cut_link removed o u -> link_moved ix u z ->
      (exists l j, nth_error ix l = Some j /\ o = Z.of_nat j /\ nth_error removed j = Some false /\ z = Z.of_nat l) \/
      (z = (-1)%Z /\ (o = (-1)%Z \/ exists j, o = Z.of_nat j /\ nth_error removed j = Some true))).
    { intros o u z [(j & EO & J & ->)|[-> Q]] MO.
      - destruct MO as [(l & j' & Hl & EJ & EZ)|[_ NO]].
        + left. exists l, j'. assert (j = j') by lia. subst j'. auto.
        + exfalso. apply (NO j); [|auto]. apply (Permutation_in _ (Permutation_sym P)), in_seq. apply nth_error_Some_lt in J. lia.
      - right. split; [apply NEG; auto|auto]. }
    split.
    + intros RT. rewrite X in RT. apply Some_inj in RT. subst x. cbn [track segment time rest nxt prv] in *.
      assert (N1 : nxt r1 = (-1)%Z). { destruct CN as [(j & EJ & _)|[-> _]]; [lia|auto]. }
      assert (N2 : prv r1 = (-1)%Z). { destruct CP as [(j & EJ & _)|[-> _]]; [lia|auto]. }
      rewrite N1 in M1. rewrite N2 in M2. apply NEG in M1, M2. destruct r'; simpl in *. congruence.
    + intros RF. rewrite X in RF. apply Some_inj in RF. subst x. split; [split; [congruence|split; [congruence|split; congruence]]|].
      intros o z [[-> ->]|[-> ->]]; eapply COMB; eauto.
  - apply (moved_links_ok _ _ _ MV).
  - intros recursive. eapply remove_unfold; eauto.
Qed.

(** ** All the passes *)
Theorem remove_dead_end_spec : forall recursive nobs ndays mask rows, rows <> [] -> segment_sorted rows -> links_ok rows ->
  match mask with Some k => length k = length rows | None => True end ->
  exists new, remove_dead_end recursive nobs ndays mask rows = Some new /\ passes recursive nobs ndays mask rows new.
Proof.
  induction recursive as [|rc IH]; intros nobs ndays mask rows NE SS LK LM;
    destruct (one_pass nobs ndays mask rows NE SS LK LM) as (removed & ix & mid & LR & RD & TR & LK' & RE).
  - exists mid. split; [apply (RE 0)|]. cbn [passes]. exists removed, ix, mid. auto.
  - pose proof TR as (_ & LN & O & _). destruct (IH nobs ndays None mid) as (new & E & PS); auto.
    { destruct mid; [destruct rows; [congruence|discriminate]|discriminate]. }
    { apply ordered_sorted. auto. }
    exists new. split; [rewrite (RE (S rc)); auto|]. cbn [passes]. exists removed, ix, mid. auto.
Qed.
