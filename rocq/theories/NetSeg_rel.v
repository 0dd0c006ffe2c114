(** Proofs on relatives and on the relative order of segments. *)
From Coq Require Import List Arith ZArith Bool Lia.
From Verif Require Import Base Sort Spec Generic_model Generic_proofs Corr_model Corr_proofs Corr_more TrackObs_more NetGroup_model
  Net_model Net_spec Net_dfs Net_links Net_reach Net_relax NetSeg_model NetSeg_spec NetSeg_proofs.
Import ListNotations.

Section Rel.
Context (rows : list nrow) (seg : list nat) (sl : list (nat * nat * nat)) (links : list (nat * nat * nat * nat)) (N : nat) (order : nat).
Hypothesis SF : seg_facts rows seg.
Hypothesis SL : slices_of seg sl.
Hypothesis FULL : forall s, s < N <-> exists k, nth_error seg k = Some s.
Hypothesis NL : forall x y sx sy, In (x, y, sx, sy) links <-> nat_link rows x y /\ nth_error seg x = Some sx /\ nth_error seg y = Some sy.
Let n := length rows.

Definition rget (t : list nat) (s : nat) : option nat := let! (a, _) := slice_of sl s in nth_error t a.
Definition rset (t : list nat) (s d : nat) : list nat := match slice_of sl s with Some (a, b) => fill t a b d | None => t end.
Definition rvalid (t : list nat) : Prop := length t = n /\ forall k s, nth_error seg k = Some s -> nth_error t k = rget t s.

Lemma slice_at : forall s, s < N -> exists a b, slice_of sl s = Some (a, b) /\ a < b /\ b <= n /\ forall k, a <= k < b <-> nth_error seg k = Some s.
Proof.
  intros s S. apply FULL in S as [k Hk]. destruct SL as (S1 & S2 & S3). destruct (S2 k s Hk) as (a & b & H).
  exists a, b. destruct SF as (LEN & _ & _).
  split; [apply (slice_of_spec rows seg sl LEN SL a b s H)|]. destruct (S1 a b s H) as [AB RW]. split; [auto|]. split; [|auto].
  assert (X : nth_error seg (b - 1) = Some s) by (apply RW; lia). apply nth_error_Some_lt in X. unfold n. lia.
Qed.
Lemma rvalid_set : forall t s d, rvalid t -> s < N -> rvalid (rset t s d).
Proof.
  intros t s d [L C] S. destruct (slice_at s S) as (a & b & E & AB & BN & RW). unfold rset. rewrite E.
  split; [rewrite length_fill; auto|]. intros k u Hk.
  assert (K : k < n) by (apply nth_error_Some_lt in Hk; destruct SF as (LEN & _); unfold n; lia).
  assert (U : u < N) by (apply FULL; eauto). destruct (slice_at u U) as (a' & b' & E' & AB' & BN' & RW').
  unfold rget. rewrite E'. cbn [bind]. rewrite !nth_fill by lia.
  specialize (C k u Hk). unfold rget in C. rewrite E' in C. cbn [bind] in C.
  assert (X : nth_error seg a' = Some u) by (apply RW'; lia).
  assert (Y : (a <= k < b) <-> (a <= a' < b)). { rewrite !RW. rewrite Hk, X. tauto. }
  destruct (Nat.leb_spec a k), (Nat.ltb_spec k b), (Nat.leb_spec a a'), (Nat.ltb_spec a' b); cbn [andb]; auto; lia.
Qed.
Lemma rget_set : forall t s d u, rvalid t -> s < N -> u < N -> rget (rset t s d) u = if u =? s then Some d else rget t u.
Proof.
  intros t s d u [L C] S U. destruct (slice_at s S) as (a & b & E & AB & BN & RW). destruct (slice_at u U) as (a' & b' & E' & AB' & BN' & RW').
  unfold rset, rget. rewrite E, E'. cbn [bind]. rewrite nth_fill by lia.
  assert (X : nth_error seg a' = Some u) by (apply RW'; lia).
  assert (Y : (a <= a' < b) <-> u = s). { rewrite RW, X. split; intros H; [apply Some_inj in H; auto|subst; auto]. }
  destruct (Nat.eqb_spec u s), (Nat.leb_spec a a'), (Nat.ltb_spec a' b); cbn [andb]; auto; lia.
Qed.
Lemma In_neighbours : forall s t, In t (neighbours links s) <-> joined_ids rows seg s t.
Proof.
  intros s t. unfold neighbours. rewrite in_flat_map. split.
  - intros ([[[x y] sx] sy] & H & C). apply NL in H as (L & X & Y). apply event_iff in L. apply in_app_or in C as [C|C].
    + destruct (Nat.eqb_spec sy s); [|destruct C]. destruct C as [<-|[]]. subst. exists y, x. auto.
    + destruct (Nat.eqb_spec sx s); [|destruct C]. destruct C as [<-|[]]. subst. exists x, y. auto.
  - intros (x & y & [E|E] & X & Y); apply event_iff in E.
    + exists (x, y, s, t). split; [apply NL; auto|]. rewrite Nat.eqb_refl. apply in_or_app. right. left. auto.
    + exists (y, x, t, s). split; [apply NL; auto|]. rewrite Nat.eqb_refl. apply in_or_app. left. left. auto.
Qed.
Lemma neighbours_lt : forall s u, s < N -> In u (neighbours links s) -> u < N.
Proof. intros s u _ H. apply In_neighbours in H as (x & y & _ & _ & Y). apply FULL. eauto. Qed.

Notation rrelax := (relax rget rset (neighbours links) (Some order)).
Lemma rrelax_spec : forall fuel s d t t', s < N -> rvalid t -> rrelax fuel s d t = Some t' -> relaxed rvalid rget N (neighbours links) (Some order) s d t t'.
Proof. apply relax_spec; [exact rvalid_set|exact rget_set|exact neighbours_lt]. Qed.
Lemma loop_relax : forall fuel s d t, s < N -> rvalid t -> loop sl links order fuel s d t = rrelax fuel s d t.
Proof.
  induction fuel as [|fuel IH]; intros s d t S V; [reflexivity|]. cbn [loop relax].
  destruct (slice_at s S) as (a & b & E & AB & BN & RW). rewrite E. cbn [bind].
  destruct V as [L C]. assert (G : rget t s = nth_error t a) by (unfold rget; rewrite E; reflexivity).
  destruct (nth_error_lt_Some t a) as [v Hv]; [lia|]. rewrite G, Hv. cbn [bind above]. unfold allowed.
  destruct ((d <? v) && (d <=? order)); [|reflexivity].
  assert (V0 : rvalid (rset t s d)) by (apply rvalid_set; auto; split; auto).
  replace (fill t a b d) with (rset t s d) by (unfold rset; rewrite E; reflexivity).
  revert V0. generalize (rset t s d) as cur.
  assert (B : forall u, In u (neighbours links s) -> u < N) by (intros; apply (neighbours_lt s); auto).
  induction (neighbours links s) as [|y l IHl]; intros cur VC; [reflexivity|]. cbn [fold_left bind].
  assert (YN : y < N) by (apply B; left; auto). rewrite IH by auto.
  destruct (rrelax fuel y (d + 1) cur) as [c1|] eqn:E1.
  - apply IHl; [intros; apply B; right; auto|]. apply rrelax_spec in E1; auto. apply E1.
  - rewrite (fold_None (fun s t => loop sl links order fuel s (d + 1) t)), (fold_None (fun u t => rrelax fuel u (d + 1) t)). reflexivity.
Qed.

Hypothesis OF : order < far.
Hypothesis LK : links_ok rows.
Theorem relatives_loop : forall i_obs, (forall i, In i i_obs -> i < n) ->
  exists t, fold_left (fun od indice => let! dl := od in let! s := nth_error seg indice in loop sl links order (order + 2) s 0 dl)
      i_obs (Some (repeat far n)) = Some t /\ length t = n /\
    forall k, k < n -> exists v, nth_error t k = Some v /\ (v <= order <-> exists i, In i i_obs /\ relative rows order i k).
Proof.
  intros i_obs B.
  set (R := fun a b => In b (neighbours links a)).
  assert (X : forall todo done t, (forall i, In i todo -> i < n) -> (forall s, In s done -> s < N) -> rvalid t ->
     exact rget N (neighbours links) (Some order) done t ->
     exists t' more, fold_left (fun od indice => let! dl := od in let! s := nth_error seg indice in loop sl links order (order + 2) s 0 dl) todo (Some t) = Some t' /\
       rvalid t' /\ exact rget N (neighbours links) (Some order) more t' /\
       forall s, In s more <-> In s done \/ exists i, In i todo /\ nth_error seg i = Some s).
  { induction todo as [|i todo IH]; intros done t BT BD V EX.
    - exists t, done. split; [reflexivity|]. split; [auto|]. split; [auto|]. intros s. split; [auto|]. intros [H|(i & [] & _)]. auto.
    - cbn [fold_left bind]. destruct (nth_error_lt_Some seg i) as [s Hs]; [destruct SF as (-> & _); apply BT; left; auto|].
      assert (S : s < N) by (apply FULL; eauto). rewrite Hs. cbn [bind]. rewrite loop_relax by auto.
      destruct (relax_bounded rvalid rget rset N (neighbours links) (Some order) rvalid_set rget_set neighbours_lt order eq_refl (order + 2) s 0 t) as (t1 & E1); auto; try lia.
      rewrite E1. destruct (exact_relax rvalid rget rset N (neighbours links) (Some order) rvalid_set rget_set neighbours_lt (order + 2) s done t t1) as (V1 & EX1); auto.
      destruct (IH (done ++ [s]) t1) as (t' & more & E & V' & EX' & M); auto.
      { intros; apply BT; right; auto. }
      { intros u U. apply in_app_or in U as [U|[<-|[]]]; auto. }
      exists t', more. split; [exact E|]. split; [auto|]. split; [auto|]. intros u. rewrite M, in_app_iff. split.
      + intros [[H|[<-|[]]]|(j & J & H)]; [auto|right; exists i; split; [left; auto|auto]|right; exists j; split; [right; auto|auto]].
      + intros [H|(j & [<-|J] & H)]; [auto| |right; eauto]. rewrite Hs in H. apply Some_inj in H. subst. simpl. auto. }
  destruct (X i_obs [] (repeat far n)) as (t & more & E & V & EX & M); auto.
  { intros s []. }
  { split; [apply repeat_length|]. intros k s Hk. assert (S : s < N) by (apply FULL; eauto).
    destruct (slice_at s S) as (a & b & Ea & AB & BN & RW). unfold rget. rewrite Ea. cbn [bind]. rewrite !nth_error_repeat_lt.
    apply nth_error_Some_lt in Hk. destruct SF as (LEN & _). fold n in LEN. destruct (Nat.ltb_spec k n), (Nat.ltb_spec a n); auto; lia. }
  { split; [|intros s []]. intros u e U G A. exfalso. destruct (slice_at u U) as (a & b & Ea & AB & BN & RW). unfold rget in G. rewrite Ea in G. cbn [bind] in G.
    rewrite nth_error_repeat_lt in G. destruct (a <? n); [|discriminate]. apply Some_inj in G. subst e. unfold allowed in A. apply Nat.leb_le in A. lia. }
  exists t. split; [exact E|]. split; [apply V|]. intros k K.
  assert (ML : forall s, In s more -> s < N). { intros s H. apply M in H as [[]|(i & _ & H)]. apply FULL. eauto. }
  destruct SF as (LEN & _ & SAME). destruct (nth_error_lt_Some seg k) as [u Hu]; [unfold n in K; lia|].
  assert (U : u < N) by (apply FULL; eauto).
  destruct (nth_error_lt_Some t k) as [v Hv]; [destruct V; lia|]. exists v. split; [auto|].
  assert (G : rget t u = Some v) by (destruct V as [_ V]; rewrite <- (V k u Hu); auto).
  assert (A : allowed (Some order) order = true) by (unfold allowed; apply Nat.leb_refl).
  pose proof (exact_spec rget N (neighbours links) (Some order) neighbours_lt more t ML EX order u A U) as SP. rewrite G in SP.
  assert (VO : v <= order <-> upto (Some v) order). { split; [intros H; exists v; auto|]. intros (e & H & LE). apply Some_inj in H. subst. auto. }
  rewrite VO, SP. split.
  - intros (s & j & I & LE & W). apply M in I as [[]|(i & I & Hi)]. exists i. split; [auto|].
    apply (relative_walk rows [] [] seg eq_refl LEN SAME order i k s u); auto. exists j. split; [auto|].
    apply (nwalk_iff (joined_ids rows seg) (fun a b => In b (neighbours links a))); auto. intros. symmetry. apply In_neighbours.
  - intros (i & I & RL). destruct (nth_error_lt_Some seg i) as [s Hs]; [rewrite LEN; apply B; auto|].
    destruct (proj1 (relative_walk rows [] [] seg eq_refl LEN SAME order i k s u Hs Hu) RL) as (j & LE & W).
    exists s, j. split; [apply M; right; eauto|]. split; [auto|].
    apply (nwalk_iff (joined_ids rows seg) (fun a b => In b (neighbours links a))); auto. intros. symmetry. apply In_neighbours.
Qed.
End Rel.

Theorem relatives_spec : forall rows i_obs order, rows <> [] -> segment_sorted rows -> links_ok rows -> (forall i, In i i_obs -> i < length rows) ->
  order < far ->
  exists m, relatives_mask rows i_obs order = Some m /\ length m = length rows /\
    forall k, nth_error m k = Some true <-> k < length rows /\ exists i, In i i_obs /\ relative rows order i k.
Proof.
  intros rows i_obs order NE SS LK B OF. unfold relatives_mask.
  destruct (index_spec rows NE SS) as (seg & first & last & _ & ES & SF & _ & _ & FULL & _). rewrite ES. cbn [bind].
  pose proof SF as (LS & SO & SAME).
  destruct (slices_spec seg) as (sl & ESL & SL); auto. { destruct seg; [simpl in LS; destruct rows; [congruence|discriminate]|discriminate]. }
  rewrite ESL. cbn [bind].
  destruct (links_spec rows seg sl LS LK SL SAME) as (el & links & E1 & E2 & NL). rewrite E1. cbn [bind]. rewrite E2. cbn [bind].
  rewrite LS.
  destruct (relatives_loop rows seg sl links (length first) order SF SL FULL NL OF i_obs B) as (t & E & L & K).
  exists (map (fun d => d <=? order) t). split.
  { etransitivity; [|exact (eq_refl (Some (map (fun d => d <=? order) t)))]. rewrite E. reflexivity. }
  split; [rewrite map_length; auto|]. intros k. rewrite nth_error_map. split.
  - intros H. destruct (nth_error t k) as [v|] eqn:Hv; [|discriminate]. simpl in H. apply Some_inj in H. apply Nat.leb_le in H.
    assert (KN : k < length rows) by (apply nth_error_Some_lt in Hv; lia). split; [auto|].
    destruct (K k KN) as (v' & Hv' & IFF). rewrite Hv in Hv'. apply Some_inj in Hv'. subst. apply IFF. auto.
  - intros (KN & H). destruct (K k KN) as (v & Hv & IFF). rewrite Hv. simpl. f_equal. apply Nat.leb_le. apply IFF. auto.
Qed.
