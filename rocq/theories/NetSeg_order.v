(** Proofs on the relative order of segments. *)
From Coq Require Import List Arith ZArith Bool Lia.
From Verif Require Import Base Sort Spec Generic_model Generic_proofs Corr_model Corr_proofs Corr_more TrackObs_more NetGroup_model
  Net_model Net_spec Net_dfs Net_links Net_reach Net_relax NetSeg_model NetSeg_spec NetSeg_proofs.
Import ListNotations.

Section Close.
Context (enum : list nat -> list nat) (conn : list (nat * nat)) (shift N : nat).
Hypothesis EN : forall l x, In x (enum l) <-> In x l.
Hypothesis CB : forall u v, In v (connected conn u) -> shift <= u < shift + N /\ shift <= v < shift + N.

Definition zget (t : list Z) (u : nat) : option nat := match nth_error t u with Some z => if (z =? -1)%Z then None else Some (Z.to_nat z) | None => None end.
Definition zset (t : list Z) (u d : nat) : list Z := upd t u (Z.of_nat d).
Definition zvalid (t : list Z) : Prop := length t = N /\ forall z, In z t -> (-1 <= z)%Z.
Definition sons (u : nat) : list nat := map (fun v => v - shift) (enum (connected conn (u + shift))).

Lemma zvalid_set : forall t s d, zvalid t -> s < N -> zvalid (zset t s d).
Proof.
  intros t s d [L P] S. unfold zset. split; [rewrite length_upd; auto|]. intros z H. apply In_nth_error in H as [k Hk].
  destruct (Nat.eq_dec k s) as [->|NE].
  - rewrite nth_error_upd_eq in Hk by lia. apply Some_inj in Hk. lia.
  - rewrite nth_error_upd_neq in Hk by auto. apply P. eapply nth_error_In; eauto.
Qed.
Lemma zget_set : forall t s d u, zvalid t -> s < N -> u < N -> zget (zset t s d) u = if u =? s then Some d else zget t u.
Proof.
  intros t s d u [L P] S U. unfold zget, zset. destruct (Nat.eqb_spec u s) as [->|NE].
  - rewrite nth_error_upd_eq by lia. destruct (Z.eqb_spec (Z.of_nat d) (-1)); [lia|]. rewrite Nat2Z.id. auto.
  - rewrite nth_error_upd_neq by auto. auto.
Qed.
Lemma In_sons : forall u v, In v (sons u) <-> exists w, In w (connected conn (u + shift)) /\ w = v + shift.
Proof.
  intros u v. unfold sons. rewrite in_map_iff. split.
  - intros (w & E & H). apply (proj1 (EN _ _)) in H. pose proof (CB _ _ H). exists w. split; [auto|lia].
  - intros (w & H & ->). exists (v + shift). split; [lia|]. apply EN. auto.
Qed.
Lemma sons_lt : forall s u, s < N -> In u (sons s) -> u < N.
Proof. intros s u _ H. apply In_sons in H as (w & H & ->). apply CB in H. lia. Qed.

Notation zrelax := (relax zget zset sons None).
Lemma zrelax_spec : forall fuel s d t t', s < N -> zvalid t -> zrelax fuel s d t = Some t' -> relaxed zvalid zget N sons None s d t t'.
Proof. apply relax_spec; [exact zvalid_set|exact zget_set|exact sons_lt]. Qed.
Lemma index_of : forall (t : list Z) u, length t = N -> u < N -> pyget t (Z.of_nat (u + shift) - Z.of_nat shift) = nth_error t u.
Proof. intros t u L U. apply pyget_nat; lia. Qed.
Lemma store_of : forall t u (d : nat), length t = N -> u < N -> pystore t (Z.of_nat (u + shift) - Z.of_nat shift) (Z.of_nat d) = Some (zset t u d).
Proof.
  intros t u d L U. unfold pystore, pyidx. destruct (Z.leb_spec 0 (Z.of_nat (u + shift) - Z.of_nat shift)); [|lia].
  destruct (Z.ltb_spec (Z.of_nat (u + shift) - Z.of_nat shift) (Z.of_nat (length t))); [|lia]. cbn [bind].
  replace (Z.to_nat (Z.of_nat (u + shift) - Z.of_nat shift)) with u by lia. unfold store, zset. destruct (Nat.ltb_spec u (length t)); [auto|lia].
Qed.

Lemma zrelax_S : forall fuel u d t, zrelax (S fuel) u d t =
  if above (zget t u) d then fold_left (fun ot v => let! t := ot in zrelax fuel v (d + 1) t) (sons u) (Some (zset t u d)) else Some t.
Proof. intros. cbn [relax allowed]. rewrite andb_true_r. reflexivity. Qed.
Lemma close_S : forall fuel father distance, close_segment enum conn (Z.of_nat shift) (S fuel) father distance =
  let! d := pyget distance (Z.of_nat father - Z.of_nat shift) in
  let! distance0 := (if (d =? -1)%Z then pystore distance (Z.of_nat father - Z.of_nat shift) 0%Z else Some distance) in
  let! d0 := pyget distance0 (Z.of_nat father - Z.of_nat shift) in
  fold_left (fun od son =>
      let! dl := od in
      let! d_son := pyget dl (Z.of_nat son - Z.of_nat shift) in
      if (d_son =? -1)%Z || (d0 + 1 <? d_son)%Z
      then let! dl' := pystore dl (Z.of_nat son - Z.of_nat shift) (d0 + 1)%Z in close_segment enum conn (Z.of_nat shift) fuel son dl'
      else Some dl)
    (enum (connected conn father)) (Some distance0).
Proof. reflexivity. Qed.
Lemma close_relax : forall fuel u d t t', u < N -> zvalid t -> above (zget t u) d = true ->
  zrelax (S fuel) u d t = Some t' -> close_segment enum conn (Z.of_nat shift) (S fuel) (u + shift) (zset t u d) = Some t'.
Proof.
  induction fuel as [|fuel IH]; intros u d t t' U V A H; rewrite zrelax_S, A in H; rewrite close_S.
  - assert (V0 : zvalid (zset t u d)) by (apply zvalid_set; auto). pose proof (proj1 V0) as L0.
    rewrite index_of by auto. unfold zset at 1. rewrite nth_error_upd_eq by (destruct V; lia). cbn [bind].
    destruct (Z.eqb_spec (Z.of_nat d) (-1)); [lia|]. cbn [bind]. rewrite index_of by auto.
    unfold zset at 1. rewrite nth_error_upd_eq by (destruct V; lia). cbn [bind].
    destruct (sons u) as [|x l] eqn:ES.
    + unfold sons in ES. destruct (enum (connected conn (u + shift))); [|discriminate]. exact H.
    + cbn [fold_left bind] in H. cbn [relax] in H. rewrite (fold_None (fun u t => None)) in H. discriminate.
  - assert (V0 : zvalid (zset t u d)) by (apply zvalid_set; auto). pose proof (proj1 V0) as L0.
    rewrite index_of by auto. unfold zset at 1. rewrite nth_error_upd_eq by (destruct V; lia). cbn [bind].
    destruct (Z.eqb_spec (Z.of_nat d) (-1)); [lia|]. cbn [bind]. rewrite index_of by auto.
    unfold zset at 1. rewrite nth_error_upd_eq by (destruct V; lia). cbn [bind].
    change (sons u) with (map (fun v => v - shift) (enum (connected conn (u + shift)))) in H.
    assert (B : forall v, In v (enum (connected conn (u + shift))) -> shift <= v < shift + N) by (intros v Hv; apply (proj1 (EN _ _)), CB in Hv; tauto).
    revert V0 H. generalize (zset t u d) as cur. clear L0.
    induction (enum (connected conn (u + shift))) as [|w l IHl]; intros cur VC H; [exact H|].
    cbn [map fold_left bind] in H |- *. destruct (B w (or_introl eq_refl)) as [W1 W2].
    set (y := w - shift) in *. assert (YN : y < N) by lia. assert (EW : w = y + shift) by lia. rewrite EW.
    rewrite index_of by (auto; apply VC). destruct (nth_error_lt_Some cur y) as [z Hz]; [destruct VC; lia|]. rewrite Hz. cbn [bind].
    destruct (zrelax (S fuel) y (d + 1) cur) as [c1|] eqn:E1; [|rewrite (fold_None (fun u t => zrelax (S fuel) u (d + 1) t)) in H; discriminate].
    assert (Z1 : (-1 <= z)%Z) by (apply VC; eapply nth_error_In; eauto).
    assert (AB : above (zget cur y) (d + 1) = ((z =? -1) || (Z.of_nat d + 1 <? z))%Z).
    { unfold zget. rewrite Hz. destruct (Z.eqb_spec z (-1)); cbn [above orb]; [auto|]. destruct (Nat.ltb_spec (d + 1) (Z.to_nat z)), (Z.ltb_spec (Z.of_nat d + 1) z); auto; lia. }
    rewrite <- AB. pose proof E1 as E1'. apply zrelax_spec in E1' as (V1 & _); auto.
    destruct (above (zget cur y) (d + 1)) eqn:A1.
    + replace (Z.of_nat d + 1)%Z with (Z.of_nat (d + 1)) by lia. rewrite store_of by (auto; apply VC). cbn [bind].
      rewrite (IH y (d + 1) cur c1 YN VC A1 E1). replace (Z.of_nat (d + 1)) with (Z.of_nat d + 1)%Z by lia.
      apply IHl; auto. intros; apply B; right; auto.
    + rewrite zrelax_S, A1 in E1. apply Some_inj in E1. subst c1.
      apply IHl; auto. intros; apply B; right; auto.
Qed.

Theorem close_segment_spec : forall u, u < N ->
  exists t, close_segment enum conn (Z.of_nat shift) (S N) (u + shift) (repeat (-1)%Z N) = Some t /\ zvalid t /\
    forall v k, v < N -> (upto (zget t v) k <-> exists j, j <= k /\ nwalk (fun a b => In b (sons a)) j u v).
Proof.
  intros u U. set (t0 := repeat (-1)%Z N).
  assert (V0 : zvalid t0). { split; [apply repeat_length|]. intros z H. apply repeat_spec in H. lia. }
  assert (G0 : forall v, v < N -> zget t0 v = None).
  { intros v V. unfold zget, t0. rewrite nth_error_repeat_lt. destruct (Nat.ltb_spec v N); [|lia]. reflexivity. }
  destruct (relax_stack zvalid zget zset N sons None zvalid_set zget_set sons_lt (S N) u 0 t0 []) as (t & E); auto; try lia; [constructor|intros x []|].
  assert (EX : exact zget N sons None [] t0). { split; [|intros s []]. intros x e X G _. rewrite G0 in G by auto. discriminate. }
  destruct (exact_relax zvalid zget zset N sons None zvalid_set zget_set sons_lt (S N) u [] t0 t) as (V & EX1); auto. { intros x []. }
  exists t. split; [|split; [auto|]].
  - assert (A : above (zget t0 u) 0 = true) by (rewrite G0; auto).
    pose proof (close_relax N u 0 t0 t U V0 A E) as C. rewrite <- C. rewrite !close_S.
    assert (L0 : length t0 = N) by apply V0. assert (L1 : length (zset t0 u 0) = N) by (unfold zset; rewrite length_upd; auto).
    rewrite !index_of by auto. unfold t0 at 1. rewrite nth_error_repeat_lt. destruct (Nat.ltb_spec u N); [|lia]. cbn [bind].
    assert (Z1 : nth_error (zset t0 u 0) u = Some 0%Z) by (unfold zset; rewrite nth_error_upd_eq by lia; reflexivity).
    rewrite Z1. cbn [bind]. change (-1 =? -1)%Z with true. change (0 =? -1)%Z with false. cbn iota.
    change 0%Z with (Z.of_nat 0) at 1. rewrite store_of by auto. cbn [bind]. rewrite index_of by auto. rewrite Z1. reflexivity.
  - intros v k VN. pose proof (exact_spec zget N sons None sons_lt [u] t) as SP. rewrite SP; auto.
    + split; [intros (s & j & [<-|[]] & LE & W); eauto|intros (j & LE & W); exists u, j; simpl; auto].
    + intros x [<-|[]]; auto.
Qed.
End Close.

Lemma fill_slices_out : forall {A} i_s i_e (v d : list A) k, k < length d ->
  (forall u a b, nth_error i_s u = Some a -> nth_error i_e u = Some b -> ~ a <= k < b) -> nth_error (fill_slices d i_s i_e v) k = nth_error d k.
Proof.
  induction i_s as [|a i_s IH]; intros [|b i_e] [|x v] d k K H; try reflexivity. cbn [fill_slices].
  rewrite IH; [|rewrite length_fill; auto|intros u a' b' A' B'; apply (H (S u)); auto].
  rewrite nth_fill by auto. specialize (H 0 a b eq_refl eq_refl). destruct (Nat.leb_spec a k), (Nat.ltb_spec k b); auto. lia.
Qed.
Lemma fill_slices_in : forall {A} i_s i_e (v d : list A) k u a b x, k < length d -> nth_error i_s u = Some a -> nth_error i_e u = Some b -> nth_error v u = Some x ->
  a <= k < b -> (forall u' a' b', nth_error i_s u' = Some a' -> nth_error i_e u' = Some b' -> a' <= k < b' -> u' = u) ->
  nth_error (fill_slices d i_s i_e v) k = Some x.
Proof.
  induction i_s as [|a i_s IH]; intros i_e v d k u a' b' x K HA HB HX IN UN; [destruct u; discriminate|].
  destruct i_e as [|b i_e]; [destruct u; discriminate|]. destruct v as [|y v]; [destruct u; discriminate|]. cbn [fill_slices].
  destruct u as [|u]; cbn in HA, HB, HX.
  - apply Some_inj in HA, HB, HX. subst. rewrite fill_slices_out.
    + rewrite nth_fill by auto. destruct (Nat.leb_spec a' k), (Nat.ltb_spec k b'); auto; lia.
    + rewrite length_fill; auto.
    + intros u a b A' B' C. specialize (UN (S u) a b A' B' C). discriminate.
  - apply (IH i_e v _ k u a' b' x); auto. { rewrite length_fill; auto. }
    intros u' p q P Q C. specialize (UN (S u') p q P Q C). lia.
Qed.
Lemma length_fill_slices : forall {A} i_s i_e (v d : list A), length (fill_slices d i_s i_e v) = length d.
Proof. induction i_s as [|a i_s IH]; intros [|b i_e] [|x v] d; try reflexivity. cbn [fill_slices]. rewrite IH, length_fill. auto. Qed.

Lemma relative_lt : forall rows k i j, relative rows k i j -> i < length rows /\ j < length rows.
Proof.
  intros rows k i j H. induction H as [k i j (a & b & A & B & _)|k i j l (x & y & (a & b & A & _) & _) H [_ IH]].
  - split; eapply nth_error_Some_lt; eauto.
  - split; [eapply nth_error_Some_lt; eauto|auto].
Qed.

(** The relative order is the least number of events, -1 when there is none. *)
Theorem obs_relative_order_spec : forall enum rows i, (forall l x, In x (enum l) <-> In x l) -> segment_sorted rows -> links_ok rows -> i < length rows ->
  (forall a b, In a rows -> In b rows -> track a = track b) ->
  exists d, obs_relative_order enum rows i = Some d /\ length d = length rows /\
    forall k z, nth_error d k = Some z ->
      (z = (-1)%Z /\ forall e, ~ relative rows e i k) \/
      exists e, z = Z.of_nat e /\ relative rows e i k /\ forall f, relative rows f i k -> e <= f.
Proof.
  intros enum rows i EN SS LK I ONE.
  assert (NE : rows <> []) by (destruct rows; [simpl in I; lia|discriminate]).
  destruct (nth_error_lt_Some rows i I) as [ri Hri].
  unfold obs_relative_order. rewrite Hri. cbn [bind]. unfold segment_relative_order.
  (* one network *)
  set (tr := map (fun r => Z.of_nat (track r)) rows). set (sg := map (fun r => Z.of_nat (segment r)) rows).
  assert (TC : forall v, In v tr -> v = Z.of_nat (track ri)).
  { intros v H. unfold tr in H. apply in_map_iff in H as (r & <- & H). rewrite (ONE r ri H (nth_error_In _ _ Hri)). auto. }
  assert (ST : zsorted tr). { intros p q a b _ A B. apply nth_error_In, TC in A. apply nth_error_In, TC in B. lia. }
  assert (SGN : forall k v, nth_error sg k = Some v <-> exists r, nth_error rows k = Some r /\ v = Z.of_nat (segment r)).
  { intros k v. unfold sg. rewrite nth_error_map. destruct (nth_error rows k) as [r|]; simpl; split.
    - intros H. apply Some_inj in H. subst. eauto.
    - intros (t & H & ->). apply Some_inj in H. subst. auto.
    - discriminate.
    - intros (t & H & _). discriminate. }
  assert (SSG : zsorted sg).
  { intros p q a b L A B. apply SGN in A as (r & Hr & ->). apply SGN in B as (t & Ht & ->).
    destruct (SS p q r t L Hr Ht) as [H|[_ H]]; [|lia]. rewrite (ONE r t) in H by (eapply nth_error_In; eauto). lia. }
  assert (NT : tr <> []) by (unfold tr; destruct rows; [congruence|discriminate]).
  assert (NSG : sg <> []) by (unfold sg; destruct rows; [congruence|discriminate]).
  destruct (build_index_tile tr NT ST) as (f & l & i0 & EB & _). rewrite EB. cbn [bind].
  destruct (build_index_first tr f l i0 ST EB) as (_ & I0 & I1 & _ & P & _). apply TC in I0, I1.
  destruct (Nat.ltb_spec 1 (length f)); [lia|].
  destruct (build_index_tile sg NSG SSG) as (i_s & i_e & ref & EB2 & LL & IR & RG & TILE & _). rewrite EB2. cbn [bind].
  destruct (index_spec rows NE SS) as (seg & first & last & EI & ES & SF & LL2 & SL & FULL & _). rewrite EI. cbn [bind].
  set (ids := map segment rows).
  assert (LI : length ids = length rows) by (unfold ids; apply map_length).
  destruct (connexions_spec rows seg first last ids SF LK LL2 SL LI) as (conn & EC & CC). rewrite EC. cbn [bind].
  assert (H0 : exists shift, ref = Z.of_nat shift). { apply In_nth_error in IR as [k Hk]. apply SGN in Hk as (r & _ & ->). eauto. }
  destruct H0 as [shift ->]. set (N := length i_s) in *.
  assert (IDS : forall k s, nth_error ids k = Some s <-> exists r, nth_error rows k = Some r /\ s = segment r).
  { intros k s. unfold ids. rewrite nth_error_map. destruct (nth_error rows k) as [r|]; simpl; split.
    - intros X. apply Some_inj in X. subst. eauto.
    - intros (t & X & ->). apply Some_inj in X. subst. auto.
    - discriminate.
    - intros (t & X & _). discriminate. }
  assert (IDB : forall k s, nth_error ids k = Some s -> shift <= s < shift + N).
  { intros k s Hk. apply IDS in Hk as (r & Hr & ->). assert (X : In (Z.of_nat (segment r)) sg) by (apply nth_error_In with k; apply SGN; eauto). apply RG in X. lia. }
  assert (SI : forall p q s, nth_error ids p = Some s -> (nth_error ids q = Some s <-> same_segment rows p q)).
  { intros p q s Hp. apply IDS in Hp as (r & Hr & ->). rewrite IDS. split.
    - intros (t & Ht & E). exists r, t. repeat split; auto. apply ONE; eapply nth_error_In; eauto.
    - intros (a & b & A & B & _ & E). rewrite Hr in A. apply Some_inj in A. subst a. exists b. auto. }
  assert (CB : forall u v, In v (connected conn u) -> shift <= u < shift + N /\ shift <= v < shift + N).
  { intros u v X. apply CC in X as (x & y & _ & U & V). split; eapply IDB; eauto. }
  assert (HI : nth_error ids i = Some (segment ri)) by (apply IDS; eauto). pose proof (IDB _ _ HI) as BI.
  set (u := segment ri - shift). assert (UN : u < N) by lia. assert (EU : segment ri = u + shift) by lia.
  destruct (close_segment_spec enum conn shift N EN CB u UN) as (t & ET & VT & DIST).
  rewrite EU. rewrite ET. cbn [bind]. eexists. split; [reflexivity|].
  split; [rewrite length_fill_slices; apply repeat_length|].
  intros k z Hz. assert (K : k < length rows). { apply nth_error_Some_lt in Hz. rewrite length_fill_slices, repeat_length in Hz. auto. }
  destruct (nth_error_lt_Some rows k K) as [rk Hrk]. assert (HK : nth_error ids k = Some (segment rk)) by (apply IDS; eauto).
  pose proof (IDB _ _ HK) as BK. set (v := segment rk - shift). assert (VN : v < N) by lia. assert (EV : segment rk = v + shift) by lia.
  destruct (nth_error_lt_Some i_s v) as [a A]; [auto|]. destruct (nth_error_lt_Some i_e v) as [b B]; [unfold N in VN; lia|].
  destruct (nth_error_lt_Some t v) as [x X]; [destruct VT as [-> _]; auto|].
  assert (AKB : a <= k < b). { apply (TILE v a b A B). apply SGN. exists rk. split; [auto|lia]. }
  rewrite (fill_slices_in i_s i_e t _ k v a b x) in Hz; auto; cycle 1.
  { rewrite repeat_length; auto. }
  { intros w a' b' A' B' C. apply (TILE w a' b' A' B') in C. apply SGN in C as (r & Hr & E). rewrite Hrk in Hr. apply Some_inj in Hr. subst r. lia. }
  apply Some_inj in Hz. subst x.
  assert (WALK : forall j, nwalk (fun a b => In b (sons enum conn shift a)) j u v <-> nwalk (joined_ids rows ids) j (segment ri) (segment rk)).
  { assert (ONE1 : forall a c, In c (sons enum conn shift a) <-> joined_ids rows ids (a + shift) (c + shift)).
    { intros a' c'. rewrite (In_sons enum conn shift N EN CB). rewrite <- CC. split; [intros (w & W & ->); auto|eauto]. }
    assert (F : forall j a c, nwalk (fun a b => In b (sons enum conn shift a)) j a c -> nwalk (joined_ids rows ids) j (a + shift) (c + shift)).
    { intros j a' c' W. induction W; [constructor|]. econstructor; [apply ONE1; eauto|auto]. }
    assert (G : forall j a c, nwalk (joined_ids rows ids) j a c -> shift <= a -> nwalk (fun a b => In b (sons enum conn shift a)) j (a - shift) (c - shift)).
    { intros j a' c' W. induction W as [a'|j a' b' c' J W IH]; intros LE; [constructor|].
      assert (B' : shift <= b') by (destruct J as (x & y & _ & _ & Y); apply IDB in Y; lia).
      econstructor; [|apply IH; auto]. apply ONE1. replace (a' - shift + shift) with a' by lia. replace (b' - shift + shift) with b' by lia. auto. }
    intros j. split; intros W; [apply F in W; rewrite EU, EV; auto|]. apply G in W; [auto|lia]. }
  assert (REL : forall e, relative rows e i k <-> upto (zget t v) e).
  { intros e. rewrite (relative_walk rows [] [] ids eq_refl LI SI e i k _ _ HI HK). rewrite DIST by auto.
    split; intros (j & LE & W); exists j; (split; [auto|]); apply WALK; auto. }
  unfold zget in REL. rewrite X in REL.
  assert (Z1 : (-1 <= z)%Z) by (apply VT; eapply nth_error_In; eauto).
  destruct (Z.eqb_spec z (-1)) as [->|NZ].
  - left. split; [auto|]. intros e R. apply REL in R as (g & R & _). discriminate.
  - right. exists (Z.to_nat z). split; [lia|]. split; [apply REL; exists (Z.to_nat z); auto|].
    intros g R. apply REL in R as (h & R & LE). apply Some_inj in R. lia.
Qed.
