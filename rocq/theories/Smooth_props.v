(** C137: smoothing of the positions of tracks and networks. *)
From Coq Require Import List Arith Bool QArith Qabs Lia Lqa.
From Verif Require Import Base Qaux Spec Generic_model NetGroup_model NetGroup_spec NetGroup_props TrackObs_model TrackObs_spec TrackObs_proofs TrackObs_more TrackObs_filter TrackObs_props Smooth_model.
Import ListNotations.
Local Close Scope Q_scope.
Local Open Scope nat_scope.

(** ** Specification *)
(** [y'] has the length of [y], and each value of [y'] lies between bounds of the
    values of [y] in the same group and at most [d] away in time. *)
Definition close_to (d : Q) (time : list Q) (group : list nat) (y y' : list Q) : Prop :=
  length y' = length y /\
  forall i v lo hi, nth_error y' i = Some v ->
    (forall j a, nth_error y j = Some a -> nth_error group j = nth_error group i -> (Qabs (nth i time 0 - nth j time 0) <= d)%Q -> (lo <= a)%Q /\ (a <= hi)%Q) ->
    (lo <= v)%Q /\ (v <= hi)%Q.
(** One array for each field, all of the same length. *)
Definition even (o : sobs) : Prop :=
  length (s_time o) = length (s_track o) /\ length (s_lon o) = length (s_track o) /\ length (s_lat o) = length (s_track o) /\ length (s_segment o) = length (s_track o).
(** The segment of each row as a pair. *)
Definition same_segment (o : sobs) (i j : nat) : Prop := nth_error (s_track o) i = nth_error (s_track o) j /\ nth_error (s_segment o) i = nth_error (s_segment o) j.

(** ** Proofs *)
Lemma in_qinsert : forall b a l, In b (qinsert a l) <-> a = b \/ In b l.
Proof. intros b a. induction l as [|c l IH]; [cbn; tauto|]. cbn [qinsert]. destruct (Qle_bool a c); cbn [In]; [tauto|]. rewrite IH. tauto. Qed.
Lemma in_qsort : forall b l, In b (qsort l) <-> In b l.
Proof. intros b. induction l as [|a l IH]; [tauto|]. unfold qsort in *. cbn [fold_right In]. rewrite in_qinsert, IH. tauto. Qed.
Lemma median_between : forall l lo hi, l <> [] -> (forall a, In a l -> (lo <= a)%Q /\ (a <= hi)%Q) -> (lo <= np_median l)%Q /\ (np_median l <= hi)%Q.
Proof.
  intros l lo hi NE B. unfold np_median. set (s := qsort l). assert (L : length s = length l) by apply length_qsort. assert (P : 0 < length s) by (rewrite L; destruct l; [congruence|cbn; lia]).
  assert (N : forall k, k < length s -> (lo <= nth k s 0 <= hi)%Q) by (intros k K; apply B, in_qsort; exact (nth_In s 0%Q K)).
  set (h0 := (length s - 1) / 2). set (h1 := length s / 2).
  assert (H0 : h0 < length s) by (unfold h0; pose proof (Nat.div_le_upper_bound (length s - 1) 2 (length s - 1) ltac:(lia) ltac:(lia)); lia).
  assert (H1 : h1 < length s) by (apply Nat.div_lt; lia). pose proof (N h0 H0). pose proof (N h1 H1).
  assert (D : ((nth h0 s 0 + nth h1 s 0) / 2 == (nth h0 s 0 + nth h1 s 0) * (1#2))%Q) by field. rewrite D. lra.
Qed.
Lemma nth_of : forall (x : list Q) i a, nth_error x i = Some a -> nth i x 0%Q = a.
Proof. intros x i a H. exact (nth_error_nth x i 0%Q H). Qed.
Lemma smoothed : forall mhw lhw time y group, (0 <= mhw)%Q -> (0 <= lhw)%Q -> length time = length group -> length y = length group -> grouped group -> growing group time ->
  exists a b, track_median_filter np_median mhw time y group = Some a /\ track_loess_filter lhw time a group = Some b /\ close_to (mhw + lhw) time group y b.
Proof.
  intros mhw lhw time y group M L LX LY G GR.
  destruct (C27_median_window np_median mhw time y group M LX LY G GR) as (a & EA & LA & HA). assert (LA' : length a = length group) by congruence.
  destruct (C28_loess_weighted_mean lhw time a group LX LA' G GR) as (b & EB & LB & _). exists a, b. split; [exact EA|]. split; [exact EB|]. split; [congruence|].
  intros i v lo hi V B. apply (C28_loess_bounds lhw time a group b i v lo hi L LX LA' G GR EB V).
  intros j w W GJ D. assert (J : j < length y) by (rewrite <- LA; apply nth_error_Some; rewrite W; discriminate). destruct (HA j J) as (l & (pos & LP & _ & IP & NP) & EJ). rewrite W in EJ. apply Some_inj in EJ. subst w.
  apply median_between.
  - intros E. subst l. destruct pos; [|discriminate LP]. apply (proj2 (IP j)). split; [exact J|]. split; [reflexivity|]. intros p q X Y. rewrite X in Y. apply Some_inj in Y. subst q. lra.
  - intros p P. apply In_nth_error in P as [u P]. destruct (nth_error pos u) as [k|] eqn:K; [|exfalso; apply nth_error_None in K; assert (u < length l) by (apply nth_error_Some; rewrite P; discriminate); lia].
    pose proof (NP u k K) as E. rewrite P in E. symmetry in E. pose proof (proj1 (IP k) (nth_error_In _ _ K)) as (KL & GK & DK). apply (B k p E); [congruence|].
    destruct (nth_error time j) as [tj|] eqn:TJ; [|apply nth_error_None in TJ; lia]. destruct (nth_error time k) as [tk|] eqn:TK; [|apply nth_error_None in TK; lia].
    rewrite (nth_of _ _ _ TJ) in D. rewrite (nth_of _ _ _ TK). destruct (DK tj tk eq_refl eq_refl) as [D1 D2].
    apply Qabs_Qle_condition in D. apply Qabs_Qle_condition. lra.
Qed.
Lemma filter_with_spec : forall group mhw lhw o, (0 <= mhw)%Q -> (0 <= lhw)%Q -> even o -> length group = length (s_track o) -> grouped group -> growing group (s_time o) ->
  exists o', filter_with group mhw lhw o = Some o' /\ s_time o' = s_time o /\ s_track o' = s_track o /\ s_segment o' = s_segment o /\
    close_to (mhw + lhw) (s_time o) group (s_lon o) (s_lon o') /\ close_to (mhw + lhw) (s_time o) group (s_lat o) (s_lat o').
Proof.
  intros group mhw lhw o M L (E1 & E2 & E3 & E4) LG G GR. unfold filter_with.
  destruct (smoothed mhw lhw (s_time o) (s_lon o) group M L ltac:(congruence) ltac:(congruence) G GR) as (a & b & A & B & C). rewrite A. cbn [bind]. rewrite B. cbn [bind set_lon s_time s_lat].
  destruct (smoothed mhw lhw (s_time o) (s_lat o) group M L ltac:(congruence) ltac:(congruence) G GR) as (c & d & A' & B' & C'). rewrite A'. cbn [bind]. rewrite B'. cbn [bind]. eexists. split; [reflexivity|]. cbn. auto 8.
Qed.

(** Tracks: each position stays between the positions of its own track. *)
Theorem C137_tracks : forall mhw lhw o, (0 <= mhw)%Q -> (0 <= lhw)%Q -> even o -> grouped (s_track o) -> growing (s_track o) (s_time o) ->
  exists o', position_filter mhw lhw o = Some o' /\ s_time o' = s_time o /\ s_track o' = s_track o /\ s_segment o' = s_segment o /\
    close_to (mhw + lhw) (s_time o) (s_track o) (s_lon o) (s_lon o') /\ close_to (mhw + lhw) (s_time o) (s_track o) (s_lat o) (s_lat o').
Proof. intros mhw lhw o M L E G GR. exact (filter_with_spec (s_track o) mhw lhw o M L E eq_refl G GR). Qed.
Print Assumptions C137_tracks.

(** Networks: the same with segments, whatever the number which tells them apart. *)
Theorem C137_segments : forall mhw lhw o group, (0 <= mhw)%Q -> (0 <= lhw)%Q -> even o -> s_track o <> [] -> pairs_sorted (s_segment o) (s_track o) ->
  length group = length (s_track o) -> (forall i j, i < length group -> j < length group -> (nth_error group i = nth_error group j <-> same_segment o i j)) -> growing group (s_time o) ->
  exists o', network_position_filter mhw lhw o = Some o' /\ s_time o' = s_time o /\ s_track o' = s_track o /\ s_segment o' = s_segment o /\
    close_to (mhw + lhw) (s_time o) group (s_lon o) (s_lon o') /\ close_to (mhw + lhw) (s_time o) group (s_lat o) (s_lat o').
Proof.
  intros mhw lhw o group M L E NE PS LG GS GR. pose proof E as (E1 & E2 & E3 & E4).
  destruct (C43_unique_ids (s_segment o) (s_track o) E4 ltac:(destruct (s_segment o); [destruct (s_track o); [congruence|discriminate E4]|discriminate]) PS) as (us & EU & LU & _ & _ & K).
  assert (LU' : length us = length (s_track o)) by congruence.
  assert (KK : forall i j u v, nth_error us i = Some u -> nth_error us j = Some v -> (u = v <-> same_segment o i j) /\ (i < j -> u <= v)).
  { intros i j u v U V. assert (I : i < length us) by (apply nth_error_Some; rewrite U; discriminate). assert (J : j < length us) by (apply nth_error_Some; rewrite V; discriminate).
    destruct (nth_error_lt_Some (s_track o) i ltac:(congruence)) as [ti TI]. destruct (nth_error_lt_Some (s_track o) j ltac:(congruence)) as [tj TJ]. destruct (nth_error_lt_Some (s_segment o) i ltac:(congruence)) as [si SI]. destruct (nth_error_lt_Some (s_segment o) j ltac:(congruence)) as [sj SJ].
    pose proof (K i j si ti sj tj u v SI TI SJ TJ U V) as [KA KB]. unfold same_segment. rewrite TI, TJ, SI, SJ. split.
    - rewrite KA. split; [intros X; split; f_equal; tauto|intros [X Y]; apply Some_inj in X, Y; tauto].
    - intros IJ. destruct (Nat.le_gt_cases u v) as [X|X]; [exact X|exfalso]. pose proof (K j i sj tj si ti v u SJ TJ SI TI V U) as [_ KC]. apply KC in X. pose proof (PS i j si ti sj tj IJ SI TI SJ TJ) as Y. cbn in Y. lia. }
  assert (SAME : forall i j, i < length us -> j < length us -> (nth_error us i = nth_error us j <-> nth_error group i = nth_error group j)).
  { intros i j I J. rewrite GS by congruence. destruct (nth_error_lt_Some us i I) as [u U]. destruct (nth_error_lt_Some us j J) as [v V]. rewrite U, V. pose proof (proj1 (KK i j u v U V)) as X. rewrite <- X. split; [intros Y; apply Some_inj; exact Y|intros ->; reflexivity]. }
  assert (LTU : forall i u, nth_error us i = Some u -> i < length us) by (intros i u U; apply nth_error_Some; rewrite U; discriminate).
  assert (G : grouped us).
  { intros i j k t IJ JK I KT. pose proof (LTU _ _ KT) as KL. destruct (nth_error_lt_Some us j ltac:(lia)) as [v V]. pose proof (proj2 (KK i j t v I V) IJ). pose proof (proj2 (KK j k v t V KT) JK). rewrite V. f_equal. lia. }
  assert (GR' : growing us (s_time o)).
  { intros i j t a b IJ I J A B. assert (X : nth_error group i = nth_error group j) by (apply SAME; [exact (LTU _ _ I)|exact (LTU _ _ J)|congruence]).
    destruct (nth_error_lt_Some group i ltac:(rewrite LG, <- LU'; exact (LTU _ _ I))) as [g GI]. apply (GR i j g a b IJ GI); [congruence|exact A|exact B]. }
  destruct (filter_with_spec us mhw lhw o M L E LU' G GR') as (o' & EO & T1 & T2 & T3 & [C1 C2] & [D1 D2]).
  unfold network_position_filter. rewrite EU. cbn [bind]. exists o'. split; [exact EO|]. repeat (split; [assumption|]).
  split; (split; [assumption|]); intros i v lo hi V B; [apply (C2 i v lo hi V)|apply (D2 i v lo hi V)]; intros j a AJ GJ DJ; apply (B j a AJ); try exact DJ;
    apply SAME; try exact GJ; apply nth_error_Some_lt in AJ; apply nth_error_Some_lt in V; congruence || (rewrite LU'; congruence).
Qed.
Print Assumptions C137_segments.

(** A case: two tracks; then the same rows as a network of three segments. *)
Definition ex_obs : sobs := {| s_time := [0; 1; 2; 0; 1]%Q; s_lon := [10; 40; 16; 5; 7]%Q; s_lat := [1; 2; 3; 4; 5]%Q; s_track := [3; 3; 3; 5; 5]; s_segment := [1; 1; 2; 1; 1] |}.
Definition shown (o : sobs) : list Q * list Q := (map Qred (s_lon o), map Qred (s_lat o)).
Lemma grouped_small : forall l, (forall k, k < length l -> forall j, j < k -> forall i, i < j -> nth_error l i = nth_error l k -> nth_error l j = nth_error l k) -> grouped l.
Proof. intros l H i j k t IJ JK I K. rewrite <- K. apply (H k ltac:(exact (nth_error_Some_lt _ _ _ K)) j JK i IJ). congruence. Qed.
Lemma growing_small : forall l x, (forall j, j < length l -> forall i, i < j -> nth_error l i = nth_error l j -> (nth i x 0 <= nth j x 0)%Q) -> growing l x.
Proof. intros l x H i j t a b IJ I J A B. rewrite <- (nth_of _ _ _ A), <- (nth_of _ _ _ B). apply (H j ltac:(exact (nth_error_Some_lt _ _ _ J)) i IJ). congruence. Qed.
Tactic Notation "below" ident(k) ident(H) := cbn in H; destruct k as [|[|[|[|[|k]]]]]; [clear H..|exfalso; lia].
Example C137_case : even ex_obs /\ grouped (s_track ex_obs) /\ growing (s_track ex_obs) (s_time ex_obs) /\ pairs_sorted (s_segment ex_obs) (s_track ex_obs) /\ growing [0; 0; 1; 2; 2] (s_time ex_obs) /\
  (forall i j, i < 5 -> j < 5 -> (nth_error [0; 0; 1; 2; 2] i = nth_error [0; 0; 1; 2; 2] j <-> same_segment ex_obs i j)) /\
  option_map shown (position_filter 1 2 ex_obs) = Some ([2032 # 95; 5932 # 285; 6608 # 285; 6; 6]%Q, [1454 # 855; 3763 # 1710; 1966 # 855; 9 # 2; 9 # 2]%Q) /\
  option_map shown (network_position_filter 1 2 ex_obs) = Some ([25; 25; 16; 6; 6]%Q, [3 # 2; 3 # 2; 3; 9 # 2; 9 # 2]%Q).
Proof.
  split; [repeat split|]. split; [apply grouped_small; intros k K j J i I E; below k K; do 5 (destruct j as [|j]; [do 5 (destruct i as [|i]; [cbn in E |- *; congruence || (exfalso; lia)|]); exfalso; lia|]); exfalso; lia|].
  split; [apply growing_small; intros j J i I E; below j J; do 5 (destruct i as [|i]; [cbn in E |- *; lra || congruence || (exfalso; lia)|]); exfalso; lia|].
  split. { intros i j a b a' b' IJ A B A' B'. assert (J : j < 5) by (apply nth_error_Some_lt in A'; exact A'). below j J; do 5 (destruct i as [|i]; [cbn in A, B, A', B'; injection A as <-; injection B as <-; injection A' as <-; injection B' as <-; lia|]); exfalso; lia. }
  split; [apply growing_small; intros j J i I E; below j J; do 5 (destruct i as [|i]; [cbn in E |- *; lra || congruence || (exfalso; lia)|]); exfalso; lia|].
  split; [|split; vm_compute; reflexivity].
  intros i j I J. unfold same_segment. below i I; below j J; cbn; intuition congruence.
Qed.
(** A track which crosses the cut of the longitudes is moved to the other side of
    the globe: positions one degree from the longitude 0 give the longitude 180. *)
Definition cut : sobs := {| s_time := [0; 1]%Q; s_lon := [359; 1]%Q; s_lat := [0; 0]%Q; s_track := [1; 1]; s_segment := [0; 0] |}.
Theorem C137_cut_refuted : (forall a, In a (s_lon cut) -> exists k : Z, (Qabs (a - inject_Z (360 * k)) <= 1)%Q) /\
  exists o', position_filter 1 2 cut = Some o' /\ forall a, In a (s_lon o') -> (a == 180)%Q.
Proof.
  split.
  - intros a [<-|[<-|[]]]; [exists 1%Z|exists 0%Z]; vm_compute; congruence.
  - eexists. split; [vm_compute; reflexivity|]. intros a [<-|[<-|[]]]; reflexivity.
Qed.
Print Assumptions C137_cut_refuted.
(** The smoothed track depends on its place in the dataset. *)
Definition alone : sobs := {| s_time := [0; 1; 2]%Q; s_lon := [0; 1; 5]%Q; s_lat := [0; 0; 0]%Q; s_track := [1; 1; 1]; s_segment := [0; 0; 0] |}.
Definition among : sobs := {| s_time := [0; 0; 1; 2; 0]%Q; s_lon := [7; 0; 1; 5; 7]%Q; s_lat := [0; 0; 0; 0; 0]%Q; s_track := [0; 1; 1; 1; 2]; s_segment := [0; 0; 0; 0; 0] |}.
Theorem C137_place_refuted : exists a b u v, position_filter 0 2 alone = Some a /\ position_filter 0 2 among = Some b /\
  (forall f, In f [s_time; s_lon; s_lat] -> firstn 3 (skipn 1 (f among)) = f alone) /\
  nth_error (s_lon a) 1 = Some u /\ nth_error (s_lon b) 2 = Some v /\ (u == 1)%Q /\ (v == 2227 # 1198)%Q.
Proof.
  do 4 eexists. split; [vm_compute; reflexivity|]. split; [vm_compute; reflexivity|]. split; [intros f [<-|[<-|[<-|[]]]]; reflexivity|]. split; [reflexivity|]. split; [reflexivity|]. split; reflexivity.
Qed.
Print Assumptions C137_place_refuted.
