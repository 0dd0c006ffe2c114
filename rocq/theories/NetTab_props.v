(** C103 to C105: sizes and numbers of networks and segments, tables kept by a
    network, methods mapped on networks and segments. *)
From Coq Require Import List Arith ZArith Bool Lia Permutation.
From Verif Require Import Base Spec Generic_model Corr_model NetGroup_spec NetGroup_model NetGroup_more NetGroup_props Obs_model Net_model Net_links NetSeg_proofs NetTab_model NetTab_proofs.
Import ListNotations.
Local Open Scope nat_scope.

(** ** C103: sizes *)
Definition copies (l : list nat) (v : nat) : Z := Z.of_nat (count_occ Nat.eq_dec l v).
Lemma lowest_exists : forall l : list nat, l <> [] -> exists lo, In lo l /\ forall v, In v l -> lo <= v.
Proof.
  induction l as [|a l IH]; intros N; [congruence|]. destruct l as [|b l]; [exists a; split; [left; reflexivity|intros v [->|[]]; lia]|]. destruct IH as (lo & I & M); [discriminate|].
  destruct (le_lt_dec a lo); [exists a|exists lo]; (split; [cbn; tauto|]); intros v [->|V]; try lia; specialize (M v V); lia.
Qed.
Lemma tracks_sorted : forall t s, length s = length t -> pairs_sorted s t -> nsorted t.
Proof.
  intros t s L P i j a b I A B. destruct (nth_error_lt_Some s i) as [x X]; [apply nth_error_Some_lt in A; lia|]. destruct (nth_error_lt_Some s j) as [y Y]; [apply nth_error_Some_lt in B; lia|]. destruct (P i j _ _ _ _ I X A Y B); lia.
Qed.
Lemma network_ready : forall t s, length s = length t -> t <> [] -> pairs_sorted s t -> exists first last ref lo, index_network (fresh t s) = Some ((first, last, ref), Net t s (Some (first, last, ref)) None None) /\
  tab_of t (first, last, ref) /\ In lo t /\ (forall v, In v t -> lo <= v < lo + length first) /\ In (lo + length first - 1) t /\ ref = Z.of_nat lo /\ 0 < length first.
Proof.
  intros t s L N P. destruct (tables_spec t N (tracks_sorted t s L P)) as ([[first last] ref] & E & TO). assert (TO' := TO). destruct TO as (lo & R & LL & PO & I0 & TOP & RA & _). exists first, last, ref, lo.
  split; [unfold index_network, fresh, of_network; cbn [c_net tr sg c_arr c_seg]; rewrite E; reflexivity|]. split; [exact TO'|]. split; [exact I0|]. split; [exact RA|]. split; [exact TOP|]. split; [exact R|exact PO].
Qed.
Lemma sequence_map : forall {A B} (f : A -> option B) (g : A -> B) l, (forall x, In x l -> f x = Some (g x)) -> sequence (map f l) = Some (map g l).
Proof. intros A B f g l H. induction l as [|x l IH]; [reflexivity|]. cbn [map sequence]. rewrite (H x (or_introl eq_refl)). cbn [bind]. rewrite IH by (intros y Y; apply H; right; exact Y). reflexivity. Qed.

(** The sizes are the numbers of rows of the networks, from the lowest number to the highest; the networks counted are those with rows; a slice holds the rows of its network. *)
Theorem C103_networks : forall t s, length s = length t -> t <> [] -> pairs_sorted s t -> exists lo hi n', In lo t /\ In hi t /\ (forall v, In v t -> lo <= v <= hi) /\
  network_sizes (fresh t s) = Some (map (copies t) (seq lo (hi + 1 - lo)), n') /\
  nb_network (fresh t s) = Some (length (nodup Nat.eq_dec t), n') /\
  (forall ids, (forall i, In i ids -> lo <= i <= hi) -> network_size (fresh t s) (map Z.of_nat ids) = Some (map (copies t) ids, n')) /\
  (forall i, lo <= i <= hi -> exists a b, network_slice (fresh t s) (Z.of_nat i) = Some ((a, b), n') /\ a <= b <= length t /\ forall k, a <= k < b <-> nth_error t k = Some i).
Proof.
  intros t s L N P. destruct (network_ready t s L N P) as (first & last & ref & lo & E & TO & I0 & RA & TOP & ER & PO). exists lo, (lo + length first - 1), (Net t s (Some (first, last, ref)) None None).
  split; [exact I0|]. split; [exact TOP|]. split; [intros v V; specialize (RA v V); lia|]. replace (lo + length first - 1 + 1 - lo) with (length first) by lia.
  assert (SZ : network_sizes (fresh t s) = Some (map (copies t) (seq lo (length first)), Net t s (Some (first, last, ref)) None None)).
  { unfold network_sizes. rewrite E. cbn [bind]. rewrite (sizes_spec t first last ref lo TO I0) by (intros v V; specialize (RA v V); lia). reflexivity. }
  split; [exact SZ|]. split.
  - unfold nb_network. rewrite SZ. cbn [bind]. f_equal. f_equal. unfold copies. apply filter_seq_count. exact RA.
  - split.
    + intros ids B. unfold network_size. rewrite E. cbn [bind]. rewrite map_map. rewrite (sequence_map _ (copies t)); [reflexivity|]. intros i I. specialize (B i I). unfold copies. replace i with (lo + (i - lo)) by lia. refine (proj1 (size_spec t first last ref lo (i - lo) TO I0 _ _)); [intros v V; specialize (RA v V); lia|lia].
    + intros i B. destruct TO as (lo' & ER' & LL & _ & _ & _ & _ & T). assert (lo' = lo) by lia. subst lo'. destruct (T (i - lo) ltac:(lia)) as (a & b & A & BB & AB & BL & J). exists a, b. unfold network_slice. rewrite E. cbn [bind]. subst ref.
      rewrite !pyget_in by lia. replace (Z.to_nat (Z.of_nat i - Z.of_nat lo)) with (i - lo) by lia. rewrite A, BB. cbn [bind]. split; [reflexivity|]. split; [lia|]. replace (lo + (i - lo)) with i in J by lia. exact J.
Qed.
Print Assumptions C103_networks.
Example C103_networks_case : (length [1; 1; 2; 1; 1; 3] = length [2; 2; 2; 5; 5; 5] /\ pairs_sorted [1; 1; 2; 1; 1; 3] [2; 2; 2; 5; 5; 5]) /\
  option_map fst (network_sizes (fresh [2; 2; 2; 5; 5; 5] [1; 1; 2; 1; 1; 3])) = Some [3; 0; 0; 3]%Z /\ option_map fst (nb_network (fresh [2; 2; 2; 5; 5; 5] [1; 1; 2; 1; 1; 3])) = Some 2.
Proof.
  split; [split; [reflexivity|]|split; reflexivity]. intros i j a b a' b' I A B A' B'. pose proof (nth_error_Some_lt _ _ _ A') as L. cbn in L.
  do 6 (destruct j as [|j]; [do 6 (destruct i as [|i]; [try lia; cbn in *; repeat match goal with H : Some _ = Some _ |- _ => injection H as <- end; lia|]); lia|]). lia.
Qed.

(** A number below the lowest one is not refused: the table is read from its end, so that asking the size of network 0 gives that of another network when there is no network 0. *)
Theorem C103_below_refuted : forall t s lo hi z, length s = length t -> pairs_sorted s t -> In lo t -> In hi t -> (forall v, In v t -> lo <= v <= hi) ->
  (Z.of_nat lo - Z.of_nat (hi + 1 - lo) <= z < Z.of_nat lo)%Z -> exists i n', lo <= i <= hi /\ (Z.of_nat i = z + Z.of_nat (hi + 1 - lo))%Z /\ network_size (fresh t s) [z] = Some ([copies t i], n').
Proof.
  intros t s lo hi z L P IL IH B Z. destruct (network_ready t s L) as (first & last & ref & lo' & E & TO & I0 & RA & TOP & ER & PO); [intros ->; destruct IL|exact P|].
  assert (lo' = lo) by (pose proof (RA lo IL); pose proof (B lo' I0); lia). subst lo'. assert (H : hi + 1 - lo = length first) by (pose proof (RA hi IH); pose proof (B _ TOP); lia). rewrite H in *.
  exists (Z.to_nat (z + Z.of_nat (length first))), (Net t s (Some (first, last, ref)) None None). split; [lia|]. split; [lia|]. unfold network_size. rewrite E. cbn [bind map sequence].
  set (k := Z.to_nat (z + Z.of_nat (length first)) - lo). assert (K : Z.to_nat (z + Z.of_nat (length first)) = lo + k) by (unfold k; lia). rewrite K. unfold copies.
  rewrite (proj2 (size_spec t first last ref lo k TO I0 ltac:(intros v V; specialize (RA v V); lia) ltac:(unfold k; lia))) by lia. reflexivity.
Qed.
Print Assumptions C103_below_refuted.
Example C103_below_case : option_map fst (network_size (fresh [1; 1; 2; 2; 2] [1; 1; 1; 1; 2]) [0]%Z) = Some [3]%Z.
Proof. reflexivity. Qed.

(** There is a list [ps] of the pairs (network, segment) met, each once and in order: its length is the number of segments, its element [k] is the segment of unique number [k], with its size; the segments of a network are counted in it. *)
Theorem C103_segments : forall t s, length s = length t -> t <> [] -> pairs_sorted s t -> exists ps n',
  (forall i j p q, i < j -> nth_error ps i = Some p -> nth_error ps j = Some q -> fst p < fst q \/ (fst p = fst q /\ snd p < snd q)) /\
  (forall p, In p ps <-> In p (combine t s)) /\
  nb_segment (fresh t s) = Some (length ps, n') /\
  (forall ks, (forall k, In k ks -> k < length ps) -> unique_segment_to_id (fresh t s) (map Z.of_nat ks) = Some (map (fun k => nth k ps (0, 0)) ks, n')) /\
  segment_sizes (fresh t s) = Some (map (fun p => Z.of_nat (count_occ pair_dec (combine t s) p)) ps, n') /\
  (forall ids, (forall i, In i ids -> exists a b, In a t /\ In b t /\ a <= i <= b) -> network_segment_size (fresh t s) (map Z.of_nat ids) = Some (map (fun i => Z.of_nat (length (filter (fun p => fst p =? i) ps))) ids, n')).
Proof.
  intros t s L N P. destruct (segments_spec t s L N P) as (u & first & last & ps & EU & LU & US & EI & TO & LP & BF & INP & KU & FP).
  assert (E : index_segment (fresh t s) = Some ((first, last, 0%Z), Net t s None (Some u) (Some (first, last, 0%Z)))).
  { unfold index_segment, segment_array, fresh. cbn [c_seg c_arr sg tr c_net]. rewrite EU. cbn [bind tr sg c_net c_arr c_seg]. unfold of_segment. rewrite EI. reflexivity. }
  exists ps, (Net t s None (Some u) (Some (first, last, 0%Z))). split; [exact BF|]. split; [exact INP|].
  assert (TO' := TO). destruct TO as (lo & R0 & LL & PO & I0 & TOP & RA & T). assert (lo = 0) by lia. subst lo.
  split; [unfold nb_segment; rewrite E; cbn [bind]; rewrite LP; reflexivity|]. split; [|split].
  - intros ks B. unfold unique_segment_to_id. rewrite E. cbn [bind]. rewrite map_map. rewrite (sequence_map _ (fun k => nth k ps (0, 0))); [reflexivity|]. intros k K. specialize (B k K).
    destruct (nth_error_lt_Some ps k B) as [p PK]. destruct (FP k p PK) as (a & A & CA). rewrite pyget_in by lia. rewrite Nat2Z.id, A. cbn [bind tr sg]. apply nth_pairs in CA as [C1 C2]. pose proof (nth_error_Some_lt _ _ _ C1) as Q. rewrite !pyget_in by lia. replace (Z.to_nat (Z.of_nat a - 0)) with a by lia. rewrite C1, C2. cbn [bind]. rewrite (nth_error_nth _ _ (0, 0) PK). destruct p. reflexivity.
  - unfold segment_sizes. rewrite E. cbn [bind]. f_equal. f_equal. rewrite (sizes_spec u first last 0%Z 0 TO') by (first [exact I0|intros; lia]).
    apply nth_error_ext. intros k. rewrite !nth_error_map, nth_error_seq. destruct (Nat.ltb_spec k (length first)) as [K|K]; cbn [option_map].
    + destruct (nth_error_lt_Some ps k ltac:(lia)) as [p PK]. rewrite PK. cbn [option_map]. f_equal. f_equal.
      assert (G : forall (l : list nat) (m : list (nat * nat)), length l = length m -> (forall i x q, nth_error l i = Some x -> nth_error m i = Some q -> (x = k <-> q = p)) -> count_occ Nat.eq_dec l k = count_occ pair_dec m p).
      { clear. induction l as [|x l IH]; intros [|q m] LL H; try discriminate LL; [reflexivity|]. cbn [count_occ]. pose proof (H 0 x q eq_refl eq_refl) as H0. rewrite (IH m) by (first [cbn in LL; lia|intros i y r Y R; exact (H (S i) y r Y R)]).
        destruct (Nat.eq_dec x k) as [X|X]; destruct (pair_dec q p) as [Q|Q]; tauto. }
      apply G; [rewrite combine_length; lia|]. intros i x q X Q. rewrite (KU i x X) in Q. split; [intros ->; rewrite PK in Q; apply Some_inj in Q; symmetry; exact Q|intros ->].
      pose proof (proj1 (NoDup_nth_error ps) (before_nodup ps BF)) as ND. apply ND; [apply nth_error_Some_lt in Q; exact Q|]. rewrite Q, PK. reflexivity.
    + replace (nth_error ps k) with (@None (nat * nat)); [reflexivity|]. symmetry. apply nth_error_None. lia.
  - intros ids B. unfold network_segment_size. rewrite E. cbn [bind tr].
    assert (G : gather t first = Some (map fst ps)).
    { destruct (gather_total t first) as [g G]. { intros i I. apply In_nth_error in I as [k K]. pose proof (nth_error_Some_lt _ _ _ K) as KL. destruct (nth_error_lt_Some ps k ltac:(lia)) as [p PK]. destruct (FP k p PK) as (a & A & CA). rewrite K in A. apply Some_inj in A. subst a. apply nth_pairs in CA as [C1 _]. apply nth_error_Some_lt in C1. exact C1. }
      rewrite G. f_equal. apply gather_Some in G as [LG GN]. apply nth_error_ext. intros k. rewrite nth_error_map. destruct (nth_error ps k) as [p|] eqn:PK; cbn [option_map].
      - destruct (FP k p PK) as (a & A & CA). apply nth_pairs in CA as [C1 _]. destruct (GN k a A) as (x & X & Y). rewrite Y, <- X. exact C1.
      - apply nth_error_None. rewrite LG, <- LP. apply nth_error_None. exact PK. }
    rewrite G. cbn [bind]. destruct (tables_spec (map fst ps)) as ([[f2 l2] r2] & E2 & T2).
    { intros Q. apply map_eq_nil in Q. subst ps. cbn in LP. lia. }
    { intros i j a b IJ A B'. rewrite nth_error_map in A, B'. destruct (nth_error ps i) as [p|] eqn:PI; [|discriminate A]. destruct (nth_error ps j) as [q|] eqn:PJ; [|discriminate B']. cbn in A, B'. apply Some_inj in A, B'. subst. destruct (BF i j p q IJ PI PJ); lia. }
    rewrite E2. cbn [bind]. rewrite map_map. rewrite (sequence_map _ (fun i => Z.of_nat (length (filter (fun p => fst p =? i) ps)))); [reflexivity|]. intros i I. destruct (B i I) as (a & b & IA & IB & AB).
    assert (SAME : forall v, In v t <-> In v (map fst ps)).
    { intros v. rewrite in_map_iff. split.
      - intros V. apply In_nth_error in V as [k K]. destruct (nth_error_lt_Some s k) as [w W]; [apply nth_error_Some_lt in K; lia|]. exists (v, w). split; [reflexivity|]. apply INP. apply nth_error_In with k. apply nth_pairs. split; assumption.
      - intros (p & <- & IP). apply INP in IP. destruct p as [x y]. apply in_combine_l in IP. exact IP. }
    destruct T2 as (lo2 & ER2 & LL2 & PO2 & I02 & TOP2 & RA2 & T2'). pose proof (RA2 a (proj1 (SAME a) IA)) as Q1. pose proof (RA2 b (proj1 (SAME b) IB)) as Q2.
    assert (CO : count_occ Nat.eq_dec (map fst ps) i = length (filter (fun p => fst p =? i) ps)).
    { clear. induction ps as [|p ps IH]; [reflexivity|]. cbn [map count_occ filter]. destruct (Nat.eq_dec (fst p) i) as [X|X]; [rewrite (proj2 (Nat.eqb_eq _ _) X); cbn; rewrite IH; reflexivity|rewrite (proj2 (Nat.eqb_neq _ _) X); exact IH]. }
    rewrite <- CO. replace i with (lo2 + (i - lo2)) by lia. refine (proj1 (size_spec (map fst ps) f2 l2 r2 lo2 (i - lo2) _ I02 _ _)).
    + exists lo2. split; [exact ER2|]. split; [exact LL2|]. split; [exact PO2|]. split; [exact I02|]. split; [exact TOP2|]. split; [exact RA2|exact T2'].
    + intros v V. specialize (RA2 v V). lia.
    + lia.
Qed.
Print Assumptions C103_segments.
Example C103_segments_case : option_map fst (nb_segment (fresh [2; 2; 2; 5; 5; 5] [1; 1; 2; 1; 1; 3])) = Some 4 /\
  option_map fst (unique_segment_to_id (fresh [2; 2; 2; 5; 5; 5] [1; 1; 2; 1; 1; 3]) [0; 1; 3]%Z) = Some [(2, 1); (2, 2); (5, 3)] /\
  option_map fst (segment_sizes (fresh [2; 2; 2; 5; 5; 5] [1; 1; 2; 1; 1; 3])) = Some [2; 1; 2; 1]%Z /\
  option_map fst (network_segment_size (fresh [2; 2; 2; 5; 5; 5] [1; 1; 2; 1; 1; 3]) [2; 4; 5]%Z) = Some [2; 0; 2]%Z.
Proof. repeat split. Qed.
