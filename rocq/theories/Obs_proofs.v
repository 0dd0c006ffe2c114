(** Proofs on digitisation and iterations of observations. *)
From Coq Require Import List Arith ZArith Bool QArith Qround Lia Lqa Permutation.
From Verif Require Import Base Qaux Spec Generic_model Generic_proofs Sort Obs_spec Obs_model.
Import ListNotations.
Local Close Scope Q_scope.
Local Open Scope nat_scope.

(** ** Digitisation *)
Lemma count_prefix : forall (f : Q -> bool) l m, m <= length l ->
  (forall k b, nth_error l k = Some b -> (f b = true <-> k < m)) -> length (filter f l) = m.
Proof.
  intros f. induction l as [|b l IH]; intros m L H; simpl in *; [lia|].
  destruct m as [|m].
  - destruct (f b) eqn:E; [apply (H 0 b eq_refl) in E; lia|].
    apply IH; [lia|]. intros k c Hc. rewrite (H (S k) c Hc). lia.
  - rewrite (proj2 (H 0 b eq_refl)) by lia. simpl. f_equal. apply IH; [lia|].
    intros k c Hc. rewrite (H (S k) c Hc). lia.
Qed.

Lemma increasing_tail : forall b l, increasing (b :: l) -> increasing l.
Proof. intros b l H i j a c L Ha Hc. apply (H (S i) (S j)); simpl; auto. lia. Qed.

Lemma edges_below_spec : forall l v, increasing l ->
  edges_below l v <= length l /\
  forall k b, nth_error l k = Some b -> (b <= v)%Q <-> k < edges_below l v.
Proof.
  unfold edges_below. induction l as [|b l IH]; intros v H; simpl.
  - split; [lia|]. intros [|k] b E; discriminate.
  - destruct (IH v (increasing_tail _ _ H)) as [L I]. destruct (Qle_bool b v) eqn:E; simpl.
    + split; [lia|]. intros [|k] c Hc; simpl in Hc.
      * injection Hc as <-. apply Qle_bool_iff in E. split; intros; auto; lia.
      * rewrite (I k c Hc). lia.
    + apply Qle_bool_false in E.
      assert (Z : length (filter (fun b => Qle_bool b v) l) = 0).
      { destruct (filter _ l) as [|c r] eqn:F; auto.
        assert (In c (filter (fun b => Qle_bool b v) l)) by (rewrite F; left; auto).
        apply filter_In in H0 as [Hc Hv]. apply Qle_bool_iff in Hv. apply In_nth_error in Hc as [k Hk].
        assert (b < c)%Q by (apply (H 0 (S k)); simpl; auto; lia). lra. }
      rewrite Z in *. split; [lia|]. intros [|k] c Hc; simpl in Hc.
      * injection Hc as <-. split; [intros; lra|lia].
      * rewrite (I k c Hc). lia.
Qed.

Lemma regular_value : forall step rest prev, regular step prev rest = true ->
  forall k b, nth_error rest k = Some b -> (b == prev + inject_Z (Z.of_nat (S k)) * step)%Q.
Proof.
  induction rest as [|b rest IH]; intros prev H k c Hc; [destruct k; discriminate|].
  simpl in H. destruct (Qeq_bool step (b - prev)) eqn:E; [|discriminate]. apply Qeq_bool_iff in E.
  destruct k as [|k]; simpl in Hc.
  - injection Hc as <-. change (inject_Z (Z.of_nat 1)) with 1%Q. lra.
  - specialize (IH b H k c Hc). rewrite IH. rewrite (Nat2Z.inj_succ (S k)), <- Z.add_1_r, inject_Z_plus.
    change (inject_Z 1) with 1%Q. lra.
Qed.

Lemma last_nth : forall {A} (l : list A) d, l <> [] -> nth_error l (length l - 1) = Some (last l d).
Proof.
  intros A. induction l as [|a l IH]; intros d N; [congruence|]. destruct l as [|b l]; [reflexivity|].
  replace (length (a :: b :: l) - 1) with (S (length (b :: l) - 1)) by (simpl; lia). cbn [nth_error].
  rewrite (IH d) by congruence. reflexivity.
Qed.

Lemma digitize_regular_spec : forall b0 b1 rest v, increasing (b0 :: b1 :: rest) -> regular (b1 - b0)%Q b1 rest = true ->
  digitize_regular b0 (last (b0 :: b1 :: rest) b0) (b1 - b0)%Q (length (b0 :: b1 :: rest)) v
    = Z.of_nat (edges_below (b0 :: b1 :: rest) v).
Proof.
  intros b0 b1 rest v I R. set (bins := b0 :: b1 :: rest) in *.
  set (step := (b1 - b0)%Q) in *.
  assert (SP : (0 < step)%Q). { pose proof (I 0 1 b0 b1 ltac:(lia) eq_refl eq_refl). unfold step. lra. }
  assert (VAL : forall k b, nth_error bins k = Some b -> (b == b0 + inject_Z (Z.of_nat k) * step)%Q).
  { intros [|[|k]] b H; simpl in H.
    - injection H as <-. change (inject_Z (Z.of_nat 0)) with 0%Q. lra.
    - injection H as <-. change (inject_Z (Z.of_nat 1)) with 1%Q. unfold step. lra.
    - rewrite (regular_value _ _ _ R k b H). rewrite (Nat2Z.inj_succ (S k)), <- Z.add_1_r, inject_Z_plus.
      change (inject_Z 1) with 1%Q. unfold step. lra. }
  pose proof (last_nth bins b0 ltac:(discriminate)) as LN.
  destruct (edges_below_spec bins v I) as [EL ES].
  unfold digitize_regular. destruct (Qle_bool (last bins b0) v) eqn:E1.
  - apply Qle_bool_iff in E1. apply (ES _ _ LN) in E1. f_equal. assert (length bins = S (S (length rest))) by reflexivity. lia.
  - apply Qle_bool_false in E1. destruct (Qlt_bool v b0) eqn:E2.
    + apply Qlt_bool_iff in E2. destruct (Nat.eq_dec (edges_below bins v) 0) as [->|N]; auto.
      exfalso. assert (X : (b0 <= v)%Q) by (apply (ES 0 b0 eq_refl); lia). lra.
    + apply Qlt_bool_false in E2.
      set (q := ((v - b0) / step)%Q).
      assert (Q0 : (0 <= q)%Q). { unfold q. apply Qle_shift_div_l; lra. }
      assert (QV : (v == b0 + q * step)%Q). { unfold q. field. lra. }
      unfold Qtrunc. rewrite (proj2 (Qle_bool_iff 0 (q + 1))) by lra.
      assert (F : Qfloor (q + 1) = (Qfloor q + 1)%Z).
      { pose proof (Qfloor_bounds q) as [A1 A2]. pose proof (Qfloor_bounds (q + 1)) as [B1 B2].
        assert (C1 : (inject_Z (Qfloor (q + 1)) < inject_Z (Qfloor q + 1 + 1))%Q).
        { rewrite !inject_Z_plus. change (inject_Z 1) with 1%Q. lra. }
        assert (C2 : (inject_Z (Qfloor q + 1) < inject_Z (Qfloor (q + 1) + 1))%Q).
        { rewrite !inject_Z_plus. change (inject_Z 1) with 1%Q. lra. }
        rewrite <- Zlt_Qlt in C1, C2. lia. }
      rewrite F. pose proof (Qfloor_bounds q) as [FB1 FB2].
      assert (F0 : (0 <= Qfloor q)%Z).
      { assert (C : (inject_Z (-1) < inject_Z (Qfloor q))%Q) by (change (inject_Z (-1)) with (-1)%Q; lra).
        rewrite <- Zlt_Qlt in C. lia. }
      unfold edges_below.
      assert (FL : (Z.to_nat (Qfloor q) + 1 <= length bins)%nat).
      { apply VAL in LN. rewrite LN in E1. rewrite QV in E1.
        assert (C : (q < inject_Z (Z.of_nat (length bins - 1)))%Q) by nra.
        assert (C2 : (inject_Z (Qfloor q) < inject_Z (Z.of_nat (length bins - 1)))%Q) by lra.
        rewrite <- Zlt_Qlt in C2. lia. }
      rewrite (count_prefix _ bins (Z.to_nat (Qfloor q) + 1) FL); [lia|].
      intros k b Hb. rewrite Qle_bool_iff. rewrite (VAL k b Hb), QV. split.
      * intros C. assert (C1 : (inject_Z (Z.of_nat k) <= q)%Q) by nra.
        assert (C2 : (inject_Z (Z.of_nat k) < inject_Z (Qfloor q + 1))%Q).
        { rewrite inject_Z_plus. change (inject_Z 1) with 1%Q. lra. }
        rewrite <- Zlt_Qlt in C2. lia.
      * intros C. assert (C1 : (Z.of_nat k <= Qfloor q)%Z) by lia. rewrite Zle_Qle in C1.
        assert (C2 : (inject_Z (Z.of_nat k) <= q)%Q) by lra. nra.
Qed.

Lemma digitize_spec : forall values bins, increasing bins -> 2 <= length bins ->
  numba_digitize values bins = Some (map (fun v => Z.of_nat (edges_below bins v)) values).
Proof.
  intros values [|b0 [|b1 rest]] I L; simpl in L; try lia. unfold numba_digitize.
  destruct (regular (b1 - b0) b1 rest) eqn:R.
  - f_equal. apply map_ext. intros v. apply digitize_regular_spec; auto.
  - reflexivity.
Qed.

(** ** Tiling of sorted values by build_index *)
Fixpoint tiles (p n : nat) (bounds : list (nat * nat)) : Prop :=
  match bounds with
  | [] => p = n
  | (a, b) :: rest => a = p /\ a < b /\ tiles b n rest
  end.

Lemma not_empty_tiles : forall first last p n,
  length last = length first -> first <> [] ->
  nth_error first 0 = Some p ->
  (forall k, S k < length first -> nth_error first (S k) = nth_error last k) ->
  nth_error last (length first - 1) = Some n ->
  (forall k a b, nth_error first k = Some a -> nth_error last k = Some b -> a <= b) ->
  tiles p n (not_empty first last).
Proof.
  unfold not_empty. induction first as [|a first IH]; intros [|b last] p n L N F C E O; simpl in L; try lia; try congruence.
  simpl in F. injection F as ->. cbn [combine filter].
  assert (PB : p <= b) by (apply (O 0 p b); auto).
  destruct first as [|a2 first].
  - simpl in L. assert (last = []) by (destruct last; simpl in L; [auto|lia]). subst. simpl in E. injection E as ->.
    cbn [combine filter fst snd]. destruct (Nat.eqb_spec p n); simpl; [auto|]. split; [auto|]. split; [lia|auto].
  - assert (T : tiles b n (filter (fun q => negb (fst q =? snd q)) (combine (a2 :: first) last))).
    { apply IH.
      - simpl in *. lia.
      - congruence.
      - specialize (C 0 ltac:(simpl; lia)). simpl in C. simpl. auto.
      - intros k Hk. specialize (C (S k) ltac:(simpl in *; lia)). exact C.
      - simpl in E |- *. rewrite Nat.sub_0_r. auto.
      - intros k x y Hx Hy. apply (O (S k) x y); auto. }
    simpl fst. simpl snd. destruct (Nat.eqb_spec p b) as [->|NB]; simpl negb; cbn iota; [exact T|].
    split; [auto|]. split; [lia|exact T].
Qed.

Lemma build_index_tiles : forall si, si <> [] -> zsorted si ->
  exists first last i0, build_index si = Some (first, last, i0) /\
    tiles 0 (length si) (not_empty first last) /\
    (forall a b, In (a, b) (not_empty first last) -> exists v, forall j, a <= j < b <-> nth_error si j = Some v).
Proof.
  intros si N S. destruct (build_index_tile si N S) as (first & last & i0 & E & L & _ & _ & T & F0 & C & LL).
  exists first, last, i0. split; [exact E|].
  assert (NF : first <> []) by (intros ->; discriminate).
  split.
  - apply not_empty_tiles; auto. intros k a b Ha Hb. exact (proj1 (T k a b Ha Hb)).
  - intros a b H. unfold not_empty in H. apply filter_In in H as [H _].
    apply In_nth_error in H as [k Hk].
    assert (K : nth_error first k = Some a /\ nth_error last k = Some b).
    { clear -Hk. revert last k Hk. induction first as [|x first IH]; intros [|y last] [|k] H; simpl in *; try discriminate.
      - injection H as <- <-. auto.
      - apply IH; auto. }
    destruct K as [Ka Kb]. exists (i0 + Z.of_nat k)%Z. apply (T k a b Ka Kb).
Qed.

(** ** The groups given by the two loops *)
Definition bin_ok (bins : list Q) (z : Z) : bool := (0 <=? z)%Z && (z <? Z.of_nat (length bins - 1))%Z.

Lemma pyget_in : forall {A} (l : list A) z, (0 <= z < Z.of_nat (length l))%Z -> pyget l z = nth_error l (Z.to_nat z).
Proof.
  intros A l z H. unfold pyget, pyidx.
  destruct (Z.leb_spec 0 z); [|lia]. destruct (Z.ltb_spec z (Z.of_nat (length l))); [|lia]. reflexivity.
Qed.

Definition group_ok (bins : list Q) (si : list Z) (itrans : list nat) (g : group) : Prop :=
  let '(r, lo, hi) := g in
  rows_list r <> [] /\
  exists ib, bin_ok bins ib = true /\ nth_error bins (Z.to_nat ib) = Some lo /\ nth_error bins (S (Z.to_nat ib)) = Some hi /\
    forall k, In k (rows_list r) <-> exists j, nth_error si j = Some ib /\ nth_error itrans j = Some k.

(** Order of the groups: by position of the bin. *)
Definition lows (gs : list group) : list Q := map (fun g => snd (fst g)) gs.

Lemma filter_const : forall {A} (f : A -> bool) l c, (forall x, In x l -> f x = c) -> filter f l = if c then l else [].
Proof.
  intros A f. induction l as [|a l IH]; intros c H; simpl; [destruct c; auto|].
  rewrite (H a (or_introl eq_refl)). rewrite (IH c) by (intros; apply H; right; auto). destruct c; auto.
Qed.

Lemma nth_skipn : forall {A} (l : list A) k m, nth_error (skipn k l) m = nth_error l (k + m).
Proof. induction l as [|a l IH]; intros [|k] m; simpl; auto. destruct m; auto. Qed.
Lemma nth_firstn : forall {A} (l : list A) k m, m < k -> nth_error (firstn k l) m = nth_error l m.
Proof. induction l as [|a l IH]; intros [|k] [|m] H; simpl; auto; try lia. apply IH. lia. Qed.
Lemma skipn_split : forall {A} (l : list A) a b, a <= b -> skipn a l = firstn (b - a) (skipn a l) ++ skipn b l.
Proof.
  intros A l a b H. rewrite <- (firstn_skipn (b - a) (skipn a l)) at 1. f_equal.
  clear -H. revert a b H. induction l as [|x l IH]; intros [|a] [|b] H; simpl; auto; try lia.
  - apply skipn_nil.
  - apply IH. lia.
Qed.
Lemma In_slice : forall {A} (l : list A) a b x, In x (slice l a b) <-> exists j, a <= j < b /\ nth_error l j = Some x.
Proof.
  intros A l a b x. unfold slice. split.
  - intros H. apply In_nth_error in H as [m Hm].
    assert (M : m < b - a). { apply nth_error_Some_lt in Hm. rewrite firstn_length in Hm. lia. }
    rewrite nth_firstn in Hm by auto. rewrite nth_skipn in Hm. exists (a + m). split; [lia|auto].
  - intros (j & J & E). apply nth_error_In with (n := j - a). rewrite nth_firstn by lia. rewrite nth_skipn.
    replace (a + (j - a)) with j by lia. auto.
Qed.

Lemma combine_skipn : forall {A B} (l : list A) (m : list B) k, combine (skipn k l) (skipn k m) = skipn k (combine l m).
Proof.
  intros A B. induction l as [|a l IH]; intros [|b m] [|k]; simpl; auto.
  destruct (skipn k l); auto.
Qed.
Lemma combine_firstn : forall {A B} (l : list A) (m : list B) k, combine (firstn k l) (firstn k m) = firstn k (combine l m).
Proof. intros A B. induction l as [|a l IH]; intros [|b m] [|k]; simpl; auto. f_equal. auto. Qed.
Lemma map_snd_comb : forall {A B} (l : list A) (m : list B), length l = length m -> map snd (combine l m) = m.
Proof. intros A B. induction l as [|a l IH]; intros [|x m] H; simpl in *; try lia; auto. f_equal. auto. Qed.

Lemma emit_index_spec : forall bins si itrans, increasing bins -> 2 <= length bins ->
  zsorted si -> length itrans = length si ->
  (forall z, In z si -> (-1 <= z <= Z.of_nat (length bins - 1))%Z) ->
  forall bounds p, tiles p (length si) bounds ->
  (forall a b, In (a, b) bounds -> exists v, forall j, a <= j < b <-> nth_error si j = Some v) ->
  exists gs, emit_index bins si itrans bounds = (gs, true) /\
    concat (map (fun g => rows_list (fst (fst g))) gs) = map snd (filter (fun q => bin_ok bins (fst q)) (skipn p (combine si itrans))) /\
    (forall g, In g gs -> group_ok bins si itrans g) /\ increasing (lows gs) /\
    (forall lo, In lo (lows gs) -> exists j z, p <= j /\ nth_error si j = Some z /\ bin_ok bins z = true /\ nth_error bins (Z.to_nat z) = Some lo).
Proof.
  intros bins si itrans I LB SI LI RG. induction bounds as [|[a b] rest IH]; intros p T V.
  - exists []. simpl in T. subst p. split; [reflexivity|]. split.
    { rewrite skipn_all2; auto. rewrite combine_length. lia. }
    split; [intros g []|]. split; [intros i j x y L H; destruct i; discriminate|intros lo []].
  - destruct T as (-> & AB & T). destruct (IH b T) as (gs & E & CC & G & INC & LO).
    { intros x y H. apply V. right. auto. }
    destruct (V p b (or_introl eq_refl)) as [v Hv].
    cbn [emit_index]. rewrite (proj1 (Hv p)) by lia.
    assert (BL : b <= length si). { assert (X : nth_error si (b - 1) = Some v) by (apply Hv; lia). apply nth_error_Some_lt in X. lia. }
    assert (VR : (-1 <= v <= Z.of_nat (length bins - 1))%Z). { apply RG. eapply nth_error_In. apply (Hv p). lia. }
    rewrite (skipn_split (combine si itrans) p b) by lia. rewrite filter_app, map_app, <- CC.
    rewrite (filter_const (fun q => bin_ok bins (fst q)) (firstn (b - p) (skipn p (combine si itrans))) (bin_ok bins v)).
    2:{ intros [z k] H. apply (In_slice (combine si itrans) p b (z, k)) in H as (j & J & H).
        assert (Z : nth_error si j = Some z).
        { clear -H. revert itrans j H. induction si as [|x si IH]; intros [|y it] [|j] H; simpl in *; try discriminate; [injection H as -> ->; auto|eauto]. }
        apply Hv in J. rewrite J in Z. injection Z as <-. reflexivity. }
    assert (BK : bin_ok bins v = negb ((v =? -1)%Z || (v =? Z.of_nat (length bins - 1))%Z)).
    { unfold bin_ok. destruct (Z.leb_spec 0 v), (Z.ltb_spec v (Z.of_nat (length bins - 1))), (Z.eqb_spec v (-1)), (Z.eqb_spec v (Z.of_nat (length bins - 1))); simpl; auto; lia. }
    destruct ((v =? -1)%Z || (v =? Z.of_nat (length bins - 1))%Z) eqn:OUT; rewrite BK; cbn [negb].
    + exists gs. split; [exact E|]. split; [reflexivity|]. split; [exact G|]. split; [exact INC|].
      intros lo Hlo. destruct (LO lo Hlo) as (j & z & J & R). exists j, z. split; [lia|exact R].
    + cbn [negb] in BK. unfold bin_ok in BK. apply andb_true_iff in BK as [B1 B2]. apply Z.leb_le in B1. apply Z.ltb_lt in B2.
      rewrite !pyget_in by lia. replace (Z.to_nat (v + 1)) with (S (Z.to_nat v)) by lia.
      destruct (nth_error_lt_Some bins (Z.to_nat v)) as [lo Hlo]; [lia|].
      destruct (nth_error_lt_Some bins (S (Z.to_nat v))) as [hi Hhi]; [lia|].
      rewrite Hlo, Hhi, E. eexists. split; [reflexivity|].
      assert (BV : bin_ok bins v = true).
      { unfold bin_ok. apply andb_true_iff. split; [apply Z.leb_le|apply Z.ltb_lt]; lia. }
      split.
      { cbn [map concat fst rows_list]. f_equal. unfold slice. rewrite <- combine_skipn, <- combine_firstn.
        rewrite map_snd_comb; auto. rewrite !firstn_length, !skipn_length. lia. }
      split.
      { intros g [<-|Hg]; [|auto]. unfold group_ok. split.
        - intros Z. cbn [rows_list] in Z. destruct (nth_error_lt_Some itrans p) as [k Hk]; [lia|].
          assert (X : In k (slice itrans p b)) by (apply In_slice; exists p; split; [lia|auto]). rewrite Z in X. destruct X.
        - exists v. split; [auto|]. split; [auto|]. split; [auto|]. intros k. cbn [rows_list]. rewrite In_slice.
          split; intros (j & J & K); exists j; split; auto; apply Hv; auto. }
      split.
      { intros i j x y L Hx Hy. destruct i as [|i], j as [|j]; try lia; cbn [lows map nth_error fst snd] in Hx, Hy.
        - injection Hx as <-. apply nth_error_In in Hy. destruct (LO y Hy) as (j' & z & J & Z & Zok & Zb).
          assert (v <= z)%Z by (apply (SI p j'); auto; [lia|apply Hv; lia]).
          assert (v <> z). { intros <-. apply Hv in Z. lia. }
          unfold bin_ok in Zok. apply andb_true_iff in Zok as [Z1 Z2]. apply Z.leb_le in Z1.
          apply (I (Z.to_nat v) (Z.to_nat z)); auto. lia.
        - apply (INC i j); auto. lia. }
      { intros x [<-|Hx].
        - exists p, v. split; [lia|]. split; [apply Hv; lia|]. split; auto.
        - destruct (LO x Hx) as (j & z & J & R). exists j, z. split; [lia|exact R]. }
Qed.

(** In the sorted case with all the values inside the bins the slices are the
    same groups. *)
Lemma emit_slices_index : forall bins i bounds, tiles 0 (length i) bounds \/ (exists p, tiles p (length i) bounds) ->
  (forall z, In z i -> bin_ok bins z = true) ->
  forall gs, emit_index bins i (seq 0 (length i)) bounds = (gs, true) ->
  exists gs', emit_slices bins i bounds = (gs', true) /\
    map (fun g => (rows_list (fst (fst g)), snd (fst g), snd g)) gs' = map (fun g => (rows_list (fst (fst g)), snd (fst g), snd g)) gs.
Proof.
  intros bins i bounds T B. assert (T' : exists p, tiles p (length i) bounds) by (destruct T; eauto). clear T.
  destruct T' as [p T]. revert p T. induction bounds as [|[a b] rest IH]; intros p T gs E; cbn [emit_index emit_slices] in *.
  - exists []. injection E as <-. auto.
  - destruct T as (-> & AB & T). destruct (nth_error i p) as [v|] eqn:Hv; [|discriminate].
    assert (BV := B v (nth_error_In _ _ Hv)). unfold bin_ok in BV. apply andb_true_iff in BV as [B1 B2].
    apply Z.leb_le in B1. apply Z.ltb_lt in B2.
    destruct (Z.eqb_spec v (-1)); [lia|]. destruct (Z.eqb_spec v (Z.of_nat (length bins - 1))); [lia|]. cbn [orb] in E.
    destruct (pyget bins v) as [lo|] eqn:Hlo; [|discriminate]. destruct (pyget bins (v + 1)) as [hi|] eqn:Hhi; [|discriminate].
    destruct (emit_index bins i (seq 0 (length i)) rest) as [gs0 ok] eqn:E0.
    injection E as <- ->. destruct (IH b T gs0 eq_refl) as (gs' & E' & M). rewrite E'.
    eexists. split; [reflexivity|]. cbn [map fst snd]. f_equal; [|exact M]. f_equal. f_equal.
    cbn [rows_list]. unfold slice.
    assert (BL : b <= length i).
    { clear -T. revert b T. induction rest as [|[x y] rest IH]; intros b T; simpl in T; [lia|].
      destruct T as (-> & L & T). apply IH in T. lia. }
    clear -BL AB. apply nth_error_ext. intros m. rewrite nth_error_seq.
    destruct (Nat.ltb_spec m (b - p)) as [L|L].
    + rewrite nth_firstn by auto. rewrite nth_skipn, nth_error_seq. destruct (Nat.ltb_spec (p + m) (length i)); [reflexivity|lia].
    + symmetry. apply nth_error_None. rewrite firstn_length. lia.
Qed.

(** ** iter_on *)
Definition bin_of (bins : list Q) (v : Q) : Z := (Z.of_nat (edges_below bins v) - 1)%Z.
Definition view (g : group) : list nat * Q * Q := (rows_list (fst (fst g)), snd (fst g), snd g).

Lemma bin_of_range : forall bins v, increasing bins -> 2 <= length bins -> (-1 <= bin_of bins v <= Z.of_nat (length bins - 1))%Z.
Proof. intros bins v I L. unfold bin_of. destruct (edges_below_spec bins v I) as [E _]. lia. Qed.

Lemma bin_of_bounds : forall bins v j lo hi, increasing bins ->
  nth_error bins j = Some lo -> nth_error bins (S j) = Some hi ->
  (bin_of bins v = Z.of_nat j <-> (lo <= v /\ v < hi)%Q).
Proof.
  intros bins v j lo hi I Hl Hh. destruct (edges_below_spec bins v I) as [E S]. unfold bin_of.
  pose proof (S _ _ Hl) as A. pose proof (S _ _ Hh) as B. split.
  - intros H. split; [apply A; lia|]. apply Qnot_le_lt. rewrite B. lia.
  - intros [H1 H2]. apply A in H1. assert (~ (Datatypes.S j < edges_below bins v)) by (rewrite <- B; lra). lia.
Qed.

Lemma bin_ok_inside : forall bins v, increasing bins -> 2 <= length bins -> (bin_ok bins (bin_of bins v) = true <-> inside bins v).
Proof.
  intros bins v I L. destruct (edges_below_spec bins v I) as [E S].
  destruct (nth_error_lt_Some bins 0) as [b0 H0]; [lia|]. destruct (nth_error_lt_Some bins (length bins - 1)) as [bl Hl]; [lia|].
  pose proof (S _ _ H0) as A. pose proof (S _ _ Hl) as B.
  unfold bin_ok, bin_of. rewrite andb_true_iff, Z.leb_le, Z.ltb_lt. split.
  - intros [H1 H2]. exists b0, bl. split; [auto|]. split; [auto|]. split; [apply A; lia|]. apply Qnot_le_lt. rewrite B. lia.
  - intros (b0' & bl' & E0 & El & H1 & H2). rewrite H0 in E0. rewrite Hl in El. injection E0 as <-. injection El as <-.
    apply A in H1. assert (~ (length bins - 1 < edges_below bins v)) by (rewrite <- B; lra). lia.
Qed.

Lemma nth_combine_iff : forall {A B} (l : list A) (m : list B) j a b,
  nth_error (combine l m) j = Some (a, b) <-> nth_error l j = Some a /\ nth_error m j = Some b.
Proof.
  intros A B. induction l as [|x l IH]; intros [|y m] [|j] a b; simpl; try (split; [discriminate|intros [? ?]; discriminate]).
  - split; [intros H; injection H as -> ->; auto|intros [H1 H2]; congruence].
  - apply IH.
Qed.

Lemma NoDup_snd_filter : forall {A B} (f : A * B -> bool) (l : list A) (m : list B), NoDup m -> NoDup (map snd (filter f (combine l m))).
Proof.
  intros A B f. induction l as [|a l IH]; intros [|b m] N; simpl; try constructor.
  inversion N; subst. destruct (f (a, b)); simpl; [constructor|]; auto.
  intros H. apply in_map_iff in H as ([x y] & E & H). simpl in E. subst. apply filter_In in H as [H _]. apply in_combine_r in H. auto.
Qed.

Lemma visit_groups : forall bins x si itrans gs, increasing bins -> 2 <= length bins ->
  length itrans = length si ->
  (forall j k, nth_error itrans j = Some k -> exists v, nth_error x k = Some v /\ nth_error si j = Some (bin_of bins v)) ->
  NoDup itrans ->
  (forall k v, nth_error x k = Some v -> inside bins v -> In k itrans) ->
  concat (map (fun g => rows_list (fst (fst g))) gs) = map snd (filter (fun q => bin_ok bins (fst q)) (combine si itrans)) ->
  (forall g, In g gs -> group_ok bins si itrans g) -> increasing (lows gs) ->
  visits_bins bins x (map view gs).
Proof.
  intros bins x si itrans gs I L LI V N C CC G INC.
  assert (CE : concat (map (fun g => fst (fst g)) (map view gs)) = map snd (filter (fun q => bin_ok bins (fst q)) (combine si itrans))).
  { rewrite <- CC, map_map. reflexivity. }
  unfold visits_bins. rewrite CE. split; [apply NoDup_snd_filter; auto|]. split; [|split].
  - intros k. rewrite in_map_iff. split.
    + intros ([z k'] & E & H). simpl in E. subst k'. apply filter_In in H as [H B]. simpl in B.
      apply In_nth_error in H as [j Hj]. apply nth_combine_iff in Hj as [H1 H2].
      destruct (V j k H2) as (v & Hx & Hs). exists v. split; [auto|]. rewrite H1 in Hs. injection Hs as ->.
      apply bin_ok_inside; auto.
    + intros (v & Hx & Hi). pose proof (C k v Hx Hi) as K. apply In_nth_error in K as [j Hj].
      destruct (V j k Hj) as (v' & Hx' & Hs). rewrite Hx in Hx'. injection Hx' as <-.
      exists (bin_of bins v, k). split; [auto|]. apply filter_In. split; [|apply bin_ok_inside; auto].
      eapply nth_error_In. apply nth_combine_iff. eauto.
  - intros rows lo hi H. apply in_map_iff in H as ([[r lo'] hi'] & E & H). unfold view in E. simpl in E. injection E as <- <- <-.
    destruct (G _ H) as (NE & ib & B & Hlo & Hhi & K). split; [exact NE|]. split; [exists (Z.to_nat ib); auto|].
    assert (IB : ib = Z.of_nat (Z.to_nat ib)).
    { unfold bin_ok in B. apply andb_true_iff in B as [B _]. apply Z.leb_le in B. lia. }
    intros k. rewrite K. split.
    + intros (j & Hs & Hk). destruct (V j k Hk) as (v & Hx & Hs'). exists v. split; [auto|].
      rewrite Hs in Hs'. injection Hs' as Hs'. rewrite IB in Hs'.
      apply (bin_of_bounds bins v (Z.to_nat ib) lo' hi'); auto.
    + intros (v & Hx & Hb). pose proof (proj2 (bin_of_bounds bins v (Z.to_nat ib) lo' hi' I Hlo Hhi) Hb) as BV.
      assert (BI : inside bins v). { apply bin_ok_inside; auto. rewrite BV, <- IB. auto. }
      pose proof (C k v Hx BI) as Hin. apply In_nth_error in Hin as [j Hj].
      destruct (V j k Hj) as (v' & Hx' & Hs). rewrite Hx in Hx'. injection Hx' as <-.
      exists j. split; [|auto]. rewrite Hs, BV, <- IB. auto.
  - rewrite map_map. exact INC.
Qed.

Lemma edges_below_mono : forall bins u v, (u <= v)%Q -> edges_below bins u <= edges_below bins v.
Proof.
  intros bins u v H. unfold edges_below. induction bins as [|b bins IH]; simpl; auto.
  destruct (Qle_bool b u) eqn:A, (Qle_bool b v) eqn:B; simpl; try lia.
  apply Qle_bool_iff in A. apply Qle_bool_false in B. lra.
Qed.

Lemma any_decrease_false : forall x, any_decrease x = false <-> qsorted x.
Proof.
  induction x as [|a x IH].
  - split; auto. intros _ i j p q L H. destruct i; discriminate.
  - destruct x as [|b x].
    + split; auto. intros _ i j p q L H1 H2. destruct j as [|[|j]]; [lia|discriminate|discriminate].
    + change (any_decrease (a :: b :: x)) with (Qlt_bool (b - a) 0 || any_decrease (b :: x)).
      rewrite orb_false_iff, IH, Qlt_bool_false. split.
      * intros [H1 H2] i j p q L Hp Hq. destruct i as [|i], j as [|j]; try lia.
        -- simpl in Hp. injection Hp as <-. destruct j as [|j].
           ++ simpl in Hq. injection Hq as <-. lra.
           ++ assert (b <= q)%Q by (apply (H2 0 (S j)); auto; lia). lra.
        -- apply (H2 i j); auto. lia.
      * intros H. split.
        -- assert (a <= b)%Q by (apply (H 0 1); auto). lra.
        -- intros i j p q L Hp Hq. apply (H (S i) (S j)); auto. lia.
Qed.

Theorem iter_on_sorted : forall argsort unsigned x bins, x <> [] -> qsorted x -> increasing bins -> 2 <= length bins ->
  (forall v, In v x -> inside bins v) ->
  exists gs, iter_on argsort unsigned x (Some bins) = (gs, true) /\ visits_bins bins x (map view gs) /\
    forall g, In g gs -> exists a b, fst (fst g) = Slice a b.
Proof.
  intros argsort unsigned x bins NE S I L IN.
  unfold iter_on. assert (NM : not_monotonous unsigned x = false).
  { unfold not_monotonous. destruct unsigned; auto. apply any_decrease_false; auto. }
  rewrite NM, digitize_spec by auto. rewrite map_map.
  set (i := map _ x). assert (IB : i = map (bin_of bins) x) by reflexivity.
  assert (NI : i <> []) by (destruct x; [congruence|discriminate]).
  assert (SI : zsorted i).
  { rewrite IB. intros p q a b PQ Ha Hb. rewrite nth_error_map in Ha, Hb.
    destruct (nth_error x p) as [u|] eqn:U; [|discriminate]. destruct (nth_error x q) as [v|] eqn:W; [|discriminate].
    simpl in Ha, Hb. injection Ha as <-. injection Hb as <-. unfold bin_of.
    pose proof (edges_below_mono bins u v (S p q u v PQ U W)). lia. }
  destruct (build_index_tiles i NI SI) as (first & last & i0 & E & T & V). rewrite E.
  assert (OK : forall z, In z i -> bin_ok bins z = true).
  { rewrite IB. intros z H. apply in_map_iff in H as (v & <- & H). apply bin_ok_inside; auto. }
  destruct (emit_index_spec bins i (seq 0 (length i)) I L SI (seq_length _ _)) with (bounds := not_empty first last) (p := 0)
    as (gs & EG & CC & G & INC & _); auto.
  { rewrite IB. intros z H. apply in_map_iff in H as (v & <- & H). apply bin_of_range; auto. }
  destruct (emit_slices_index bins i (not_empty first last) (or_introl T) OK gs EG) as (gs' & E' & M).
  rewrite E'. exists gs'. split; [reflexivity|]. split.
  - assert (M' : map view gs' = map view gs) by exact M. rewrite M'.
    apply visit_groups with (si := i) (itrans := seq 0 (length i)); auto.
    + apply seq_length.
    + intros j k Hk. rewrite nth_error_seq in Hk. destruct (Nat.ltb_spec j (length i)); [|discriminate].
      injection Hk as <-. rewrite IB, map_length in H. destruct (nth_error_lt_Some x j H) as [v Hv].
      exists v. split; [simpl; auto|]. rewrite IB. apply map_nth_error. auto.
    + apply seq_NoDup.
    + intros k v Hv _. apply in_seq. rewrite IB, map_length. apply nth_error_Some_lt in Hv. lia.
  - clear -E'. intros g H. revert gs' E' g H. induction (not_empty first last) as [|[a b] r IH]; intros gs' E g H; simpl in E.
    + injection E as <-. destruct H.
    + destruct (nth_error i a); [|discriminate]. destruct (pyget bins z); [|discriminate]. destruct (pyget bins (z + 1)); [|discriminate].
      destruct (emit_slices bins i r) as [ys ok]. injection E as <- ->. destruct H as [<-|H]; [simpl; eauto|]. eapply IH; eauto.
Qed.

Lemma gather_some : forall {A} (l : list A) ix, (forall i, In i ix -> i < length l) ->
  exists v, gather l ix = Some v /\ length v = length ix /\
    forall k i, nth_error ix k = Some i -> nth_error v k = nth_error l i.
Proof.
  intros A l. induction ix as [|i ix IH]; intros B.
  - exists []. split; [reflexivity|]. split; [reflexivity|]. intros [|k] i H; discriminate.
  - destruct IH as (v & E & L & S); [intros; apply B; right; auto|].
    destruct (nth_error_lt_Some l i) as [a Ha]; [apply B; left; auto|].
    cbn [gather]. rewrite Ha. cbn [bind]. rewrite E. cbn [bind]. exists (a :: v). split; [auto|]. split; [simpl; auto|].
    intros [|k] j Hj; simpl in *; [injection Hj as <-; auto|auto].
Qed.

Lemma perm_seq : forall l n, Permutation l (seq 0 n) -> length l = n /\ NoDup l /\ (forall k, In k l <-> k < n).
Proof.
  intros l n P. split; [rewrite (Permutation_length P), seq_length; auto|]. split.
  - apply (Permutation_NoDup (Permutation_sym P)), seq_NoDup.
  - intros k. split; intros H.
    + apply (Permutation_in k P) in H. apply in_seq in H. lia.
    + apply (Permutation_in k (Permutation_sym P)). apply in_seq. lia.
Qed.

Lemma covered_iff : forall bins v b0 bl, nth_error bins 0 = Some b0 -> nth_error bins (length bins - 1) = Some bl ->
  (covered bins v = true <-> (b0 <= v /\ v <= bl)%Q).
Proof.
  intros [|b bins] v b0 bl H0 Hl; [discriminate|]. simpl in H0. injection H0 as ->.
  rewrite (last_nth (b0 :: bins) b0) in Hl by discriminate. apply Some_inj in Hl.
  unfold covered. rewrite Hl, andb_true_iff, !Qle_bool_iff. tauto.
Qed.

Lemma count_where : forall m k, count_true m = length (where_from k m).
Proof. induction m as [|b m IH]; intros k; simpl; auto. destruct b; simpl; rewrite (IH (S k)); auto. Qed.

Theorem iter_on_unsorted : forall argsort x bins, sorts argsort -> ~ qsorted x -> increasing bins -> 2 <= length bins ->
  forall b0 bl, nth_error bins 0 = Some b0 -> nth_error bins (length bins - 1) = Some bl ->
  ((exists v, In v x /\ b0 <= v /\ v <= bl)%Q ->
     exists gs, iter_on argsort false x (Some bins) = (gs, true) /\ visits_bins bins x (map view gs) /\
       forall g, In g gs -> exists l, fst (fst g) = Index l) /\
  ((forall v, In v x -> v < b0 \/ bl < v)%Q -> iter_on argsort false x (Some bins) = ([], false)).
Proof.
  intros argsort x bins AS NS I L b0 bl H0 Hl. unfold iter_on.
  assert (NM : not_monotonous false x = true).
  { unfold not_monotonous. destruct (any_decrease x) eqn:E; auto. apply any_decrease_false in E. contradiction. }
  rewrite NM. unfold iter_mode_reduce.
  set (m := map (covered bins) x).
  assert (LM : length m = length x) by (unfold m; apply map_length).
  assert (WM : forall k, In k (where_ m) <-> exists v, nth_error x k = Some v /\ covered bins v = true).
  { intros k. rewrite In_where. unfold m. rewrite nth_error_map. split.
    - destruct (nth_error x k) as [v|] eqn:E; simpl; [|discriminate]. intros H. injection H as H. eauto.
    - intros (v & -> & E). simpl. rewrite E. auto. }
  (* the index array itx : positions of x used, x' their values *)
  assert (GEN : forall itx xs, NoDup itx -> itx <> [] -> length xs = length itx ->
     (forall j k, nth_error itx j = Some k -> exists v, nth_error x k = Some v /\ nth_error xs j = Some v) ->
     (forall k v, nth_error x k = Some v -> inside bins v -> In k itx) ->
     exists gs, 
       match numba_digitize xs bins with
       | None => ([], false)
       | Some dg =>
           let i := map (fun k => (k - 1)%Z) dg in
           let i_sort := argsort i in
           match gather i i_sort, gather itx i_sort with
           | Some si, Some itrans =>
               match build_index si with
               | None => ([], false)
               | Some (first, last, _) => emit_index bins si itrans (not_empty first last)
               end
           | _, _ => ([], false)
           end
       end = (gs, true) /\ visits_bins bins x (map view gs) /\
       forall g, In g gs -> exists l, fst (fst g) = Index l).
  { intros itx xs ND NI LX V C. rewrite digitize_spec by auto. cbv zeta. rewrite map_map.
    set (i := map _ xs). assert (IB : i = map (bin_of bins) xs) by reflexivity.
    assert (LI : length i = length itx) by (rewrite IB, map_length; auto).
    destruct (AS i) as [P O]. destruct (perm_seq _ _ P) as (PL & PN & PI).
    destruct (gather_some i (argsort i)) as (si & ES & LS & SS). { intros k Hk. apply PI. auto. }
    destruct (gather_some itx (argsort i)) as (it & ET & LT & ST). { intros k Hk. rewrite <- LI. apply PI. auto. }
    rewrite ES, ET.
    assert (NSI : si <> []).
    { intros ->. destruct itx; [congruence|]. simpl in LI, LS. lia. }
    assert (SI : zsorted si).
    { intros p q a b PQ Ha Hb.
      destruct (nth_error_lt_Some (argsort i) p) as [ip Ip]; [apply nth_error_Some_lt in Ha; lia|].
      destruct (nth_error_lt_Some (argsort i) q) as [iq Iq]; [apply nth_error_Some_lt in Hb; lia|].
      rewrite (SS _ _ Ip) in Ha. rewrite (SS _ _ Iq) in Hb. eapply O; [exact PQ|eauto..]. }
    destruct (build_index_tiles si NSI SI) as (first & last & i0 & E & T & VV). rewrite E.
    assert (BR : forall z, In z si -> (-1 <= z <= Z.of_nat (length bins - 1))%Z).
    { intros z H. apply In_nth_error in H as [p Hp].
      destruct (nth_error_lt_Some (argsort i) p) as [ip Ip]; [apply nth_error_Some_lt in Hp; lia|].
      rewrite (SS _ _ Ip), IB, nth_error_map in Hp. destruct (nth_error xs ip); [|discriminate]. simpl in Hp. injection Hp as <-.
      apply bin_of_range; auto. }
    destruct (emit_index_spec bins si it I L SI) with (bounds := not_empty first last) (p := 0)
      as (gs & EG & CC & G & INC & _); auto; [lia|].
    rewrite EG. exists gs. split; [reflexivity|]. split.
    - apply visit_groups with (si := si) (itrans := it); auto.
      + lia.
      + intros j k Hk. destruct (nth_error_lt_Some (argsort i) j) as [p Hp]; [apply nth_error_Some_lt in Hk; lia|].
        rewrite (ST _ _ Hp) in Hk. destruct (V p k Hk) as (v & Hv & Hx). exists v. split; [auto|].
        rewrite (SS _ _ Hp), IB. apply map_nth_error. auto.
      + apply NoDup_nth_error. intros a b La Eab.
        destruct (nth_error_lt_Some it a La) as [k Hk]. assert (Hkb : nth_error it b = Some k) by congruence.
        destruct (nth_error_lt_Some (argsort i) a) as [p Hp]; [lia|].
        destruct (nth_error_lt_Some (argsort i) b) as [q Hq]; [apply nth_error_Some_lt in Hkb; lia|].
        rewrite (ST _ _ Hp) in Hk. rewrite (ST _ _ Hq) in Hkb.
        assert (p = q). { apply (proj1 (NoDup_nth_error itx) ND); [eapply nth_error_Some_lt; eauto|congruence]. }
        subst q. apply (proj1 (NoDup_nth_error _) PN); [lia|congruence].
      + intros k v Hv Hi. pose proof (C k v Hv Hi) as Hk. apply In_nth_error in Hk as [p Hp].
        assert (Hin : In p (argsort i)). { apply PI. rewrite LI. eapply nth_error_Some_lt; eauto. }
        apply In_nth_error in Hin as [j Hj]. apply nth_error_In with (n := j). rewrite (ST _ _ Hj). auto.
    - clear -EG. intros g H. revert gs EG g H. induction (not_empty first last) as [|[a b] r IH]; intros gs E g H; simpl in E.
      + injection E as <-. destruct H.
      + destruct (nth_error si a); [|discriminate]. destruct ((z =? -1)%Z || (z =? Z.of_nat (length bins - 1))%Z); [eapply IH; eauto|].
        destruct (pyget bins z); [|discriminate]. destruct (pyget bins (z + 1)); [|discriminate].
        destruct (emit_index bins si it r) as [ys ok]. injection E as <- ->. destruct H as [<-|H]; [simpl; eauto|]. eapply IH; eauto. }
  assert (NX : 1 < length x).
  { destruct x as [|a [|b x]]; simpl; try lia; exfalso; apply NS.
    - intros i j p q Lt H. destruct i; discriminate.
    - intros i j p q Lt H1 H2. destruct j as [|[|j]]; [lia|discriminate|discriminate]. }
  assert (XB : forall i, In i (where_ m) -> i < length x).
  { intros i H. apply WM in H as (v & H & _). eapply nth_error_Some_lt; eauto. }
  destruct (gather_some x (where_ m) XB) as (xs & EX & LX & SX).
  destruct (Nat.ltb_spec (length x / 2) (count_true m)) as [RED|RED].
  - split.
    + intros _.
      destruct (GEN (seq 0 (length x)) x) as (gs & E & R).
      * apply seq_NoDup.
      * intros Z. apply (f_equal (@length nat)) in Z. rewrite seq_length in Z. simpl in Z. lia.
      * rewrite seq_length. auto.
      * intros j k Hk. rewrite nth_error_seq in Hk. destruct (Nat.ltb_spec j (length x)); [|discriminate]. simpl in Hk. injection Hk as <-.
        destruct (nth_error_lt_Some x j H) as [v Hv]. eauto.
      * intros k v Hv _. apply in_seq. apply nth_error_Some_lt in Hv. lia.
      * exists gs. split; [|exact R]. rewrite <- E. rewrite digitize_spec by auto. cbv zeta.
        set (i := map _ (map _ x)).
        assert (GS : gather (seq 0 (length x)) (argsort i) = Some (argsort i)).
        { destruct (AS i) as [P _]. destruct (perm_seq _ _ P) as (PL & _ & PI).
          assert (LI : length i = length x) by (unfold i; rewrite !map_length; auto).
          destruct (gather_some (seq 0 (length x)) (argsort i)) as (it & ET & LT & ST).
          { intros k Hk. rewrite seq_length, <- LI. apply PI. auto. }
          rewrite ET. f_equal. apply nth_error_ext. intros j.
          destruct (nth_error (argsort i) j) as [k|] eqn:K.
          - rewrite (ST _ _ K), nth_error_seq. apply nth_error_In in K. apply PI in K. rewrite LI in K.
            destruct (Nat.ltb_spec k (length x)); [reflexivity|lia].
          - apply nth_error_None in K. apply nth_error_None. lia. }
        rewrite GS. reflexivity.
    + intros H. exfalso.
      assert (count_true m = 0); [|lia].
      rewrite (count_where m 0). destruct (where_from 0 m) as [|k r] eqn:W; auto. exfalso.
      assert (Hk : In k (where_ m)) by (unfold where_; rewrite W; left; auto).
      apply WM in Hk as (v & Hv & Hc). rewrite (covered_iff bins v b0 bl H0 Hl) in Hc.
      destruct (H v (nth_error_In _ _ Hv)); lra.
  - rewrite EX. split.
    + intros (v & Hin & Hb). destruct (GEN (where_ m) xs) as (gs & E & R); [| | | | |exists gs; split; [exact E|exact R]].
      * apply incr_NoDup, incr_where.
      * intros Z. apply In_nth_error in Hin as [k Hk].
        assert (X : In k (where_ m)). { apply WM. exists v. split; [auto|]. apply (covered_iff bins v b0 bl H0 Hl). auto. }
        rewrite Z in X. destruct X.
      * auto.
      * intros j k Hk. pose proof (nth_error_In _ _ Hk) as Hin2. apply WM in Hin2 as (u & Hu & _). exists u. split; [auto|].
        rewrite (SX _ _ Hk). auto.
      * intros k u Hu (c0 & cl & E0 & El & B1 & B2). apply WM. exists u. split; [auto|].
        apply (covered_iff bins u c0 cl E0 El). split; lra.
    + intros H.
      assert (Z : where_ m = []).
      { destruct (where_ m) as [|k r] eqn:W; auto. exfalso.
        assert (Hk : In k (k :: r)) by (left; auto). apply WM in Hk as (v & Hv & Hc). rewrite (covered_iff bins v b0 bl H0 Hl) in Hc.
        destruct (H v (nth_error_In _ _ Hv)); lra. }
      rewrite Z in LX. destruct xs; [|discriminate]. rewrite digitize_spec by auto. simpl map.
      destruct (AS []) as [P _]. apply Permutation_sym, Permutation_nil in P. rewrite P, Z. reflexivity.
Qed.
