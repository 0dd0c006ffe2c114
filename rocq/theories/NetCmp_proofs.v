From Coq Require Import List Arith ZArith Bool Lia Permutation Sorted.
From Verif Require Import Base Sort NetCmp_model NetCmp_spec.
Import ListNotations.

Lemma pos_eqb_eq : forall a b, pos_eqb a b = true <-> a = b.
Proof.
  intros [[t0 x0] y0] [[t1 x1] y1]. unfold pos_eqb. rewrite !andb_true_iff, !Z.eqb_eq. split; [intros [[-> ->] ->]; auto|]. intros H. injection H as -> -> ->. auto.
Qed.
Lemma pos_le_antisym : forall a b, pos_le a b -> pos_le b a -> a = b.
Proof. intros [[t0 x0] y0] [[t1 x1] y1] H G. unfold pos_le in *. assert (t0 = t1) by lia. assert (x0 = x1) by lia. assert (y0 = y1) by lia. congruence. Qed.

Lemma sorted_unique : forall l m, Permutation l m -> StronglySorted pos_le l -> StronglySorted pos_le m -> l = m.
Proof.
  induction l as [|a l IH]; intros m P S1 S2; [apply Permutation_nil in P; auto|].
  destruct m as [|b m]; [apply Permutation_sym, Permutation_nil in P; discriminate|].
  inversion S1 as [|? ? S1' F1]; inversion S2 as [|? ? S2' F2]; subst. rewrite Forall_forall in F1, F2.
  assert (E : a = b).
  { assert (I1 : In a (b :: m)) by (eapply Permutation_in; [eauto|left; auto]). assert (I2 : In b (a :: l)) by (eapply Permutation_in; [apply Permutation_sym; eauto|left; auto]).
    destruct I1 as [->|I1]; [auto|]. destruct I2 as [->|I2]; [auto|]. apply pos_le_antisym; auto. }
  subst b. f_equal. apply IH; auto. eapply Permutation_cons_inv; eauto.
Qed.
Lemma nth_sorted : forall l, (forall i j a b, i < j -> nth_error l i = Some a -> nth_error l j = Some b -> pos_le a b) -> StronglySorted pos_le l.
Proof.
  induction l as [|x l IH]; intros H; constructor.
  - apply IH. intros i j a b L A B. apply (H (S i) (S j)); auto. lia.
  - apply Forall_forall. intros y Y. apply In_nth_error in Y as [k K]. apply (H 0 (S k)); auto. lia.
Qed.

(** The positions of an item in its order. *)
Definition listed (p : list pos) (it : nat * list nat) : option (list pos) := gather p (map (fun i => i + fst it) (snd it)).
Lemma listed_cons : forall p s i o v, listed p (s, i :: o) = Some v -> exists a w, nth_error p (i + s) = Some a /\ listed p (s, o) = Some w /\ v = a :: w.
Proof.
  intros p s i o v H. unfold listed in *. cbn [fst snd map gather] in *. destruct (nth_error p (i + s)) as [a|]; [|discriminate]. cbn [bind] in H.
  destruct (gather p _) as [w|]; [|discriminate]. cbn [bind] in H. apply Some_inj in H. eauto.
Qed.
Lemma same_item_spec : forall p0 p1 s0 s1 o0 o1 v0 v1, listed p0 (s0, o0) = Some v0 -> listed p1 (s1, o1) = Some v1 ->
  exists b, same_item p0 p1 s0 s1 o0 o1 = Some b /\ (length o0 = length o1 -> (b = true <-> v0 = v1)).
Proof.
  intros p0 p1 s0 s1. induction o0 as [|i0 o0 IH]; intros [|i1 o1] v0 v1 H0 H1.
  - exists true. split; [reflexivity|]. intros _. unfold listed in *. simpl in *. apply Some_inj in H0, H1. subst. tauto.
  - exists true. split; [reflexivity|]. intros H; discriminate.
  - exists true. split; [reflexivity|]. intros H; discriminate.
  - apply listed_cons in H0 as (a & w & A & W & ->). apply listed_cons in H1 as (b & z & B & Z & ->). cbn [same_item]. rewrite A, B. cbn [bind].
    destruct (pos_eqb a b) eqn:E.
    + apply pos_eqb_eq in E. subst b. destruct (IH o1 w z W Z) as (r & R & Q). exists r. split; [auto|]. simpl. intros L. rewrite Q by lia. split; congruence.
    + exists false. split; [auto|]. intros _. split; [discriminate|]. intros H. injection H as <- _. assert (pos_eqb a a = true) by (apply pos_eqb_eq; auto). congruence.
Qed.

(** Items: all of them give [v0]/[v1]; [n] positions each. *)
Section Same.
Context (p0 p1 : list pos) (n : nat).
Definition good (p : list pos) (it : nat * list nat) : Prop := length (snd it) = n /\ exists v, listed p it = Some v.
Definition equal_items (a b : nat * list nat) : Prop := exists v, listed p0 a = Some v /\ listed p1 b = Some v.

Lemma find_item_spec : forall s0 o0 items1 used1 j, good p0 (s0, o0) -> (forall it, In it items1 -> good p1 it) -> length used1 = length items1 ->
  exists f, find_item p0 p1 s0 o0 j items1 used1 = Some f /\
    (forall j1, f = Some j1 -> j <= j1 /\ nth_error used1 (j1 - j) = Some false /\ (exists it, nth_error items1 (j1 - j) = Some it /\ equal_items (s0, o0) it) /\
       forall k it, k < j1 - j -> nth_error items1 k = Some it -> equal_items (s0, o0) it -> nth_error used1 k = Some true) /\
    (f = None -> forall k it, nth_error items1 k = Some it -> equal_items (s0, o0) it -> nth_error used1 k = Some true).
Proof.
  intros s0 o0 items1. induction items1 as [|[s1 o1] items1 IH]; intros [|u used1] j G0 G1 L; simpl in L; try lia.
  - exists None. split; [reflexivity|]. split; [discriminate|]. intros _ [|k] it H; discriminate.
  - cbn [find_item]. destruct (IH used1 (S j) G0) as (f & E & F1 & F2); [intros; apply G1; right; auto|lia|].
    assert (SH : forall j1, f = Some j1 -> S j <= j1 /\ j1 - j = S (j1 - S j)). { intros j1 H. destruct (F1 j1 H). split; lia. }
    destruct G0 as [L0 (v0 & V0)]. destruct (G1 (s1, o1) (or_introl eq_refl)) as [L1 (v1 & V1)]. cbn [snd] in L0, L1.
    destruct u.
    + exists f. split; [auto|]. split.
      * intros j1 H. destruct (SH j1 H) as [S1 S2]. destruct (F1 j1 H) as (B & U & X & Y). rewrite S2. split; [lia|]. split; [auto|]. split; [auto|].
        intros [|k] it K I Q; [auto|]. cbn [nth_error] in *. apply (Y k it); auto. lia.
      * intros H [|k] it I Q; [auto|]. cbn [nth_error] in *. apply (F2 H k it); auto.
    + destruct (same_item_spec p0 p1 s0 s1 o0 o1 v0 v1 V0 V1) as (b & B & BT). rewrite B. cbn [bind]. specialize (BT ltac:(lia)). destruct b.
      * exists (Some j). split; [auto|]. split; [|discriminate]. intros j1 H. apply Some_inj in H. subst j1. rewrite Nat.sub_diag. split; [lia|]. split; [auto|]. split.
        -- exists (s1, o1). split; [auto|]. exists v0. split; [auto|]. rewrite (proj1 BT eq_refl). auto.
        -- intros k it K. lia.
      * assert (NE : ~ equal_items (s0, o0) (s1, o1)). { intros (v & X & Y). rewrite V0 in X. rewrite V1 in Y. assert (false = true) by (apply BT; congruence). discriminate. }
        exists f. split; [auto|]. split.
        -- intros j1 H. destruct (SH j1 H) as [S1 S2]. destruct (F1 j1 H) as (B' & U & X & Y). rewrite S2. split; [lia|]. split; [auto|]. split; [auto|].
           intros [|k] it K I Q; [|cbn [nth_error] in *; apply (Y k it); auto; lia]. simpl in I. apply Some_inj in I. subst it. contradiction.
        -- intros H [|k] it I Q; [simpl in I; apply Some_inj in I; subst it; contradiction|]. cbn [nth_error] in *. apply (F2 H k it); auto.
Qed.

Lemma find_items_spec : forall items1 items0 used1, (forall it, In it items0 -> good p0 it) -> (forall it, In it items1 -> good p1 it) -> length used1 = length items1 ->
  exists r, find_items p0 p1 items0 items1 used1 = Some r /\ length r = length items0 /\
    (forall k z, nth_error r k = Some z -> z = (-1)%Z \/ exists j, z = Z.of_nat j /\ nth_error used1 j = Some false) /\
    (forall k j a, nth_error r k = Some (Z.of_nat j) -> nth_error items0 k = Some a -> exists b, nth_error items1 j = Some b /\ equal_items a b) /\
    (forall k l j, nth_error r k = Some (Z.of_nat j) -> nth_error r l = Some (Z.of_nat j) -> k = l) /\
    (forall k a j b z, nth_error items0 k = Some a -> nth_error items1 j = Some b -> equal_items a b -> nth_error r k = Some z -> (z = (-1)%Z \/ (Z.of_nat j < z)%Z) ->
       nth_error used1 j = Some true \/ exists l, l < k /\ nth_error r l = Some (Z.of_nat j)).
Proof.
  intros items1. induction items0 as [|[s0 o0] items0 IH]; intros used1 G0 G1 L.
  - exists []. split; [reflexivity|]. split; [auto|]. split; [intros [|k] z H; discriminate|]. split; [intros [|k] j a H; discriminate|]. split; [intros [|k] l j H; discriminate|]. intros [|k] a j b z H; discriminate.
  - cbn [find_items]. destruct (find_item_spec s0 o0 items1 used1 0 (G0 _ (or_introl eq_refl)) G1 L) as (f & E & F1 & F2). rewrite E. cbn [bind].
    assert (G0' : forall it, In it items0 -> good p0 it) by (intros; apply G0; right; auto). destruct f as [j1|].
    + destruct (F1 j1 eq_refl) as (_ & U & (b1 & B1 & Q1) & LEAST). rewrite Nat.sub_0_r in *.
      destruct (IH (upd used1 j1 true) G0' G1) as (r & R & LR & RU & RE & RI & RC); [rewrite length_upd; auto|]. rewrite R. cbn [bind].
      assert (U1 : nth_error (upd used1 j1 true) j1 = Some true) by (apply nth_error_upd_eq; apply nth_error_Some_lt in U; auto).
      assert (US : forall j, nth_error (upd used1 j1 true) j = Some false -> nth_error used1 j = Some false /\ j <> j1).
      { intros j H. destruct (Nat.eq_dec j j1) as [->|D]; [congruence|]. rewrite nth_error_upd_neq in H by auto. auto. }
      eexists. split; [reflexivity|]. split; [simpl; lia|]. split; [|split; [|split]].
      * intros [|k] z H; simpl in H; [apply Some_inj in H; subst z; eauto|]. destruct (RU k z H) as [?|(j & -> & J)]; [auto|]. right. exists j. split; [auto|]. apply US; auto.
      * intros [|k] j a H A; simpl in H, A; [|eauto]. apply Some_inj in H, A. assert (j = j1) by lia. subst. eauto.
      * intros [|k] [|l] j H H'; simpl in H, H'; auto.
        -- apply Some_inj in H. destruct (RU l _ H') as [?|(j' & EJ & J)]; [lia|]. apply US in J as [_ J]. lia.
        -- apply Some_inj in H'. destruct (RU k _ H) as [?|(j' & EJ & J)]; [lia|]. apply US in J as [_ J]. lia.
        -- f_equal. eauto.
      * intros [|k] a j b z A B Q H Z; simpl in A, H.
        -- apply Some_inj in A, H. subst a z. destruct Z as [Z|Z]; [lia|]. left. apply (LEAST j b); auto. lia.
        -- destruct (RC k a j b z A B Q H Z) as [X|(l & X & Y)].
           ++ destruct (Nat.eq_dec j j1) as [->|D]; [right; exists 0; split; [lia|auto]|]. rewrite nth_error_upd_neq in X by auto. auto.
           ++ right. exists (S l). split; [lia|auto].
    + destruct (IH used1 G0' G1 L) as (r & R & LR & RU & RE & RI & RC). rewrite R. cbn [bind]. eexists. split; [reflexivity|]. split; [simpl; lia|]. split; [|split; [|split]].
      * intros [|k] z H; simpl in H; [apply Some_inj in H; auto|eauto].
      * intros [|k] j a H A; simpl in H, A; [apply Some_inj in H; lia|eauto].
      * intros [|k] [|l] j H H'; simpl in H, H'; auto; try (apply Some_inj in H; lia); try (apply Some_inj in H'; lia). f_equal. eauto.
      * intros [|k] a j b z A B Q H Z; simpl in A, H.
        -- apply Some_inj in A. subst a. left. apply (F2 eq_refl j b); auto.
        -- destruct (RC k a j b z A B Q H Z) as [X|(l & X & Y)]; [auto|]. right. exists (S l). split; [lia|auto].
Qed.
End Same.

(** Items of a dataset given by blocks. *)
Lemma items_nth : forall argsort blocks k it, nth_error (items_of argsort blocks) k = Some it ->
  exists b, nth_error blocks k = Some b /\ it = (sum_list (map (@length pos) (firstn k blocks)), argsort b).
Proof.
  intros argsort blocks k it H. unfold items_of in H.
  assert (X : nth_error (combine (excl_sums 0 (map (@length pos) blocks)) (map argsort blocks)) k =
    match nth_error (excl_sums 0 (map (@length pos) blocks)) k, nth_error (map argsort blocks) k with Some a, Some b => Some (a, b) | _, _ => None end).
  { generalize (excl_sums 0 (map (@length pos) blocks)) (map argsort blocks). intros l m. clear H. revert m k. clear. induction l as [|a l IH]; intros [|b m] [|k]; simpl; auto; try (destruct (nth_error l k); auto; fail). }
  rewrite X in H. rewrite nth_error_map in H. destruct (nth_error blocks k) as [b|] eqn:B; simpl in H; [|destruct (nth_error (excl_sums 0 _) k); discriminate].
  assert (KL : k < length (map (@length pos) blocks)) by (rewrite map_length; eapply nth_error_Some_lt; eauto).
  rewrite (nth_error_excl_sums _ 0 k KL) in H. simpl in H. apply Some_inj in H. exists b. split; [auto|]. rewrite <- H. f_equal. rewrite firstn_map. auto.
Qed.
Lemma items_length : forall argsort blocks, length (items_of argsort blocks) = length blocks.
Proof. intros. unfold items_of. rewrite combine_length, excl_sums_length, !map_length. lia. Qed.
Lemma nth_concat : forall (blocks : list (list pos)) k b i, nth_error blocks k = Some b -> i < length b ->
  nth_error (concat blocks) (i + sum_list (map (@length pos) (firstn k blocks))) = nth_error b i.
Proof.
  induction blocks as [|c blocks IH]; intros [|k] b i H L; simpl in H; try discriminate.
  - apply Some_inj in H. subst c. simpl. rewrite Nat.add_0_r. apply nth_error_app1. auto.
  - cbn [concat firstn map]. cbn [sum_list]. rewrite nth_error_app2 by lia. rewrite <- (IH k b i H L). f_equal. lia.
Qed.
Lemma block_listed : forall argsort blocks k b it, sorts_pos argsort -> nth_error blocks k = Some b -> nth_error (items_of argsort blocks) k = Some it ->
  length (snd it) = length b /\ exists v, listed (concat blocks) it = Some v /\ Permutation v b /\ StronglySorted pos_le v.
Proof.
  intros argsort blocks k b it SP B H. destruct (items_nth _ _ _ _ H) as (b' & B' & ->). rewrite B in B'. apply Some_inj in B'. subst b'. cbn [snd].
  destruct (SP b) as [P O]. split; [rewrite (Permutation_length P), seq_length; auto|]. unfold listed. cbn [fst snd].
  set (s := sum_list _).
  assert (EQ : forall ix, (forall i, In i ix -> i < length b) -> gather (concat blocks) (map (fun i => i + s) ix) = gather b ix).
  { induction ix as [|i ix IH]; intros BD; [reflexivity|]. cbn [map gather]. unfold s at 1. rewrite (nth_concat blocks k b i B) by (apply BD; left; auto). rewrite IH by (intros; apply BD; right; auto). auto. }
  assert (BD : forall i, In i (argsort b) -> i < length b) by (intros i I; apply (Permutation_in _ P) in I; apply in_seq in I; lia).
  rewrite EQ by auto. destruct (gather_total b (argsort b) BD) as [v V]. exists v. split; [auto|].
  pose proof V as V'. apply gather_Some in V' as [LV NV]. split.
  - assert (E2 : gather b (seq 0 (length b)) = Some b).
    { clear. assert (X : forall (p q : list pos), gather (p ++ q) (seq (length p) (length q)) = Some q).
      { intros p q. revert p. induction q as [|a q IH]; intros p; [reflexivity|]. cbn [length seq gather]. rewrite nth_error_app2, Nat.sub_diag by lia. cbn [nth_error bind].
        specialize (IH (p ++ [a])). rewrite <- app_assoc in IH. cbn [app] in IH. rewrite app_length in IH. cbn [length] in IH. rewrite Nat.add_1_r in IH. rewrite IH. auto. }
      apply (X [] b). }
    assert (G : forall ix iy w, Permutation ix iy -> gather b ix = Some w -> exists w', gather b iy = Some w' /\ Permutation w w').
    { clear. intros ix iy w P. revert w. induction P as [|x l l' P IH|x y l|l l' l'' P1 IH1 P2 IH2]; intros w H.
      - eauto.
      - cbn [gather] in *. destruct (nth_error b x) as [a|]; [|discriminate]. cbn [bind] in *. destruct (gather b l) as [u|]; [|discriminate]. cbn [bind] in H. apply Some_inj in H. subst w.
        destruct (IH u eq_refl) as (w' & -> & Q). cbn [bind]. eexists. split; [reflexivity|]. auto.
      - cbn [gather] in *. destruct (nth_error b y) as [a|]; [|discriminate]. cbn [bind] in *. destruct (nth_error b x) as [c|]; [|discriminate]. cbn [bind] in *.
        destruct (gather b l) as [u|]; [|discriminate]. cbn [bind] in *. apply Some_inj in H. subst w. eexists. split; [reflexivity|]. apply perm_swap.
      - destruct (IH1 w H) as (w1 & E1 & Q1). destruct (IH2 w1 E1) as (w2 & E2 & Q2). exists w2. split; [auto|]. rewrite Q1. auto. }
    destruct (G _ _ v P V) as (w & W & Q). rewrite E2 in W. apply Some_inj in W. subst w. auto.
  - apply nth_sorted. intros i j x y L X Y. destruct (nth_error_lt_Some (argsort b) i) as [i' I]; [apply nth_error_Some_lt in X; lia|]. destruct (nth_error_lt_Some (argsort b) j) as [j' J]; [apply nth_error_Some_lt in Y; lia|].
    destruct (NV i i' I) as (x' & X1 & X2). destruct (NV j j' J) as (y' & Y1 & Y2). rewrite X in X2. rewrite Y in Y2. apply Some_inj in X2, Y2. subst x' y'. eapply (O i j); eauto.
Qed.
Lemma equal_blocks : forall argsort bl0 bl1 k j a b x y, sorts_pos argsort -> nth_error bl0 k = Some a -> nth_error bl1 j = Some b ->
  nth_error (items_of argsort bl0) k = Some x -> nth_error (items_of argsort bl1) j = Some y -> (equal_items (concat bl0) (concat bl1) x y <-> same_content a b).
Proof.
  intros argsort bl0 bl1 k j a b x y SP A B X Y. destruct (block_listed argsort bl0 k a x SP A X) as [_ (v & V & PV & SV)]. destruct (block_listed argsort bl1 j b y SP B Y) as [_ (w & W & PW & SW)].
  unfold equal_items, same_content. split.
  - intros (u & U & U'). rewrite V in U. rewrite W in U'. apply Some_inj in U, U'. subst. rewrite <- PV. auto.
  - intros P. exists v. split; [auto|]. rewrite W. f_equal. symmetry. apply sorted_unique; auto. rewrite PV, PW. auto.
Qed.

Theorem same_position_spec : forall argsort bl0 bl1 n, sorts_pos argsort -> (forall b, In b bl0 -> length b = n) -> (forall b, In b bl1 -> length b = n) ->
  exists r, same_position (concat bl0) (concat bl1) (items_of argsort bl0) (items_of argsort bl1) = Some r /\ length r = length bl0 /\
    (forall k z, nth_error r k = Some z -> z = (-1)%Z \/ (0 <= z < Z.of_nat (length bl1))%Z) /\
    (forall k j a b, nth_error r k = Some (Z.of_nat j) -> nth_error bl0 k = Some a -> nth_error bl1 j = Some b -> same_content a b) /\
    (forall k l j, nth_error r k = Some (Z.of_nat j) -> nth_error r l = Some (Z.of_nat j) -> k = l) /\
    (forall k a j b, nth_error bl0 k = Some a -> nth_error bl1 j = Some b -> same_content a b -> nth_error r k = Some (-1)%Z ->
       exists l, l < k /\ nth_error r l = Some (Z.of_nat j)).
Proof.
  intros argsort bl0 bl1 n SP N0 N1.
  assert (GOOD : forall bl it, (forall b, In b bl -> length b = n) -> In it (items_of argsort bl) -> good n (concat bl) it).
  { intros bl it N I. apply In_nth_error in I as [k K]. destruct (items_nth _ _ _ _ K) as (b & B & _). destruct (block_listed argsort bl k b it SP B K) as [L (v & V & _)].
    split; [rewrite L; apply N; eapply nth_error_In; eauto|eauto]. }
  destruct (find_items_spec (concat bl0) (concat bl1) n (items_of argsort bl1) (items_of argsort bl0) (repeat false (length (items_of argsort bl1)))) as (r & R & LR & RU & RE & RI & RC);
    [intros; apply GOOD; auto|intros; apply GOOD; auto|apply repeat_length|].
  rewrite items_length in *. exists r. split; [unfold same_position; rewrite items_length; auto|]. split; [auto|].
  assert (ITEM : forall bl k b, nth_error bl k = Some b -> exists it, nth_error (items_of argsort bl) k = Some it).
  { intros bl k b B. apply nth_error_lt_Some. rewrite items_length. eapply nth_error_Some_lt; eauto. }
  split; [|split; [|split; [auto|]]].
  - intros k z H. destruct (RU k z H) as [?|(j & -> & J)]; [auto|]. right. apply nth_error_Some_lt in J. rewrite repeat_length in J. lia.
  - intros k j a b H A B. destruct (ITEM _ _ _ A) as [x X]. destruct (RE k j x H X) as (y & Y & Q). apply (equal_blocks argsort bl0 bl1 k j a b x y SP A B X Y). auto.
  - intros k a j b A B Q H. destruct (ITEM _ _ _ A) as [x X]. destruct (ITEM _ _ _ B) as [y Y].
    apply (equal_blocks argsort bl0 bl1 k j a b x y SP A B X Y) in Q. destruct (RC k x j y _ X Y Q H (or_introl eq_refl)) as [U|?]; [|auto].
    exfalso. rewrite nth_error_repeat_lt in U. destruct (j <? length bl1); discriminate.
Qed.

(** ** Cache *)
Section Cache.
Context {contour : Type} (load : bool -> nat -> option contour) (kind : bool) (size : nat).
Notation cache := (@cache contour).
Definition valid (s : cache) : Prop :=
  NoDup (flist s) /\ length (flist s) <= size + 1 /\ (forall f, In f (flist s) <-> In f (map fst (data s))) /\ NoDup (map fst (data s)) /\
  (forall f c, In (f, c) (data s) -> load kind f = Some c).
Lemma lookup_In : forall d f c, lookup d f = Some c -> In (f, c) (d : list (nat * contour)).
Proof. induction d as [|[g x] d IH]; intros f c H; simpl in H; [discriminate|]. destruct (Nat.eqb_spec f g) as [->|N]; [apply Some_inj in H; subst; left; auto|right; auto]. Qed.
Lemma lookup_None : forall d f, lookup (d : list (nat * contour)) f = None <-> ~ In f (map fst d).
Proof.
  induction d as [|[g x] d IH]; intros f; simpl; [tauto|]. destruct (Nat.eqb_spec f g) as [->|N]; [split; [discriminate|tauto]|]. rewrite IH. split; [|tauto]. intros H [H'|H']; [congruence|tauto].
Qed.
Lemma pop_spec : forall d g, NoDup (map fst d) -> In g (map fst d) ->
  exists d', pop_data (d : list (nat * contour)) g = Some d' /\ NoDup (map fst d') /\ (forall f, In f (map fst d') <-> In f (map fst d) /\ f <> g) /\ (forall f c, In (f, c) d' -> In (f, c) d).
Proof.
  induction d as [|[h x] d IH]; intros g ND I; [destruct I|]. cbn [map fst] in ND, I. inversion ND as [|? ? N1 N2]; subst. cbn [pop_data].
  destruct (Nat.eqb_spec g h) as [->|D].
  - exists d. split; [auto|]. split; [auto|]. split; [|intros; right; auto]. intros f. simpl. split; [intros F; split; [auto|intros ->; contradiction]|]. intros [[->|F] X]; [congruence|auto].
  - destruct I as [->|I]; [congruence|]. destruct (IH g N2 I) as (d' & E & ND' & K & S). rewrite E. cbn [bind]. eexists. split; [reflexivity|]. cbn [map fst].
    split; [constructor; [intros F; apply K in F; tauto|auto]|]. split.
    + intros f. simpl. rewrite K. split; [intros [->|[F X]]; auto|]. intros [[->|F] X]; auto.
    + intros f c [F|F]; [left; auto|right; auto].
Qed.
Theorem load_contour_spec : forall f s, valid s -> exists s', load_contour load kind (Z.of_nat size) f s = (load kind f, s') /\ valid s' /\
  (In f (flist s) -> s' = s) /\ (load kind f <> None -> In f (flist s')) /\
  (~ In f (flist s) -> forall g, In g (flist s') -> g = f \/ In g (flist s)) /\
  (forall g, In g (flist s) -> In g (flist s') \/ nth_error (flist s) 0 = Some g).
Proof.
  intros f s (ND & LEN & SYNC & NDD & OK). unfold load_contour. destruct (lookup (data s) f) as [c|] eqn:LK.
  - pose proof (lookup_In _ _ _ LK) as I. exists s. rewrite (OK f c I). split; [auto|]. split; [unfold valid; auto|]. split; [auto|].
    assert (IF : In f (flist s)) by (apply SYNC; apply in_map_iff; exists (f, c); auto). split; [auto|]. split; [intros; auto|auto].
  - apply lookup_None in LK. assert (NF : ~ In f (flist s)) by (rewrite SYNC; auto).
    destruct (Z.ltb_spec (Z.of_nat size) (Z.of_nat (length (flist s)))) as [G|G].
    + destruct (flist s) as [|g l] eqn:FL; [simpl in G; lia|]. destruct (pop_spec (data s) g NDD) as (d & P & NP & KP & SP); [apply SYNC; left; auto|]. rewrite P.
      inversion ND as [|? ? N1 N2]; subst.
      assert (SY : forall x, In x l <-> In x (map fst d)). { intros x. rewrite KP, <- SYNC. simpl. split; [intros X; split; [auto|intros ->; contradiction]|]. intros [[->|X] Y]; [congruence|auto]. }
      assert (OD : forall x c, In (x, c) d -> load kind x = Some c) by (intros x c X; apply OK; auto).
      assert (LL : length l <= size) by (simpl in LEN; lia).
      destruct (load kind f) as [c|] eqn:LF.
      * eexists. split; [reflexivity|]. cbn [flist data]. split; [|split; [|split; [|split]]].
        -- split; [|split; [|split; [|split]]]; cbn [flist data].
           ++ apply NoDup_rev in N2. rewrite <- (rev_involutive (l ++ [f])). apply NoDup_rev. rewrite rev_app_distr. simpl. constructor; [rewrite <- in_rev; intros X; apply NF; right; auto|auto].
           ++ rewrite app_length. simpl. lia.
           ++ intros x. rewrite in_app_iff. cbn [map fst]. simpl. rewrite SY. split; [intros [X|[->|[]]]; auto|intros [->|X]; auto].
           ++ cbn [map fst]. constructor; [rewrite <- SY; intros X; apply NF; right; auto|auto].
           ++ intros x c' [X|X]; [injection X as <- <-; auto|auto].
        -- intros X; contradiction.
        -- intros _. apply in_app_iff. right. left. auto.
        -- intros _ x X. apply in_app_iff in X as [X|[->|[]]]; [right; right; auto|auto].
        -- intros x [->|X]; [right; auto|left; apply in_app_iff; auto].
      * eexists. split; [reflexivity|]. cbn [flist data]. split; [split; [|split; [|split; [|split]]]; cbn [flist data]; auto; lia|]. split; [intros X; contradiction|]. split; [congruence|]. split; [intros _ x X; right; right; auto|].
        intros x [->|X]; [right; auto|auto].
    + destruct (load kind f) as [c|] eqn:LF.
      * eexists. split; [reflexivity|]. cbn [flist data]. split; [|split; [|split; [|split]]].
        -- split; [|split; [|split; [|split]]]; cbn [flist data].
           ++ rewrite <- (rev_involutive (flist s ++ [f])). apply NoDup_rev. rewrite rev_app_distr. simpl. constructor; [rewrite <- in_rev; auto|apply NoDup_rev; auto].
           ++ rewrite app_length. simpl. lia.
           ++ intros x. rewrite in_app_iff. cbn [map fst]. simpl. rewrite SYNC. split; [intros [X|[->|[]]]; auto|intros [->|X]; auto].
           ++ cbn [map fst]. constructor; auto.
           ++ intros x c' [X|X]; [injection X as <- <-; auto|auto].
        -- intros X; contradiction.
        -- intros _. apply in_app_iff. right. left. auto.
        -- intros _ x X. apply in_app_iff in X as [X|[->|[]]]; auto.
        -- intros x X. left. apply in_app_iff; auto.
      * exists s. split; [auto|]. split; [unfold valid; auto|]. split; [auto|]. split; [congruence|]. split; [auto|auto].
Qed.
Theorem load_all_spec : forall fs s, valid s -> exists s', load_all load kind (Z.of_nat size) fs s = (map (load kind) fs, s') /\ valid s'.
Proof.
  induction fs as [|f fs IH]; intros s V; [exists s; split; [reflexivity|auto]|]. cbn [load_all map].
  destruct (load_contour_spec f s V) as (s1 & E & V1 & _). rewrite E. destruct (IH s1 V1) as (s2 & E2 & V2). rewrite E2. eauto.
Qed.
(** A file read stays until [size] other requests are made. *)
Lemma load_moves : forall f s, valid s -> exists j l, snd (load_contour load kind (Z.of_nat size) f s) = Cache (skipn j (flist s) ++ l) (data (snd (load_contour load kind (Z.of_nat size) f s))) /\
  j <= 1 /\ length l <= 1 /\ (j = 1 -> length (flist s) = size + 1).
Proof.
  intros f s (ND & LEN & SYNC & NDD & OK). unfold load_contour. destruct (lookup (data s) f) as [c|] eqn:LK.
  - exists 0, []. rewrite app_nil_r. destruct s; cbn. split; [auto|]. split; [lia|]. split; [lia|]. lia.
  - destruct (Z.ltb_spec (Z.of_nat size) (Z.of_nat (length (flist s)))) as [G|G].
    + destruct (flist s) as [|g l] eqn:FL; [simpl in G; lia|]. destruct (pop_spec (data s) g NDD) as (d & P & _); [apply SYNC; left; auto|]. rewrite P.
      destruct (load kind f) as [c|].
      * exists 1, [f]. cbn. split; [auto|]. split; [auto|]. split; [auto|]. cbn in *. lia.
      * exists 1, []. cbn [skipn snd flist data]. rewrite app_nil_r. cbn in *. split; [auto|]. split; [lia|]. split; [lia|]. lia.
    + destruct (load kind f) as [c|].
      * exists 0, [f]. cbn. split; [auto|]. split; [lia|]. split; [auto|]. lia.
      * exists 0, []. rewrite app_nil_r. destruct s; cbn. split; [auto|]. split; [lia|]. split; [lia|]. lia.
Qed.
Lemma stays : forall fs s f p, valid s -> nth_error (flist s) p = Some f -> length fs <= p + (size + 1 - length (flist s)) ->
  In f (flist (snd (load_all load kind (Z.of_nat size) fs s))).
Proof.
  induction fs as [|g fs IH]; intros s f p V F L; [eapply nth_error_In; eauto|]. cbn [load_all length] in *.
  destruct (load_moves g s V) as (j & l & E & J & LL & FULL). destruct (load_contour_spec g s V) as (s1 & E1 & V1 & _). rewrite E1 in *. cbn [snd] in E.
  assert (FS : flist s1 = skipn j (flist s) ++ l) by (rewrite E; auto). pose proof (nth_error_Some_lt _ _ _ F) as PL. destruct V as (_ & LEN & _).
  assert (JP : j <= p). { destruct (Nat.eq_dec j 1) as [->|]; [|lia]. specialize (FULL eq_refl). lia. }
  assert (F1 : nth_error (flist s1) (p - j) = Some f).
  { rewrite FS, nth_error_app1 by (rewrite skipn_length; lia). rewrite <- F. clear -JP. revert p JP. generalize (flist s) as x. induction j as [|j IH]; intros x p JP; [rewrite Nat.sub_0_r; auto|].
    destruct x as [|a x]; [destruct p; [lia|]; destruct (S p - S j); auto|]. destruct p as [|p]; [lia|]. cbn [skipn nth_error]. rewrite Nat.sub_succ. apply IH. lia. }
  destruct (load_all load kind (Z.of_nat size) fs s1) as [r s2] eqn:E2. cbn [snd]. specialize (IH s1 f (p - j) V1 F1). rewrite E2 in IH. apply IH.
  rewrite FS, app_length, skipn_length. destruct (Nat.eq_dec j 1) as [->|]; [specialize (FULL eq_refl); lia|lia].
Qed.
Theorem kept_spec : forall f fs s, valid s -> ~ In f (flist s) -> load kind f <> None -> length fs <= size ->
  In f (flist (snd (load_all load kind (Z.of_nat size) (f :: fs) s))).
Proof.
  intros f fs s V NF LF L. cbn [load_all]. destruct (load_contour_spec f s V) as (s1 & E1 & V1 & _ & HELD & _). specialize (HELD LF).
  destruct (load_moves f s V) as (j & l & E & J & LL & FULL). rewrite E1 in *. cbn [snd] in E.
  assert (FS : flist s1 = skipn j (flist s) ++ l) by (rewrite E; auto).
  destruct (load_all load kind (Z.of_nat size) fs s1) as [r s2] eqn:E2. cbn [snd]. replace s2 with (snd (load_all load kind (Z.of_nat size) fs s1)) by (rewrite E2; auto).
  assert (LF1 : l = [f]).
  { assert (IL : In f l). { rewrite FS in HELD. apply in_app_iff in HELD as [H|H]; [|auto]. exfalso. apply NF. rewrite <- (firstn_skipn j (flist s)). apply in_app_iff. auto. }
    destruct l as [|x [|y l]]; [destruct IL| |simpl in LL; lia]. destruct IL as [->|[]]. auto. }
  apply (stays fs s1 f (length (flist s1) - 1) V1).
  - rewrite FS, LF1, app_length. cbn [length]. rewrite nth_error_app2 by lia. replace (length (skipn j (flist s)) + 1 - 1 - length (skipn j (flist s))) with 0 by lia. auto.
  - destruct V1 as (_ & LEN & _). assert (0 < length (flist s1)) by (rewrite FS, LF1, app_length; simpl; lia). lia.
Qed.
Lemma valid_empty : valid (Cache [] []).
Proof. split; [constructor|]. split; [simpl; lia|]. split; [simpl; tauto|]. split; [constructor|]. intros f c []. Qed.
End Cache.
