(** Proofs on the tables kept by a network. *)
From Coq Require Import List Arith ZArith Bool Lia Permutation.
From Verif Require Import Base Spec Generic_model Generic_proofs Generic_props Corr_model NetGroup_spec NetGroup_model NetGroup_more NetGroup_props Obs_model Net_model Net_links NetSeg_proofs NetTab_model.
Import ListNotations.
Local Open Scope nat_scope.

Definition nsorted (l : list nat) : Prop := forall i j a b, i < j -> nth_error l i = Some a -> nth_error l j = Some b -> a <= b.
(** What a table says of the labels. *)
Definition tab_of (l : list nat) (t : tables) : Prop :=
  let '(first, last, ref) := t in
  exists lo, ref = Z.of_nat lo /\ length last = length first /\ 0 < length first /\ In lo l /\ In (lo + length first - 1) l /\ (forall v, In v l -> lo <= v < lo + length first) /\
  forall k, k < length first -> exists a b, nth_error first k = Some a /\ nth_error last k = Some b /\ a <= b /\ b <= length l /\ forall j, a <= j < b <-> nth_error l j = Some (lo + k).
Lemma nsorted_z : forall l, nsorted l -> zsorted (map Z.of_nat l).
Proof.
  intros l H i j a b I A B. rewrite nth_error_map in A, B. destruct (nth_error l i) as [x|] eqn:X; [|discriminate A]. destruct (nth_error l j) as [y|] eqn:Y; [|discriminate B].
  cbn in A, B. injection A as <-. injection B as <-. pose proof (H i j x y I X Y). lia.
Qed.
Lemma count_lt_max : forall v l, count_lt v l <= length l.
Proof. intros v l. induction l as [|a l IH]; cbn; [lia|]. destruct (a <? v)%Z; lia. Qed.
Lemma tables_spec : forall l, l <> [] -> nsorted l -> exists t, build_index (map Z.of_nat l) = Some t /\ tab_of l t.
Proof.
  intros l NE SO. destruct (C12_index_tables_tile (map Z.of_nat l)) as (first & last & i0 & E & L & I0 & R & T & F0 & _); [destruct l; [congruence|discriminate]|apply nsorted_z; exact SO|].
  exists (first, last, i0). split; [exact E|]. destruct (build_index_first _ _ _ _ (nsorted_z l SO) E) as (_ & _ & TOP & _). destruct (build_index_last _ _ _ _ (nsorted_z l SO) E) as (_ & LV). apply in_map_iff in I0 as (lo & <- & I0). exists lo. split; [reflexivity|]. split; [exact L|].
  assert (P : 0 < length first) by (apply nth_error_Some_lt in F0; lia). split; [exact P|]. split; [exact I0|]. split.
  { apply in_map_iff in TOP as (h & EH & IH). replace (lo + length first - 1) with h by lia. exact IH. }
  split. { intros v V. specialize (R (Z.of_nat v) (in_map Z.of_nat _ _ V)). lia. }
  intros k K. destruct (nth_error_lt_Some first k K) as [a A]. destruct (nth_error_lt_Some last k ltac:(lia)) as [b B]. destruct (T k a b A B) as [AB IFF]. exists a, b. split; [exact A|]. split; [exact B|]. split; [exact AB|].
  assert (J : forall j, a <= j < b <-> nth_error l j = Some (lo + k)).
  { intros j. rewrite IFF, nth_error_map. destruct (nth_error l j) as [x|]; cbn [option_map]; [|split; discriminate]. split; intros H; apply Some_inj in H; f_equal; lia. }
  split; [|exact J]. rewrite (LV k K) in B. apply Some_inj in B. subst b. eapply Nat.le_trans; [apply count_lt_max|]. rewrite map_length. apply le_n.
Qed.
Lemma count_between : forall l v a b, a <= b -> (forall j, a <= j < b <-> nth_error l j = Some v) -> count_occ Nat.eq_dec l v = b - a.
Proof.
  intros l v a b AB H. assert (C : count_occ Nat.eq_dec l v = count_true (map (fun x => x =? v) l)).
  { clear. induction l as [|x l IH]; [reflexivity|]. cbn [count_occ map count_true]. destruct (Nat.eq_dec x v) as [->|N]; [rewrite Nat.eqb_refl, IH; reflexivity|]. apply Nat.eqb_neq in N. rewrite N, IH. reflexivity. }
  rewrite C, <- (length_where_from _ 0). fold (where_ (map (fun x => x =? v) l)). rewrite (incr_ext (where_ (map (fun x => x =? v) l)) (seq a (b - a))).
  - apply seq_length.
  - apply incr_where.
  - clear. remember (b - a) as n eqn:E. clear E. revert a. induction n as [|n IH]; intros a; cbn; constructor; [intros x X; apply in_seq in X; lia|apply IH].
  - intros j. rewrite In_where, in_seq, nth_error_map. replace (a + (b - a)) with b by lia. rewrite H. destruct (nth_error l j) as [x|]; cbn [option_map]; [|split; discriminate].
    split; intros E; apply Some_inj in E; [apply Nat.eqb_eq in E; subst; reflexivity|subst; f_equal; apply Nat.eqb_refl].
Qed.
Lemma pyget_in : forall {A} (l : list A) z, (0 <= z < Z.of_nat (length l))%Z -> pyget l z = nth_error l (Z.to_nat z).
Proof.
  intros A l z H. unfold pyget, pyidx. destruct (Z.leb_spec 0 z); [|lia]. destruct (Z.ltb_spec z (Z.of_nat (length l))); [|lia]. reflexivity.
Qed.
Lemma pyget_below : forall {A} (l : list A) z, (- Z.of_nat (length l) <= z < 0)%Z -> pyget l z = nth_error l (Z.to_nat (z + Z.of_nat (length l))).
Proof.
  intros A l z H. unfold pyget, pyidx. destruct (Z.leb_spec 0 z); [lia|]. cbn [andb]. destruct (Z.leb_spec (- Z.of_nat (length l)) z); [|lia]. destruct (Z.ltb_spec z 0); [|lia]. reflexivity.
Qed.
(** One size. *)
Lemma size_spec : forall l first last ref lo k, tab_of l (first, last, ref) -> In lo l -> (forall v, In v l -> lo <= v) -> k < length first ->
  size_at (first, last, ref) (Z.of_nat (lo + k)) = Some (Z.of_nat (count_occ Nat.eq_dec l (lo + k))) /\
  (forall z, (z + Z.of_nat (length first) = Z.of_nat (lo + k))%Z -> size_at (first, last, ref) z = Some (Z.of_nat (count_occ Nat.eq_dec l (lo + k)))).
Proof.
  intros l first last ref lo k (lo' & -> & L & P & I0 & TOP & R & T) IL ML K. assert (lo' = lo) by (apply Nat.le_antisymm; [apply R; exact IL|apply ML; exact I0]). subst lo'.
  destruct (T k K) as (a & b & A & B & AB & BL & J). rewrite (count_between l (lo + k) a b AB J). unfold size_at. split.
  - replace (Z.of_nat (lo + k) - Z.of_nat lo)%Z with (Z.of_nat k) by lia. rewrite !pyget_in by lia. rewrite Nat2Z.id, A, B. cbn [bind]. f_equal. lia.
  - intros z Z. rewrite !pyget_below by lia. rewrite L. replace (Z.to_nat (z - Z.of_nat lo + Z.of_nat (length first))) with k by lia. rewrite A, B. cbn [bind]. f_equal. lia.
Qed.
Lemma minus_all_nth : forall b a k x y, nth_error b k = Some x -> nth_error a k = Some y -> nth_error (minus_all b a) k = Some (Z.of_nat x - Z.of_nat y)%Z.
Proof. induction b as [|p b IH]; intros [|q a] [|k] x y X Y; try discriminate; cbn in *; [injection X as ->; injection Y as ->; reflexivity|apply IH; assumption]. Qed.
Lemma minus_all_length : forall b a, length b = length a -> length (minus_all b a) = length a.
Proof. induction b as [|p b IH]; intros [|q a] L; cbn in *; [reflexivity|discriminate|discriminate|f_equal; apply IH; lia]. Qed.
Lemma sizes_spec : forall l first last ref lo, tab_of l (first, last, ref) -> In lo l -> (forall v, In v l -> lo <= v) ->
  minus_all last first = map (fun v => Z.of_nat (count_occ Nat.eq_dec l v)) (seq lo (length first)).
Proof.
  intros l first last ref lo TO IL ML. destruct TO as (lo' & -> & L & P & I0 & TOP & R & T). assert (lo' = lo) by (apply Nat.le_antisymm; [apply R; exact IL|apply ML; exact I0]). subst lo'.
  apply nth_error_ext. intros k. rewrite nth_error_map, nth_error_seq. destruct (Nat.ltb_spec k (length first)) as [K|K]; cbn [option_map].
  - destruct (T k K) as (a & b & A & B & AB & BL & J). rewrite (minus_all_nth _ _ _ _ _ B A), (count_between l (lo + k) a b AB J). f_equal. lia.
  - apply nth_error_None. rewrite minus_all_length by exact L. exact K.
Qed.
(** Labels met, counted by the sizes which are not zero. *)
Lemma filter_seq_count : forall l lo n, (forall v, In v l -> lo <= v < lo + n) ->
  count_true (map (fun z => negb (z =? 0)%Z) (map (fun v => Z.of_nat (count_occ Nat.eq_dec l v)) (seq lo n))) = length (nodup Nat.eq_dec l).
Proof.
  intros l lo n H. rewrite map_map. assert (C : forall m : list nat, count_true (map (fun x => negb (Z.of_nat (count_occ Nat.eq_dec l x) =? 0)%Z) m) = length (filter (fun x => 0 <? count_occ Nat.eq_dec l x) m)).
  { induction m as [|x m IH]; [reflexivity|]. cbn [map count_true filter]. rewrite IH. destruct (Nat.ltb_spec 0 (count_occ Nat.eq_dec l x)) as [Q|Q]; destruct (Z.eqb_spec (Z.of_nat (count_occ Nat.eq_dec l x)) 0) as [W|W]; cbn; lia. }
  rewrite C. apply Permutation_length. apply NoDup_Permutation; [apply NoDup_filter, seq_NoDup|apply NoDup_nodup|]. intros x. rewrite filter_In, in_seq, nodup_In, Nat.ltb_lt. split.
  - intros [_ Q]. apply (count_occ_In Nat.eq_dec). lia.
  - intros Q. split; [apply H; exact Q|]. apply (count_occ_In Nat.eq_dec) in Q. lia.
Qed.

(** ** Segments *)
Definition pair_dec : forall p q : nat * nat, {p = q} + {p <> q}.
Proof. decide equality; apply Nat.eq_dec. Defined.
Lemma nth_pairs : forall {A B} (l : list A) (m : list B) k p, nth_error (combine l m) k = Some p <-> nth_error l k = Some (fst p) /\ nth_error m k = Some (snd p).
Proof.
  intros A B l m k [a b]. rewrite nth_comb. cbn [fst snd]. destruct (nth_error l k) as [x|]; [|split; [discriminate|intros [Q _]; discriminate Q]]. destruct (nth_error m k) as [y|]; [|split; [discriminate|intros [_ Q]; discriminate Q]].
  split; [intros Q; apply Some_inj in Q; injection Q as -> ->; split; reflexivity|intros [Q R]; apply Some_inj in Q; apply Some_inj in R; subst; reflexivity].
Qed.
(** The pairs (network, segment) in the order of their numbers. *)
Definition before (p q : nat * nat) : Prop := fst p < fst q \/ (fst p = fst q /\ snd p < snd q).
Lemma segments_spec : forall t s, length s = length t -> t <> [] -> pairs_sorted s t ->
  exists u first last ps, build_unique_array s t = Some u /\ length u = length t /\ nsorted u /\ build_index (map Z.of_nat u) = Some (first, last, 0%Z) /\ tab_of u (first, last, 0%Z) /\
    length ps = length first /\ (forall i j p q, i < j -> nth_error ps i = Some p -> nth_error ps j = Some q -> before p q) /\
    (forall p, In p ps <-> In p (combine t s)) /\
    (forall k x, nth_error u k = Some x -> nth_error (combine t s) k = nth_error ps x) /\
    (forall k p, nth_error ps k = Some p -> exists a, nth_error first k = Some a /\ nth_error (combine t s) a = Some p).
Proof.
  intros t s LE NE PS. destruct (C43_unique_ids s t LE) as (u & EU & LU & Z0 & ST & IFF); [destruct s; [destruct t; [congruence|discriminate LE]|discriminate]|exact PS|].
  assert (AT : forall k x, nth_error u k = Some x -> exists p, nth_error (combine t s) k = Some p /\ nth_error t k = Some (fst p) /\ nth_error s k = Some (snd p)).
  { intros k x X. apply nth_error_Some_lt in X. destruct (nth_error_lt_Some t k ltac:(lia)) as [a A]. destruct (nth_error_lt_Some s k ltac:(lia)) as [b B]. exists (a, b). split; [apply nth_pairs; split; assumption|split; assumption]. }
  assert (US : nsorted u).
  { intros i j a b I A B. destruct (AT i a A) as (p & _ & P1 & P2). destruct (AT j b B) as (q & _ & Q1 & Q2). destruct (le_lt_dec a b) as [W|W]; [exact W|exfalso].
    destruct (IFF j i _ _ _ _ _ _ Q2 Q1 P2 P1 B A) as [_ X]. apply X in W. destruct (PS i j _ _ _ _ I P2 P1 Q2 Q1); lia. }
  assert (UN : u <> []) by (intros ->; discriminate Z0).
  destruct (tables_spec u UN US) as ([[first last] ref] & ET & TO). assert (R0 : ref = 0%Z).
  { destruct TO as (lo & -> & _ & _ & I0 & _ & R & _). specialize (R 0 (nth_error_In _ _ Z0)). lia. }
  subst ref. exists u, first, last. assert (TO' := TO). destruct TO as (lo & EL & L & P & I0 & TOP & R & T). assert (lo = 0) by lia. subst lo.
  assert (OCC : forall k, k < length first -> exists i, nth_error u i = Some k).
  { intros k K. apply In_nth_error in TOP as [i I]. apply (between_values u Z0 ST i _ I). lia. }
  assert (FI : forall k, k < length first -> exists a p, nth_error first k = Some a /\ nth_error u a = Some k /\ nth_error (combine t s) a = Some p).
  { intros k K. destruct (T k K) as (a & b & A & B & AB & BL & J). destruct (OCC k K) as [i I]. apply J in I. assert (UA : nth_error u a = Some k) by (apply J; lia). destruct (AT a k UA) as (p & PP & _). exists a, p. split; [exact A|]. split; assumption. }
  exists (map (fun a => nth a (combine t s) (0, 0)) first). set (ps := map _ first).
  assert (NP : forall k p, nth_error ps k = Some p -> exists a, nth_error first k = Some a /\ nth_error u a = Some k /\ nth_error (combine t s) a = Some p).
  { intros k p E. unfold ps in E. rewrite nth_error_map in E. destruct (nth_error first k) as [a|] eqn:A; [|discriminate E]. cbn in E. apply Some_inj in E. pose proof (nth_error_Some_lt _ _ _ A) as K. destruct (FI k K) as (a' & q & A' & UA & Q). rewrite A in A'. apply Some_inj in A'. subst a'.
    exists a. split; [reflexivity|]. split; [exact UA|]. rewrite (nth_error_nth _ _ (0, 0) Q) in E. subst q. exact Q. }
  assert (PK : forall k, k < length first -> exists p, nth_error ps k = Some p) by (intros k K; apply nth_error_lt_Some; unfold ps; rewrite map_length; exact K).
  assert (KU : forall k x, nth_error u k = Some x -> nth_error (combine t s) k = nth_error ps x).
  { intros k x X. pose proof (R x (nth_error_In _ _ X)) as [_ K]. destruct (PK x ltac:(lia)) as [q Q]. destruct (NP x q Q) as (a & A & UA & PA). rewrite Q. destruct (AT k x X) as (p & PP & P1 & P2). destruct (AT a x UA) as (q' & QQ & Q1 & Q2). rewrite PA in QQ. apply Some_inj in QQ. subst q'.
    destruct (IFF k a _ _ _ _ _ _ P2 P1 Q2 Q1 X UA) as [E _]. destruct (proj1 E eq_refl) as [E1 E2]. rewrite PP. destruct p, q. cbn in *. subst. reflexivity. }
  split; [exact EU|]. split; [lia|]. split; [exact US|]. split; [exact ET|]. split; [exact TO'|]. split; [unfold ps; apply map_length|]. split; [|split; [|split; [exact KU|]]].
  - intros i j p q IJ I J. destruct (NP i p I) as (a & A & UA & PA). destruct (NP j q J) as (b & B & UB & PB). apply nth_pairs in PA as [PA1 PA2]. apply nth_pairs in PB as [PB1 PB2]. destruct (IFF a b _ _ _ _ _ _ PA2 PA1 PB2 PB1 UA UB) as [_ X]. apply X in IJ. exact IJ.
  - intros p. split; intros I.
    + apply In_nth_error in I as [k K]. destruct (NP k p K) as (a & _ & _ & PA). apply nth_error_In in PA. exact PA.
    + apply In_nth_error in I as [k K]. assert (KL : k < length u) by (pose proof (nth_error_Some_lt _ _ _ K) as Q; rewrite combine_length in Q; lia). destruct (nth_error_lt_Some u k KL) as [x X]. rewrite (KU k x X) in K. apply nth_error_In in K. exact K.
  - intros k p K. destruct (NP k p K) as (a & A & _ & PA). exists a. split; assumption.
Qed.
Lemma before_nodup : forall ps, (forall i j p q, i < j -> nth_error ps i = Some p -> nth_error ps j = Some q -> before p q) -> NoDup ps.
Proof.
  intros ps H. apply NoDup_nth_error. intros i j I E. destruct (nth_error_lt_Some ps i I) as [p P]. rewrite P in E. symmetry in E. destruct (lt_eq_lt_dec i j) as [[W|W]|W]; [|exact W|]; exfalso; [specialize (H i j p p W P E)|specialize (H j i p p W E P)]; unfold before in H; lia.
Qed.
