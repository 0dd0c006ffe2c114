(** Properties C36, C43 and C44: groups of observations, their reordering and
    the identifiers of segments. *)
From Coq Require Import List Arith Lia Bool Permutation Sorted.
From Verif Require Import Base Graph_spec NetGroup_spec NetGroup_model NetGroup_proofs NetGroup_more.
Import ListNotations.

(** ** C36: groups are the connected components of the interactions *)
Theorem C36_groups_are_components : forall nb_obs results, valid_results nb_obs results ->
  exists g, get_group_array results nb_obs = Some g /\ length g = sum_list nb_obs /\
    (forall a ga, nth_error g a = Some ga ->
       (ga = 0 <-> forall b, ~ joined (interactions nb_obs results) a b)) /\
    (forall a b ga gb, nth_error g a = Some ga -> nth_error g b = Some gb -> ga <> 0 ->
       (ga = gb <-> chain (interactions nb_obs results) a b)).
Proof.
  intros nb_obs results H. destruct (group_array_spec nb_obs results H) as (g & E & L & A & B).
  exists g. split; [exact E|]. split; [exact L|]. split.
  - intros a ga Ha. rewrite <- (V_some _ _ _ Ha). apply A. eapply nth_error_Some_lt; eauto.
  - intros a b ga gb Ha Hb. rewrite <- (V_some _ _ _ Ha), <- (V_some _ _ _ Hb).
    apply B; eapply nth_error_Some_lt; eauto.
Qed.
Print Assumptions C36_groups_are_components.
(** Four dates of two observations; a chain joins observations 0, 2, 4 and 7
    although the groups were first numbered apart; 1-3 and 6 are alone. *)
Example C36_example :
  valid_results [2; 2; 2; 2] [(0, 1, [0], [0]); (2, 3, [0], [1]); (1, 2, [0], [0]); (0, 1, [1], [1])] /\
  get_group_array [(0, 1, [0], [0]); (2, 3, [0], [1]); (1, 2, [0], [0]); (0, 1, [1], [1])] [2; 2; 2; 2]
    = Some [2; 3; 2; 3; 2; 0; 0; 2].
Proof.
  split; [|reflexivity]. intros i j ii ij H. simpl in H.
  repeat (destruct H as [H|H]; [injection H as <- <- <- <-; split; [reflexivity|];
    split; exists 2; (split; [reflexivity|]); intros k [<-|[]]; lia|]). destruct H.
Qed.

Lemma combine_map2 : forall (f g : nat -> nat) (a b : list nat),
  combine (map f a) (map g b) = map (fun p => (f (fst p), g (snd p))) (combine a b).
Proof. induction a as [|x a IH]; intros [|y b]; simpl; auto. f_equal. auto. Qed.

(** The whole call: two observations interact when the comparison of their
    dates, at most [window] apart, says so. *)
Theorem C36_group_observations : forall window nb_obs overlap E,
  (forall i j ni nj, i < j -> j <= i + window -> nth_error nb_obs i = Some ni -> nth_error nb_obs j = Some nj ->
     length (fst (overlap i j)) = length (snd (overlap i j)) /\
     (forall k, In k (fst (overlap i j)) -> k < ni) /\ (forall k, In k (snd (overlap i j)) -> k < nj)) ->
  (forall a b, In (a, b) E <-> exists i j k l, i < j /\ j <= i + window /\ j < length nb_obs /\
     In (k, l) (combine (fst (overlap i j)) (snd (overlap i j))) /\
     a = sum_list (firstn i nb_obs) + k /\ b = sum_list (firstn j nb_obs) + l) ->
  exists g, group_observations window nb_obs overlap = Some g /\ length g = sum_list nb_obs /\
    (forall a ga, nth_error g a = Some ga -> (ga = 0 <-> forall b, ~ joined E a b)) /\
    (forall a b ga gb, nth_error g a = Some ga -> nth_error g b = Some gb -> ga <> 0 ->
       (ga = gb <-> chain E a b)).
Proof.
  intros window nb_obs overlap E HO HE. unfold group_observations.
  set (R := flat_map _ _).
  assert (IR : forall i j ii ij, In (i, j, ii, ij) R <->
     i < j /\ j <= i + window /\ j < length nb_obs /\ ii = fst (overlap i j) /\ ij = snd (overlap i j)).
  { intros i j ii ij. unfold R. rewrite in_flat_map. split.
    - intros (i' & Hi & H). apply in_map_iff in H as (j' & H & Hj). injection H as <- <- <- <-.
      apply in_seq in Hi, Hj. repeat split; lia.
    - intros (H1 & H2 & H3 & -> & ->). exists i. split; [apply in_seq; lia|]. apply in_map_iff. exists j.
      split; [reflexivity|]. apply in_seq. lia. }
  assert (VR : valid_results nb_obs R).
  { intros i j ii ij H. apply IR in H as (H1 & H2 & H3 & -> & ->).
    destruct (nth_error_lt_Some nb_obs i) as [ni Ni]; [lia|]. destruct (nth_error_lt_Some nb_obs j) as [nj Nj]; [lia|].
    destruct (HO i j ni nj H1 H2 Ni Nj) as (A & B & C). eauto 10. }
  assert (SAME : forall x, In x (interactions nb_obs R) <-> In x E).
  { intros [a b]. rewrite HE. unfold interactions. rewrite in_flat_map. split.
    - intros ([[[i j] ii] ij] & H & HC). apply IR in H as (H1 & H2 & H3 & -> & ->).
      rewrite combine_map2 in HC. apply in_map_iff in HC as ([k l] & HC & HI). injection HC as <- <-.
      exists i, j, k, l. auto 10.
    - intros (i & j & k & l & H1 & H2 & H3 & HI & -> & ->).
      exists (i, j, fst (overlap i j), snd (overlap i j)). split; [apply IR; auto|].
      rewrite combine_map2. apply in_map_iff. exists (k, l). auto. }
  destruct (C36_groups_are_components nb_obs R VR) as (g & G & L & A & B).
  exists g. split; [exact G|]. split; [exact L|]. split.
  - intros a ga Ha. rewrite (A a ga Ha). unfold joined. split; intros H b; specialize (H b); rewrite !SAME in *; auto.
  - intros a b ga gb Ha Hb N. rewrite (B a b ga gb Ha Hb N). apply chain_same. exact SAME.
Qed.
Print Assumptions C36_group_observations.
(** Three dates of two observations, window 2. *)
Definition C36_overlap (i j : nat) : list nat * list nat :=
  match i, j with 0, 1 => ([0], [1]) | 0, 2 => ([1], [0]) | _, _ => ([], []) end.
Example C36_group_observations_example :
  group_observations 2 [2; 2; 2] C36_overlap = Some [1; 2; 0; 1; 2; 0] /\
  group_observations 1 [2; 2; 2] C36_overlap = Some [1; 0; 0; 1; 0; 0].
Proof. split; reflexivity. Qed.

Definition lex (a b : nat * nat) : Prop := fst a < fst b \/ (fst a = fst b /\ snd a < snd b).
Lemma pair_lt_iff : forall a b, pair_lt a b = true <-> lex a b.
Proof. intros. unfold pair_lt, lex. rewrite orb_true_iff, andb_true_iff, !Nat.ltb_lt, Nat.eqb_eq. tauto. Qed.
Lemma psort_sorted : forall l, StronglySorted lex (psort l).
Proof.
  assert (P : forall p l, StronglySorted lex l -> StronglySorted lex (pinsert p l)).
  { induction 1 as [|a l SL IH FA]; cbn [pinsert]; [repeat constructor|].
    destruct (pair_lt p a) eqn:E.
    - apply pair_lt_iff in E. constructor; [constructor; assumption|]. constructor; [exact E|].
      rewrite Forall_forall in *. intros x Hx. specialize (FA x Hx). unfold lex in *. lia.
    - destruct (pair_eq p a) eqn:E2; [constructor; assumption|]. constructor; [exact IH|].
      rewrite Forall_forall in *. intros x Hx. apply In_pinsert in Hx. destruct Hx as [->|Hx]; [|apply FA; exact Hx].
      assert (~ lex p a) as N by (intros X; apply pair_lt_iff in X; congruence).
      assert (~ (fst p = fst a /\ snd p = snd a)) as N2 by (intros [X1 X2]; unfold pair_eq in E2; rewrite X1, X2, !Nat.eqb_refl in E2; discriminate).
      unfold lex in *. lia. }
  induction l as [|a l IH]; cbn; [constructor|]. apply P. exact IH.
Qed.
Lemma sorted_same : forall l l', StronglySorted lex l -> StronglySorted lex l' -> (forall p, In p l <-> In p l') -> l = l'.
Proof.
  induction l as [|a l IH]; intros [|b l'] A B E.
  - reflexivity.
  - exfalso. apply (E b). left. reflexivity.
  - exfalso. apply (E a). left. reflexivity.
  - inversion_clear A as [|? ? A1 A2]. inversion_clear B as [|? ? B1 B2]. rewrite Forall_forall in A2, B2.
    assert (a = b) as ->.
    { destruct (proj1 (E a) (or_introl eq_refl)) as [X|X]; [auto|]. destruct (proj2 (E b) (or_introl eq_refl)) as [Y|Y]; [auto|].
      apply A2 in Y. apply B2 in X. unfold lex in *. lia. }
    f_equal. apply IH; [assumption|assumption|]. intros p. split; intros I.
    + destruct (proj1 (E p) (or_intror I)) as [<-|J]; [|exact J]. exfalso. apply A2 in I. unfold lex in I. lia.
    + destruct (proj2 (E p) (or_intror I)) as [<-|J]; [|exact J]. exfalso. apply B2 in I. unfold lex in I. lia.
Qed.
(** The numbers given to the groups depend neither on the order in which the
    couples of groups to join are met nor on their repetitions. *)
Theorem C36_translator_order : forall nb duos duos', (forall p, In p duos <-> In p duos') -> group_translator nb duos = group_translator nb duos'.
Proof.
  intros nb duos duos' E. unfold group_translator. f_equal. apply sorted_same; [apply psort_sorted|apply psort_sorted|]. intros p. rewrite !In_psort. apply E.
Qed.
Print Assumptions C36_translator_order.
Example C36_translator_case : group_translator 5 [(0, 1); (0, 2); (1, 3)] = Some [3; 3; 3; 3; 4] /\ group_translator 5 [(1, 3); (0, 2); (0, 1); (0, 2)] = Some [3; 3; 3; 3; 4].
Proof. split; reflexivity. Qed.

(** ** C44: reordering by group *)
Theorem C44_next_index_stable_sort : forall gr,
  exists r, get_next_index gr = Some r /\ Permutation r (seq 0 (length gr)) /\
    (forall a b ga gb pa pb, nth_error gr a = Some ga -> nth_error gr b = Some gb ->
       nth_error r a = Some pa -> nth_error r b = Some pb ->
       (pa < pb <-> ga < gb \/ (ga = gb /\ a < b))).
Proof.
  intros gr. destruct (next_index_value gr) as (r & E & L & _). exists r. split; [exact E|].
  destruct (next_index_order gr r E) as (_ & B & O). split; [|exact O].
  apply NoDup_Permutation_bis.
  - eapply next_index_nodup; eauto.
  - rewrite seq_length. lia.
  - intros p H. apply In_nth_error in H as [k Hk]. apply in_seq. apply B in Hk. lia.
Qed.
Print Assumptions C44_next_index_stable_sort.
Example C44_example : get_next_index [2; 0; 2; 1; 0] = Some [3; 0; 4; 2; 1].
Proof. reflexivity. Qed.

(** Each row of the files is found, with its group, at its new position: the
    dataset built holds the rows of the files, sorted by group, and rows of the
    same group keep the order of the files. *)
Theorem C44_build_dataset : forall (A : Type) (blank : A) files group,
  length (concat files) = length group ->
  exists rows track new_i, build_dataset blank files group = Some (rows, track) /\
    length rows = length group /\ length track = length group /\
    Permutation new_i (seq 0 (length group)) /\
    (forall k v g p, nth_error (concat files) k = Some v -> nth_error group k = Some g -> nth_error new_i k = Some p ->
       nth_error rows p = Some v /\ nth_error track p = Some g) /\
    (forall p q x y, p < q -> nth_error track p = Some x -> nth_error track q = Some y -> x <= y) /\
    (forall a b g pa pb, a < b -> nth_error group a = Some g -> nth_error group b = Some g ->
       nth_error new_i a = Some pa -> nth_error new_i b = Some pb -> pa < pb).
Proof.
  intros A blank files group L.
  destruct (build_dataset_spec blank files group L) as (rows & track & new_i & E & N & LR & LT & S).
  destruct (C44_next_index_stable_sort group) as (r & E' & P & O). rewrite N in E'. apply Some_inj in E'. subst r.
  exists rows, track, new_i. split; [exact E|]. split; [exact LR|]. split; [exact LT|]. split; [exact P|].
  split; [exact S|].
  assert (LN : length new_i = length group).
  { apply Permutation_length in P. rewrite seq_length in P. auto. }
  assert (INV : forall p x, nth_error track p = Some x -> exists k, nth_error new_i k = Some p /\ nth_error group k = Some x).
  { intros p x Hp. pose proof (nth_error_Some_lt _ _ _ Hp) as Lp. rewrite LT in Lp.
    assert (In p new_i). { apply (Permutation_in p (Permutation_sym P)). apply in_seq. lia. }
    apply In_nth_error in H as [k Hk]. exists k. split; [exact Hk|].
    pose proof (nth_error_Some_lt _ _ _ Hk) as Lk. rewrite LN in Lk.
    destruct (nth_error_lt_Some group k Lk) as [g Hg].
    destruct (nth_error_lt_Some (concat files) k) as [v Hv]; [lia|].
    destruct (S k v g p Hv Hg Hk) as [_ T]. congruence. }
  split.
  - intros p q x y PQ Hp Hq. apply INV in Hp as (a & A1 & A2). apply INV in Hq as (b & B1 & B2).
    pose proof (proj1 (O a b x y p q A2 B2 A1 B1) PQ). lia.
  - intros a b g pa pb AB Ga Gb Pa Pb. apply (O a b g g pa pb); auto.
Qed.
Print Assumptions C44_build_dataset.
Example C44_build_example :
  build_dataset 9 [[10; 11]; [12]; [13; 14]] [2; 0; 2; 1; 0] = Some ([11; 14; 13; 10; 12], [0; 0; 1; 2; 2]).
Proof. reflexivity. Qed.

(** ** C43: identifiers *)
Theorem C43_unique_ids : forall id1 id2, length id1 = length id2 -> id1 <> [] -> pairs_sorted id1 id2 ->
  exists u, build_unique_array id1 id2 = Some u /\ length u = length id1 /\ nth_error u 0 = Some 0 /\
    (forall i x y, nth_error u i = Some x -> nth_error u (S i) = Some y -> y = x \/ y = S x) /\
    (forall i j a b a' b' x y, nth_error id1 i = Some a -> nth_error id2 i = Some b ->
       nth_error id1 j = Some a' -> nth_error id2 j = Some b' ->
       nth_error u i = Some x -> nth_error u j = Some y ->
       ((x = y <-> a = a' /\ b = b') /\ (x < y <-> b < b' \/ (b = b' /\ a < a')))).
Proof. exact unique_spec. Qed.
Print Assumptions C43_unique_ids.
Example C43_example :
  build_unique_array [1; 1; 4; 2; 2; 7] [0; 0; 0; 3; 3; 3] = Some [0; 0; 1; 2; 2; 3] /\
  pairs_sorted [1; 1; 4; 2; 2; 7] [0; 0; 0; 3; 3; 3].
Proof.
  split; [reflexivity|]. intros i j a b a' b' L H1 H2 H3 H4.
  do 6 (destruct i as [|i]; [do 6 (destruct j as [|j]; [simpl in *; try lia; repeat match goal with H : Some _ = Some _ |- _ => apply Some_inj in H end; lia|]); destruct j; discriminate|]).
  destruct i; discriminate.
Qed.

Theorem C43_new_numbering : forall segs start, segs <> [] ->
  (forall i j a b, i < j -> nth_error segs i = Some a -> nth_error segs j = Some b -> a <= b) ->
  exists u, new_numbering segs start = Some u /\ length u = length segs /\ nth_error u 0 = Some start /\
    (forall i x y, nth_error u i = Some x -> nth_error u (S i) = Some y -> y = x \/ y = S x) /\
    (forall i j a b x y, nth_error segs i = Some a -> nth_error segs j = Some b ->
       nth_error u i = Some x -> nth_error u j = Some y ->
       ((x = y <-> a = b) /\ (x < y <-> a < b))).
Proof. exact numbering_spec. Qed.
Print Assumptions C43_new_numbering.
Example C43_numbering_example : new_numbering [3; 3; 5; 9; 9] 1 = Some [1; 1; 2; 3; 3].
Proof. reflexivity. Qed.

(** Without sorted rows two rows of the same segment get two identifiers, and
    an empty dataset is refused. *)
Theorem C43_unsorted_refuted :
  build_unique_array [1; 2; 1] [0; 0; 0] = Some [0; 1; 2] /\ build_unique_array [] [] = None.
Proof. split; reflexivity. Qed.
Print Assumptions C43_unsorted_refuted.
