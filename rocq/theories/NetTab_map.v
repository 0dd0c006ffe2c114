(** C105: methods mapped on the segments and the networks of a network. *)
From Coq Require Import List Arith ZArith Bool Lia.
From Verif Require Import Base Spec Generic_model Generic_proofs Corr_model NetGroup_spec NetGroup_model NetGroup_more NetGroup_props Obs_model Obs_proofs Net_model Net_links NetSeg_proofs NetTab_model NetTab_proofs NetTab_cache.
Import ListNotations.
Local Open Scope nat_scope.

(** The values of the rows which carry label [x], in the order of the rows. *)
Definition rows_of {L A} (same : L -> L -> bool) (labels : list L) (y : list A) (x : L) : list A :=
  map snd (filter (fun p => same (fst p) x) (combine labels y)).
(** How many rows before row [i] carry label [x]. *)
Definition rank_of {L} (same : L -> L -> bool) (labels : list L) (i : nat) (x : L) : nat := length (filter (fun l => same l x) (firstn i labels)).
Definition same_pair (p q : nat * nat) : bool := (fst p =? fst q) && (snd p =? snd q).

Lemma rows_slice : forall {A} (labels : list nat) (y : list A) a b x, length y = length labels -> a <= b -> (forall k, a <= k < b <-> nth_error labels k = Some x) -> rows_of Nat.eqb labels y x = slice y a b.
Proof.
  intros A labels. induction labels as [|l labels IH]; intros [|v y] a b x L AB H; try discriminate L.
  - unfold slice. rewrite skipn_nil, firstn_nil. reflexivity.
  - cbn in L. unfold rows_of. cbn [combine filter fst]. destruct (Nat.eqb_spec l x) as [E|E].
    + subst l. assert (a = 0) by (pose proof (proj2 (H 0) eq_refl); lia). subst a. assert (B : 0 < b) by (pose proof (proj2 (H 0) eq_refl); lia). destruct b as [|b]; [lia|].
      cbn [map snd]. fold (rows_of Nat.eqb labels y x). rewrite (IH y 0 b x) by (first [lia|intros k; specialize (H (S k)); cbn [nth_error] in H; rewrite <- H; lia]). unfold slice. cbn [skipn]. rewrite !Nat.sub_0_r. reflexivity.
    + fold (rows_of Nat.eqb labels y x). destruct a as [|a].
      * assert (b = 0). { destruct b as [|b]; [reflexivity|]. exfalso. apply E. pose proof (proj1 (H 0) ltac:(lia)) as Q. cbn in Q. apply Some_inj in Q. exact Q. } subst b. rewrite (IH y 0 0 x) by (first [lia|intros k; specialize (H (S k)); cbn [nth_error] in H; rewrite <- H; lia]). reflexivity.
      * destruct b as [|b]; [lia|]. rewrite (IH y a b x) by (first [lia|intros k; specialize (H (S k)); cbn [nth_error] in H; rewrite <- H; lia]). reflexivity.
Qed.
Lemma rank_slice : forall (labels : list nat) a b x i, (forall k, a <= k < b <-> nth_error labels k = Some x) -> a <= i < b -> rank_of Nat.eqb labels i x = i - a.
Proof.
  induction labels as [|l labels IH]; intros a b x i H I.
  - exfalso. pose proof (proj1 (H i) I) as Q. destruct i; discriminate Q.
  - destruct i as [|i]; [reflexivity|]. unfold rank_of. cbn [firstn filter]. fold (rank_of Nat.eqb labels i x) in *. destruct (Nat.eqb_spec l x) as [E|E].
    + subst l. assert (a = 0) by (pose proof (proj2 (H 0) eq_refl); lia). subst a. destruct b as [|b]; [lia|]. cbn [length]. fold (rank_of Nat.eqb labels i x). rewrite (IH 0 b x i) by (first [lia|intros k; specialize (H (S k)); cbn [nth_error] in H; rewrite <- H; lia]). lia.
    + destruct a as [|a]; [exfalso; apply E; pose proof (proj1 (H 0) ltac:(lia)) as Q; cbn in Q; apply Some_inj in Q; exact Q|]. destruct b as [|b]; [lia|]. fold (rank_of Nat.eqb labels i x). rewrite (IH a b x i) by (first [lia|intros k; specialize (H (S k)); cbn [nth_error] in H; rewrite <- H; lia]). lia.
Qed.
Lemma spread_length : forall {B} (r : result B) k l, spread r k = Some l -> length l = k.
Proof.
  intros B [v|l0] k l E; cbn in E; [apply Some_inj in E; subst; apply repeat_length|]. destruct (Nat.eqb_spec (length l0) k) as [Q|Q]; [apply Some_inj in E; subst; reflexivity|]. destruct l0 as [|v [|w l0]]; try discriminate E. apply Some_inj in E. subst. apply repeat_length.
Qed.
Lemma map_same_spec : forall {A B} (method : list A -> result B) (y : list A) sl out, apart sl -> (forall a b x, In (a, b, x) sl -> a < b /\ b <= length y) -> length out = length y ->
  (forall out', map_same method y sl out = Some out' -> length out' = length y /\ (forall k, (forall a b x, In (a, b, x) sl -> ~ a <= k < b) -> nth_error out' k = nth_error out k) /\
    (forall a b x, In (a, b, x) sl -> exists r, spread (method (slice y a b)) (b - a) = Some r /\ forall k, a <= k < b -> nth_error out' k = Some (nth_error r (k - a)))) /\
  ((forall a b x, In (a, b, x) sl -> spread (method (slice y a b)) (b - a) <> None) -> map_same method y sl out <> None).
Proof.
  intros A B method y sl. induction sl as [|[[a b] x] sl IH]; intros out AP BD LO.
  - split; [|discriminate]. intros out' E. cbn in E. apply Some_inj in E. subst out'. split; [exact LO|]. split; [reflexivity|]. intros a b x [].
  - destruct (BD a b x (or_introl eq_refl)) as [AB BL]. cbn [map_same].
    assert (AP' : apart sl) by (intros p q a1 b1 x1 a2 b2 x2 k N P Q; exact (AP (S p) (S q) a1 b1 x1 a2 b2 x2 k ltac:(lia) P Q)).
    assert (DIS : forall a' b' x' k, In (a', b', x') sl -> a' <= k < b' -> ~ a <= k < b).
    { intros a' b' x' k I K K'. apply In_nth_error in I as [q Q]. exact (AP 0 (S q) a b x a' b' x' k ltac:(lia) eq_refl Q K' K). }
    assert (BD' : forall a' b' x', In (a', b', x') sl -> a' < b' /\ b' <= length y) by (intros a' b' x' I; apply (BD a' b' x'); right; exact I).
    destruct (spread (method (slice y a b)) (b - a)) as [r|] eqn:ER; cbn [bind].
    + assert (LR : length (map Some r) = b - a) by (rewrite map_length; apply (spread_length _ _ _ ER)).
      assert (LP : length (put_slice out a b (map Some r)) = length y) by (rewrite put_slice_length by lia; exact LO).
      destruct (IH (put_slice out a b (map Some r)) AP' BD' LP) as [IH1 IH2]. split.
      * intros out' E. destruct (IH1 out' E) as (LO' & OUT & INS). split; [exact LO'|]. split.
        -- intros k N. rewrite OUT by (intros a' b' x' I; apply (N a' b' x'); right; exact I). rewrite put_slice_nth by lia. destruct (Nat.leb_spec a k); destruct (Nat.ltb_spec k b); cbn; try reflexivity. exfalso. apply (N a b x (or_introl eq_refl)). lia.
        -- intros a' b' x' [I|I]; [|exact (INS a' b' x' I)]. injection I as <- <- <-. exists r. split; [exact ER|]. intros k K. rewrite OUT by (intros a2 b2 x2 I2 K2; exact (DIS a2 b2 x2 k I2 K2 K)). rewrite put_slice_nth by lia. destruct (Nat.leb_spec a k); [|lia]. destruct (Nat.ltb_spec k b); [|lia]. cbn [andb]. rewrite nth_error_map. destruct (nth_error_lt_Some r (k - a)) as [v V]; [rewrite map_length in LR; lia|]. rewrite V. reflexivity.
      * intros H. apply IH2. intros a' b' x' I. apply (H a' b' x'). right. exact I.
    + split; [discriminate|]. intros H. exfalso. exact (H a b x (or_introl eq_refl) ER).
Qed.
Lemma slices_bounds : forall labels sl, slices_of labels sl -> forall a b x, In (a, b, x) sl -> a < b /\ b <= length labels.
Proof.
  intros labels sl SL a b x I. destruct (proj1 SL a b x I) as [AB J]. split; [exact AB|]. assert (X : nth_error labels (b - 1) = Some x) by (apply J; lia). apply nth_error_Some_lt in X. lia.
Qed.
Lemma group_spec : forall {A B} labels (method : list A -> result B) y, length y = length labels -> labels <> [] -> nsorted labels ->
  ((forall x, In x labels -> spread (method (rows_of Nat.eqb labels y x)) (length (rows_of Nat.eqb labels y x)) <> None) -> map_group labels method y <> None) /\
  forall out, map_group labels method y = Some out -> length out = length y /\ forall i x, nth_error labels i = Some x -> exists r,
    spread (method (rows_of Nat.eqb labels y x)) (length (rows_of Nat.eqb labels y x)) = Some r /\ nth_error out i = Some (nth_error r (rank_of Nat.eqb labels i x)).
Proof.
  intros A B labels method y L NE SO. destruct (slices_spec labels NE SO) as (sl & E & SL). unfold map_group. rewrite E. cbn [bind].
  assert (BD : forall a b x, In (a, b, x) sl -> a < b /\ b <= length y) by (rewrite L; exact (slices_bounds _ _ SL)).
  destruct (map_same_spec method y sl (repeat None (length y)) (slices_apart _ _ SL) BD (repeat_length _ _)) as [M1 M2]. destruct SL as (S1 & S2 & S3).
  assert (RS : forall a b x, In (a, b, x) sl -> rows_of Nat.eqb labels y x = slice y a b /\ length (rows_of Nat.eqb labels y x) = b - a).
  { intros a b x I. destruct (S1 a b x I) as [AB J]. rewrite (rows_slice labels y a b x L ltac:(lia) J). split; [reflexivity|]. apply slice_len. apply (BD a b x I). }
  split.
  - intros H. apply M2. intros a b x I. destruct (RS a b x I) as [R1 R2]. rewrite <- R1, <- R2. apply H. destruct (S1 a b x I) as [AB J]. apply nth_error_In with a. apply J. lia.
  - intros out EO. destruct (M1 out EO) as (LO & _ & INS). split; [exact LO|]. intros i x X. destruct (S2 i x X) as (a & b & I). destruct (RS a b x I) as [R1 R2]. destruct (INS a b x I) as (r & ER & V). exists r. rewrite R2, R1. split; [exact ER|]. destruct (S1 a b x I) as [AB J]. pose proof (proj2 (J i) X) as K. rewrite (rank_slice labels a b x i J K). apply V. exact K.
Qed.
(** With same=True, the rows of a group get what the method answers for the values of this group: one value repeated, or one value for each row in the order of the rows. *)
Theorem C105_same : forall {A B} labels (method : list A -> result B) y, length y = length labels -> labels <> [] -> nsorted labels ->
  ((forall x, In x labels -> spread (method (rows_of Nat.eqb labels y x)) (length (rows_of Nat.eqb labels y x)) <> None) -> map_group labels method y <> None) /\
  forall out, map_group labels method y = Some out -> length out = length y /\ forall i x, nth_error labels i = Some x -> exists r,
    spread (method (rows_of Nat.eqb labels y x)) (length (rows_of Nat.eqb labels y x)) = Some r /\ nth_error out i = Some (nth_error r (rank_of Nat.eqb labels i x)).
Proof. intros A B. exact group_spec. Qed.
Print Assumptions C105_same.
(** A method which answers one value (a mean): the rows of a group all get the value of the group. *)
Theorem C105_value : forall {A B} labels (value : list A -> B) y, length y = length labels -> labels <> [] -> nsorted labels ->
  map_group labels (fun l => One (value l)) y = Some (map (fun x => Some (value (rows_of Nat.eqb labels y x))) labels).
Proof.
  intros A B labels value y L NE SO. destruct (group_spec labels (fun l => One (value l)) y L NE SO) as [T V]. destruct (map_group labels (fun l => One (value l)) y) as [out|] eqn:E; [|exfalso; apply T; [discriminate|reflexivity]].
  destruct (V out eq_refl) as [LO N]. f_equal. apply nth_error_ext. intros i. rewrite nth_error_map. destruct (nth_error labels i) as [x|] eqn:X; cbn [option_map].
  - destruct (N i x X) as (r & R & O). rewrite O. cbn in R. apply Some_inj in R. subst r. f_equal. destruct (slices_spec labels NE SO) as (sl & _ & SL). destruct SL as (S1 & S2 & S3). destruct (S2 i x X) as (a & b & I). destruct (S1 a b x I) as [AB J]. pose proof (proj2 (J i) X) as K. rewrite (rank_slice labels a b x i J K). rewrite nth_error_repeat_lt. rewrite (rows_slice labels y a b x L ltac:(lia) J), slice_len.
    + destruct (Nat.ltb_spec (i - a) (b - a)); [reflexivity|lia].
    + assert (Q : nth_error labels (b - 1) = Some x) by (apply J; lia). apply nth_error_Some_lt in Q. lia.
  - apply nth_error_None. apply nth_error_None in X. lia.
Qed.
Print Assumptions C105_value.
Example C105_same_case : map_group [2; 2; 2; 5; 5] (fun l => One (fold_right Nat.add 0 l)) [1; 2; 3; 10; 20] = Some [Some 6; Some 6; Some 6; Some 30; Some 30] /\
  map_group [2; 2; 2; 5; 5] (fun l => Many (rev l)) [1; 2; 3; 10; 20] = Some [Some 3; Some 2; Some 1; Some 20; Some 10] /\
  map_group [2; 2; 2; 5; 5] (fun l => Many (skipn 1 l)) [1; 2; 3; 10; 20] = None.
Proof. repeat split. Qed.

(** With same=False, one answer for each group, by increasing label; as a dictionary, under the label. *)
Theorem C105_list : forall {A B} labels (method : list A -> result B) y, length y = length labels -> labels <> [] -> nsorted labels -> exists xs,
  (forall x, In x xs <-> In x labels) /\ (forall p q x x', p < q -> nth_error xs p = Some x -> nth_error xs q = Some x' -> x < x') /\
  map_list labels method y = Some (map (fun x => method (rows_of Nat.eqb labels y x)) xs) /\
  map_dict labels method y = Some (map (fun x => (x, method (rows_of Nat.eqb labels y x))) xs).
Proof.
  intros A B labels method y L NE SO. destruct (slices_spec labels NE SO) as (sl & E & S1 & S2 & S3). exists (map snd sl).
  assert (RS : forall a b x, In (a, b, x) sl -> rows_of Nat.eqb labels y x = slice y a b) by (intros a b x I; destruct (S1 a b x I) as [AB J]; apply rows_slice; [exact L|lia|exact J]).
  split; [|split; [|split]].
  - intros x. rewrite in_map_iff. split.
    + intros ([[a b] x'] & <- & I). destruct (S1 a b x' I) as [AB J]. cbn [snd]. apply nth_error_In with a. apply J. lia.
    + intros I. apply In_nth_error in I as [k K]. destruct (S2 k x K) as (a & b & I). exists (a, b, x). split; [reflexivity|exact I].
  - intros p q x x' PQ P Q. rewrite nth_error_map in P, Q. destruct (nth_error sl p) as [e|] eqn:EP; [|discriminate P]. destruct (nth_error sl q) as [f|] eqn:EQ; [|discriminate Q]. cbn in P, Q. apply Some_inj in P, Q. subst. exact (S3 p q e f PQ EP EQ).
  - unfold map_list. rewrite E. cbn [bind]. f_equal. clear E S2 S3. assert (S1' : forall a b x, In (a, b, x) sl -> a < b) by (intros a b x I; exact (proj1 (S1 a b x I))). clear S1. induction sl as [|[[a b] x] sl IH]; [reflexivity|]. cbn [flat_map map snd]. rewrite IH by (first [intros a' b' x' I; apply (RS a' b' x'); right; exact I|intros a' b' x' I; apply (S1' a' b' x'); right; exact I]). rewrite (RS a b x (or_introl eq_refl)). destruct (Nat.eqb_spec a b) as [Q|Q]; [pose proof (S1' a b x (or_introl eq_refl)); lia|reflexivity].
  - unfold map_dict. rewrite E. cbn [bind]. f_equal. rewrite map_map. apply map_ext_in. intros [[a b] x] I. cbn [snd]. rewrite (RS a b x I). reflexivity.
Qed.
Print Assumptions C105_list.
Example C105_list_case : map_list [2; 2; 2; 5; 5] (fun l => One (fold_right Nat.add 0 l)) [1; 2; 3; 10; 20] = Some [One 6; One 30] /\ map_dict [2; 2; 2; 5; 5] (fun l => One (fold_right Nat.add 0 l)) [1; 2; 3; 10; 20] = Some [(2, One 6); (5, One 30)].
Proof. split; reflexivity. Qed.

(** On segments the groups are the rows with the same network and the same segment. *)
Lemma rows_same : forall {L L' A} (e : L -> L -> bool) (e' : L' -> L' -> bool) l l' (y : list A) x x', length l = length l' -> (forall i a a', nth_error l i = Some a -> nth_error l' i = Some a' -> e a x = e' a' x') -> rows_of e l y x = rows_of e' l' y x' /\ forall i, rank_of e l i x = rank_of e' l' i x'.
Proof.
  intros L L' A e e' l. induction l as [|a l IH]; intros [|a' l'] y x x' LL H; try discriminate LL.
  - split; [reflexivity|]. intros i. unfold rank_of. rewrite !firstn_nil. reflexivity.
  - assert (H' : forall i b b', nth_error l i = Some b -> nth_error l' i = Some b' -> e b x = e' b' x') by (intros i; exact (H (S i))). pose proof (H 0 a a' eq_refl eq_refl) as H0. cbn in LL. split.
    + destruct y as [|v y]; [reflexivity|]. unfold rows_of. cbn [combine filter fst]. rewrite H0. destruct (IH l' y x x' ltac:(lia) H') as [R _]. unfold rows_of in R. destruct (e' a' x'); cbn [map]; rewrite R; reflexivity.
    + intros [|i]; [reflexivity|]. unfold rank_of. cbn [firstn filter]. rewrite H0. destruct (IH l' y x x' ltac:(lia) H') as [_ R]. specialize (R i). unfold rank_of in R. destruct (e' a' x'); cbn [length]; rewrite R; reflexivity.
Qed.
Theorem C105_segments : forall {A B} t s (method : list A -> result B) y, length s = length t -> length y = length t -> t <> [] -> pairs_sorted s t ->
  ((forall p, In p (combine t s) -> spread (method (rows_of same_pair (combine t s) y p)) (length (rows_of same_pair (combine t s) y p)) <> None) -> map_segment t s method y <> None) /\
  forall out, map_segment t s method y = Some out -> length out = length y /\ forall i p, nth_error (combine t s) i = Some p -> exists r,
    spread (method (rows_of same_pair (combine t s) y p)) (length (rows_of same_pair (combine t s) y p)) = Some r /\ nth_error out i = Some (nth_error r (rank_of same_pair (combine t s) i p)).
Proof.
  intros A B t s method y LS LY NE PS. destruct (C43_unique_ids s t LS ltac:(intros ->; destruct t; [congruence|discriminate LS]) PS) as (u & EU & LU & U0 & UN & UI). unfold map_segment. rewrite EU. cbn [bind].
  assert (UNE : u <> []) by (intros ->; discriminate U0).
  assert (USO : nsorted u).
  { intros i j a b I A' B'. destruct (nth_error_lt_Some s i) as [si SI]; [apply nth_error_Some_lt in A'; lia|]. destruct (nth_error_lt_Some t i) as [ti TI]; [apply nth_error_Some_lt in A'; lia|]. destruct (nth_error_lt_Some s j) as [sj SJ]; [apply nth_error_Some_lt in B'; lia|]. destruct (nth_error_lt_Some t j) as [tj TJ]; [apply nth_error_Some_lt in B'; lia|].
    destruct (UI j i sj tj si ti b a SJ TJ SI TI B' A') as [_ W]. destruct (le_lt_dec a b) as [Q|Q]; [exact Q|]. apply W in Q. pose proof (PS i j si ti sj tj I SI TI SJ TJ). lia. }
  assert (SAME : forall i x p, nth_error u i = Some x -> nth_error (combine t s) i = Some p -> rows_of Nat.eqb u y x = rows_of same_pair (combine t s) y p /\ forall k, rank_of Nat.eqb u k x = rank_of same_pair (combine t s) k p).
  { intros i x p X P. destruct p as [tp sp]. apply nth_pairs in P as [P1 P2]. apply rows_same; [rewrite combine_length; lia|]. intros k z [tz sz] Z ZP. apply nth_pairs in ZP as [Z1 Z2]. destruct (UI k i sz tz sp tp z x Z2 Z1 P2 P1 Z X) as [W _]. unfold same_pair. cbn [fst snd]. destruct (Nat.eqb_spec z x) as [Q|Q]; destruct (Nat.eqb_spec tz tp); destruct (Nat.eqb_spec sz sp); cbn; try reflexivity; exfalso; tauto. }
  destruct (group_spec u method y ltac:(lia) UNE USO) as [G1 G2]. split.
  - intros H. apply G1. intros x X. apply In_nth_error in X as [i X]. destruct (nth_error_lt_Some (combine t s) i) as [p P]; [rewrite combine_length; apply nth_error_Some_lt in X; lia|]. rewrite (proj1 (SAME i x p X P)). apply H. apply nth_error_In with i. exact P.
  - intros out E. destruct (G2 out E) as [LO N]. split; [exact LO|]. intros i p P. destruct (nth_error_lt_Some u i) as [x X]; [apply nth_error_Some_lt in P; rewrite combine_length in P; lia|]. destruct (N i x X) as (r & R & O). destruct (SAME i x p X P) as [S1 S2]. exists r. rewrite <- S1, <- (S2 i). split; assumption.
Qed.
Print Assumptions C105_segments.
Example C105_segments_case : map_segment [2; 2; 2; 5; 5] [1; 1; 3; 3; 3] (fun l => One (fold_right Nat.add 0 l)) [1; 2; 3; 10; 20] = Some [Some 3; Some 3; Some 3; Some 30; Some 30] /\ pairs_sorted [1; 1; 3; 3; 3] [2; 2; 2; 5; 5].
Proof.
  split; [reflexivity|]. intros i j a b a' b' L H1 H2 H3 H4.
  do 5 (destruct i as [|i]; [do 5 (destruct j as [|j]; [simpl in *; try lia; repeat match goal with H : Some _ = Some _ |- _ => apply Some_inj in H end; lia|]); destruct j; discriminate|]).
  destruct i; discriminate.
Qed.
