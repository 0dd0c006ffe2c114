From Coq Require Import List Arith ZArith QArith Bool Lia Lqa.
From Verif Require Import Base Qaux Generic_model Generic_proofs Corr_model Corr_proofs NetGroup_model Poly_wind Atl_model Atl_spec Atl_proofs.
Import ListNotations.
Local Close Scope Q_scope.
Local Open Scope nat_scope.

(** ** Swapping the datasets *)
Lemma filter_map_swap : forall (P : link -> bool) W, filter P (map swap W) = map swap (filter (fun l => P (swap l)) W).
Proof. intros P W. induction W as [|l W IH]; [reflexivity|]. cbn [map filter]. destruct (P (swap l)); cbn [map]; rewrite IH; reflexivity. Qed.
Lemma swap_swap : forall l : list link, map swap (map swap l) = l.
Proof. intros l. rewrite map_map. rewrite <- (map_id l) at 2. apply map_ext. intros [[a b] s]. reflexivity. Qed.
Lemma map_f1_swap : forall W : list link, map (fun l => fst (fst l)) (map swap W) = map (fun l => snd (fst l)) W.
Proof. intros W. rewrite map_map. apply map_ext. intros [[a b] s]. reflexivity. Qed.
Lemma map_f2_swap : forall W : list link, map (fun l => snd (fst l)) (map swap W) = map (fun l => fst (fst l)) W.
Proof. intros W. rewrite map_map. apply map_ext. intros [[a b] s]. reflexivity. Qed.
Lemma get_group_swap : forall n1 n2 links invalid low high g1 g2,
  get_group n1 n2 links invalid low high = Some (g1, g2) -> get_group n2 n1 (map swap links) invalid low high = Some (g2, g1).
Proof.
  intros n1 n2 links invalid low high g1 g2. rewrite !get_group_form.
  assert (EV : filter (fun l : link => Qle_bool invalid (snd l * 100)%Q) (map swap links) = map swap (filter (fun l : link => Qle_bool invalid (snd l * 100)%Q) links)) by (rewrite filter_map_swap; reflexivity).
  rewrite EV, map_f1_swap, map_f2_swap. set (V := filter _ links) in *.
  destruct (reverse_index (map (fun l => fst (fst l)) V) n1) as [no1|]; [|intros X; discriminate X]. destruct (reverse_index (map (fun l => snd (fst l)) V) n2) as [no2|]; [|intros X; discriminate X]. cbn [bind]. intros H. apply Some_inj in H. apply pair_equal_spec in H as [<- <-].
  assert (EM : forall l, P_multi (map swap links) invalid (swap l) = P_multi links invalid l).
  { intros l. unfold P_multi, o1, o2. rewrite EV, map_f1_swap, map_f2_swap. apply orb_comm. }
  assert (T1 : forall l, P_m1 (map swap links) invalid (swap l) = P_m2 links invalid l).
  { intros l. unfold P_m1, P_m2, twins_of. rewrite EV, map_f1_swap, map_f2_swap, filter_map_swap, map_f1_swap. reflexivity. }
  assert (T2 : forall l, P_m2 (map swap links) invalid (swap l) = P_m1 links invalid l).
  { intros l. unfold P_m1, P_m2, twins_of. rewrite EV, map_f1_swap, map_f2_swap, filter_map_swap, map_f2_swap. reflexivity. }
  assert (F1 : forall P P' : link -> bool, (forall l, P' (swap l) = P l) -> map (fun l => fst (fst l)) (filter P' (map swap V)) = map (fun l => snd (fst l)) (filter P V)).
  { intros P P' E. rewrite filter_map_swap, map_f1_swap. f_equal. apply filter_ext. exact E. }
  assert (F2 : forall P P' : link -> bool, (forall l, P' (swap l) = P l) -> map (fun l => snd (fst l)) (filter P' (map swap V)) = map (fun l => fst (fst l)) (filter P V)).
  { intros P P' E. rewrite filter_map_swap, map_f2_swap. f_equal. apply filter_ext. exact E. }
  assert (L : forall l, P_low (map swap links) invalid low (swap l) = P_low links invalid low l) by (intros l; unfold P_low; rewrite EM; reflexivity).
  assert (M : forall l, P_mid (map swap links) invalid low high (swap l) = P_mid links invalid low high l) by (intros l; unfold P_mid; rewrite EM; reflexivity).
  assert (G : forall l, P_high (map swap links) invalid high (swap l) = P_high links invalid high l) by (intros l; unfold P_high; rewrite EM; reflexivity).
  assert (X : forall l, P_complex (map swap links) invalid (swap l) = P_complex links invalid l) by (intros l; unfold P_complex; rewrite EM, T1, T2; f_equal; apply andb_comm).
  f_equal. apply pair_equal_spec. split; unfold the_group; rewrite EV; f_equal.
  - exact (F1 _ _ L).
  - exact (F1 _ _ M).
  - exact (F1 _ _ G).
  - f_equal. exact (F1 _ _ EM).
  - f_equal. exact (F1 _ _ T1).
  - exact (F1 _ _ T2).
  - f_equal. exact (F1 _ _ X).
  - exact (F2 _ _ L).
  - exact (F2 _ _ M).
  - exact (F2 _ _ G).
  - f_equal. exact (F2 _ _ EM).
  - f_equal. exact (F2 _ _ T2).
  - exact (F2 _ _ T1).
  - f_equal. exact (F2 _ _ X).
Qed.

Theorem groups_spec : forall n1 n2 links invalid low high,
  (forall a b s, In (a, b, s) links -> a < n1 /\ b < n2) ->
  exists g1 g2, get_group n1 n2 links invalid low high = Some (g1, g2) /\
    families links invalid n1 low high g1 /\ families (map swap links) invalid n2 low high g2.
Proof.
  assert (ONE : forall n1 n2 links invalid low high, (forall a b s, In (a, b, s) links -> a < n1 /\ b < n2) ->
    exists g1 g2, get_group n1 n2 links invalid low high = Some (g1, g2) /\ families links invalid n1 low high g1).
  { intros n1 n2 links invalid low high B. rewrite get_group_form.
    assert (B1 : forall i, In i (map (fun l : link => fst (fst l)) (filter (fun l : link => Qle_bool invalid (snd l * 100)%Q) links)) -> i < n1).
    { intros i I. apply in_map_iff in I as ([[a b] s] & <- & I). apply filter_In in I as [I _]. apply (B a b s I). }
    assert (B2 : forall i, In i (map (fun l : link => snd (fst l)) (filter (fun l : link => Qle_bool invalid (snd l * 100)%Q) links)) -> i < n2).
    { intros i I. apply in_map_iff in I as ([[a b] s] & <- & I). apply filter_In in I as [I _]. apply (B a b s I). }
    destruct (reverse_index_spec _ _ B1) as (r1 & E1 & _). destruct (reverse_index_spec _ _ B2) as (r2 & E2 & _). rewrite E1, E2. cbn [bind].
    eexists. eexists. split; [reflexivity|]. apply side_one; assumption. }
  intros n1 n2 links invalid low high B. destruct (ONE n1 n2 links invalid low high B) as (g1 & g2 & E & F1). exists g1, g2. split; [exact E|]. split; [exact F1|].
  apply get_group_swap in E. destruct (ONE n2 n1 (map swap links) invalid low high) as (h1 & h2 & E' & F2).
  { intros a b s I. apply in_map_iff in I as ([[a' b'] s'] & X & I). unfold swap in X. cbn [fst snd] in X. injection X as <- <- <-. destruct (B _ _ _ I). split; assumption. }
  rewrite E in E'. apply Some_inj in E'. apply pair_equal_spec in E' as [-> ->]. exact F2.
Qed.

(** ** Each eddy is in one family *)
Lemma deg_kept : forall links invalid a, 1 <= degree links invalid a <-> exists b s, kept links invalid (a, b, s).
Proof.
  intros links invalid a. rewrite degree_1, occ_pos. rewrite in_map_iff. split.
  - intros ([[a' b] s] & E & I). cbn [fst] in E. subst a'. exists b, s. apply kept_In. exact I.
  - intros (b & s & K). exists (a, b, s). split; [reflexivity|]. apply kept_In. exact K.
Qed.
Lemma kept_unique : forall links invalid a b s b' s', degree links invalid a = 1 -> kept links invalid (a, b, s) -> kept links invalid (a, b', s') -> b' = b /\ s' = s.
Proof.
  intros links invalid a b s b' s' D K K'. rewrite degree_1 in D. apply kept_In in K. apply kept_In in K'. set (W := filter _ _) in *. clearbody W. induction W as [|l W IH]; [destruct K|]. cbn [map occurrences] in D. destruct K as [->|K], K' as [E|K'].
  - injection E as <- <-. split; reflexivity.
  - cbn [fst] in D. rewrite Nat.eqb_refl in D. assert (1 <= occurrences a (map (fun l : link => fst (fst l)) W)) by (apply occ_pos; exact (in_map (fun l : link => fst (fst l)) _ _ K')). lia.
  - subst l. cbn [fst] in D. rewrite Nat.eqb_refl in D. assert (1 <= occurrences a (map (fun l : link => fst (fst l)) W)) by (apply occ_pos; exact (in_map (fun l : link => fst (fst l)) _ _ K)). lia.
  - assert (1 <= occurrences a (map (fun l : link => fst (fst l)) W)) by (apply occ_pos; exact (in_map (fun l : link => fst (fst l)) _ _ K)). apply IH; [lia|exact K|exact K'].
Qed.
Lemma one_of_seven : forall (g : groups) a (k : nat) f, nth_error seven k = Some f -> In a (f g) -> (forall k' f', nth_error seven k' = Some f' -> k' <> k -> ~ In a (f' g)) -> in_one g a.
Proof. intros g a k f E I H. exists k, f. split; [exact E|]. split; [exact I|]. intros k' f' E' I'. destruct (Nat.eq_dec k' k) as [|D]; [assumption|]. exfalso. exact (H k' f' E' D I'). Qed.
Ltac seven_cases := intros k' f' E' D'; destruct k' as [|[|[|[|[|[|[|k']]]]]]]; cbn in E'; try (apply Some_inj in E'; subst f'); [..|destruct k'; discriminate E']; try (exfalso; apply D'; reflexivity).
Theorem partition : forall links invalid n low high g, (low <= high)%Q -> families links invalid n low high g ->
  forall a, a < n -> in_one g a.
Proof.
  intros links invalid n low high g LH (_ & F) a B. destruct (F a) as (F0 & F1 & F2 & F3 & F4 & F5 & F6 & F7). unfold alone, is_parent, is_twin, is_multi in *.
  set (d1 := degree links invalid) in *. set (d2 := degree (map swap links) invalid) in *.
  destruct (Nat.eq_dec (d1 a) 0) as [Z|Z].
  - apply (one_of_seven g a 0 nomatch eq_refl); [apply F0; split; assumption|].
    seven_cases.
    + rewrite F1. intros (b & s & (_ & X & _) & _). lia.
    + rewrite F2. intros (b & s & (_ & X & _) & _). lia.
    + rewrite F3. intros (b & s & (_ & X & _) & _). lia.
    + rewrite F5. intros (X & _). lia.
    + rewrite F6. intros (b & s & _ & X & _). lia.
    + rewrite F7. intros ((b & s & K & _) & _). assert (1 <= degree links invalid a) by (apply deg_kept; exists b, s; exact K). fold d1 in H. lia.
  - assert (N0 : ~ In a (nomatch g)) by (rewrite F0; intros [_ X]; contradiction).
    destruct (proj1 (deg_kept links invalid a)) as (b & s & K); [fold d1; lia|].
    destruct (Nat.eq_dec (d1 a) 1) as [O|O].
    + assert (U : forall b' s', kept links invalid (a, b', s') -> b' = b /\ s' = s) by (intros b' s' K'; exact (kept_unique links invalid a b s b' s' O K K')).
      assert (N5 : ~ In a (parent g)) by (rewrite F5; intros [X _]; lia).
      assert (D2 : 1 <= d2 b). { apply deg_kept. exists a, s. destruct K as [K1 K2]. split; [apply in_map_iff; exists (a, b, s); split; [reflexivity|exact K1]|exact K2]. }
      assert (G1 : In a (g_low g) <-> d2 b = 1 /\ (s * 100 < low)%Q). { rewrite F1. split; [intros (b' & s' & (K' & _ & X) & Y); destruct (U _ _ K') as [-> ->]; split; assumption|intros [X Y]; exists b, s; split; [split; [exact K|split; assumption]|exact Y]]. }
      assert (G2 : In a (g_intermediate g) <-> d2 b = 1 /\ (low <= s * 100 < high)%Q). { rewrite F2. split; [intros (b' & s' & (K' & _ & X) & Y); destruct (U _ _ K') as [-> ->]; split; assumption|intros [X Y]; exists b, s; split; [split; [exact K|split; assumption]|exact Y]]. }
      assert (G3 : In a (g_high g) <-> d2 b = 1 /\ (high <= s * 100)%Q). { rewrite F3. split; [intros (b' & s' & (K' & _ & X) & Y); destruct (U _ _ K') as [-> ->]; split; assumption|intros [X Y]; exists b, s; split; [split; [exact K|split; assumption]|exact Y]]. }
      assert (G6 : In a (twin g) -> d2 b = 2). { rewrite F6. intros (b' & s' & K' & _ & X & _). destruct (U _ _ K') as [-> ->]. exact X. }
      assert (G7 : In a (complex g) -> 2 <= d2 b). { rewrite F7. intros ((b' & s' & K' & X) & _). destruct (U _ _ K') as [-> ->]. lia. }
      assert (G67 : In a (twin g) -> In a (complex g) -> False). { rewrite F6, F7. intros X (_ & _ & Y). contradiction. }
      destruct (Nat.eq_dec (d2 b) 1) as [D1|D1].
      * assert (N6 : ~ In a (twin g)) by (intros X; apply G6 in X; lia). assert (N7 : ~ In a (complex g)) by (intros X; apply G7 in X; lia).
        destruct (Qlt_le_dec (s * 100) low) as [L|L]; [|destruct (Qlt_le_dec (s * 100) high) as [L2|L2]].
        -- apply (one_of_seven g a 1 g_low eq_refl); [apply G1; split; assumption|]. seven_cases; try assumption; [rewrite G2|rewrite G3]; intros [_ X]; lra.
        -- apply (one_of_seven g a 2 g_intermediate eq_refl); [apply G2; split; [assumption|split; assumption]|]. seven_cases; try assumption; [rewrite G1|rewrite G3]; intros [_ X]; lra.
        -- apply (one_of_seven g a 3 g_high eq_refl); [apply G3; split; assumption|]. seven_cases; try assumption; [rewrite G1|rewrite G2]; intros [_ X]; lra.
      * assert (N1 : ~ In a (g_low g)) by (rewrite G1; intros [X _]; contradiction). assert (N2 : ~ In a (g_intermediate g)) by (rewrite G2; intros [X _]; contradiction). assert (N3 : ~ In a (g_high g)) by (rewrite G3; intros [X _]; contradiction).
        destruct (in_dec Nat.eq_dec a (twin g)) as [T|T].
        -- apply (one_of_seven g a 5 twin eq_refl); [exact T|]. seven_cases; try assumption. intros X. exact (G67 T X).
        -- apply (one_of_seven g a 6 complex eq_refl); [|seven_cases; assumption]. apply F7. split; [exists b, s; split; [exact K|right; lia]|]. split; [intros X; apply N5, F5; exact X|intros X; apply T, F6; exact X].
    + assert (N1 : ~ In a (g_low g)) by (rewrite F1; intros (b' & s' & (_ & X & _) & _); lia).
      assert (N2 : ~ In a (g_intermediate g)) by (rewrite F2; intros (b' & s' & (_ & X & _) & _); lia).
      assert (N3 : ~ In a (g_high g)) by (rewrite F3; intros (b' & s' & (_ & X & _) & _); lia).
      assert (N6 : ~ In a (twin g)) by (rewrite F6; intros (b' & s' & _ & X & _); lia).
      destruct (in_dec Nat.eq_dec a (parent g)) as [T|T].
      * apply (one_of_seven g a 4 parent eq_refl); [exact T|]. seven_cases; try assumption. rewrite F7. intros (_ & X & _). apply X, F5. exact T.
      * apply (one_of_seven g a 6 complex eq_refl); [|seven_cases; assumption]. apply F7. split; [exists b, s; split; [exact K|left; lia]|]. split; [intros X; apply T, F5; exact X|intros X; apply N6, F6; exact X].
Qed.
(** The eddies with several matches are the parents, the twins and the complex ones. *)
Theorem multi_cases : forall links invalid n low high g, families links invalid n low high g ->
  forall a, In a (multi_match g) <-> In a (parent g) \/ In a (twin g) \/ In a (complex g).
Proof.
  intros links invalid n low high g (_ & F) a. destruct (F a) as (_ & _ & _ & _ & F4 & F5 & F6 & F7). rewrite F4. split.
  - intros M. destruct (in_dec Nat.eq_dec a (parent g)) as [T|T]; [left; exact T|]. destruct (in_dec Nat.eq_dec a (twin g)) as [T2|T2]; [right; left; exact T2|]. right. right. apply F7. split; [exact M|]. rewrite <- F5, <- F6. split; assumption.
  - intros [X|[X|X]].
    + apply F5 in X as [X Y]. destruct (proj1 (deg_kept links invalid a)) as (b & s & K); [lia|]. exists b, s. split; [exact K|]. left. lia.
    + apply F6 in X as (b & s & K & X & Y & _). exists b, s. split; [exact K|]. right. lia.
    + apply F7 in X as [X _]. exact X.
Qed.
(** Rows of the same rank of the families of both sides are the two ends of a link. *)
Theorem pairs : forall n1 n2 links invalid low high g1 g2, get_group n1 n2 links invalid low high = Some (g1, g2) ->
  forall f, In f [g_low; g_intermediate; g_high] ->
  length (f g1) = length (f g2) /\
  forall i a b, nth_error (f g1) i = Some a -> nth_error (f g2) i = Some b -> exists s, alone links invalid a b s.
Proof.
  intros n1 n2 links invalid low high g1 g2. rewrite get_group_form. set (V := filter _ links).
  destruct (reverse_index (map (fun l => fst (fst l)) V) n1) as [no1|]; [|intros X; discriminate X]. destruct (reverse_index (map (fun l => snd (fst l)) V) n2) as [no2|]; [|intros X; discriminate X]. cbn [bind]. intros H. apply Some_inj in H. apply pair_equal_spec in H as [<- <-].
  assert (G : forall P : link -> bool, (forall l, P l = true -> negb (P_multi links invalid l) = true) ->
    length (map (fun l : link => fst (fst l)) (filter P V)) = length (map (fun l : link => snd (fst l)) (filter P V)) /\
    forall i a b, nth_error (map (fun l : link => fst (fst l)) (filter P V)) i = Some a -> nth_error (map (fun l : link => snd (fst l)) (filter P V)) i = Some b -> exists s, alone links invalid a b s).
  { intros P HP. split; [rewrite !map_length; reflexivity|]. intros i a b. rewrite !nth_error_map. destruct (nth_error (filter P V) i) as [[[a' b'] s]|] eqn:E; [|intros X; discriminate X]. cbn [option_map fst snd]. intros X Y. apply Some_inj in X. apply Some_inj in Y. subst a' b'.
    apply nth_error_In in E. apply filter_In in E as [I E]. exists s. apply HP in E. apply (multi_false links invalid _ I) in E as [A1 A2]. unfold alone. rewrite degree_1, degree_2. split; [apply kept_In; exact I|]. split; [exact A1|exact A2]. }
  intros f [<-|[<-|[<-|[]]]]; cbn [the_group g_low g_intermediate g_high]; apply G; intros l X; unfold P_low, P_mid, P_high in X; apply andb_true_iff in X; apply X.
Qed.
