From Coq Require Import List Arith ZArith QArith Bool Lia Lqa.
From Verif Require Import Base Qaux Generic_model Generic_proofs Corr_model Corr_proofs NetGroup_model Poly_wind Grid_path Atl_model Atl_spec.
Import ListNotations.
Local Close Scope Q_scope.
Local Open Scope nat_scope.

(** ** Occurrences and masks *)
Notation f1 := (fun l : link => fst (fst l)).
Notation f2 := (fun l : link => snd (fst l)).
Lemma occ_filter : forall {A} (f : A -> nat) a V, occurrences a (map f V) = length (filter (fun l => f l =? a) V).
Proof. intros A f a V. induction V as [|l V IH]; [reflexivity|]. cbn [map occurrences filter]. rewrite IH. destruct (f l =? a); reflexivity. Qed.
Lemma occ_pos : forall a l, 1 <= occurrences a l <-> In a l.
Proof.
  intros a l. induction l as [|b l IH]; cbn [occurrences In]; [split; [lia|intros []]|]. destruct (Nat.eqb_spec b a) as [->|D]; split; intros H; try lia; auto.
  - right. apply IH. lia.
  - destruct H as [H|H]; [contradiction|]. apply IH in H. lia.
Qed.
Lemma occ_zero : forall a l, occurrences a l = 0 <-> ~ In a l.
Proof. intros. pose proof (occ_pos a l). split; intros H1; [intros I; apply H in I; lia|]. destruct (occurrences a l); [reflexivity|]. exfalso. apply H1, H. lia. Qed.
Lemma bincount_nth : forall l x, In x l -> nth_error (bincount l) x = Some (occurrences x l).
Proof.
  intros l x I. destruct l as [|a l]; [destruct I|]. unfold bincount. rewrite nth_error_map.
  assert (L : x <= list_max (a :: l)). { pose proof (proj1 (list_max_le (a :: l) (list_max (a :: l))) (le_n _)) as F. rewrite Forall_forall in F. apply F. exact I. }
  rewrite nth_error_seq. destruct (Nat.ltb_spec x (S (list_max (a :: l)))); [reflexivity|lia].
Qed.
Lemma gather_bincount : forall l xs, (forall x, In x xs -> In x l) -> gather (bincount l) xs = Some (map (fun x => occurrences x l) xs).
Proof.
  intros l xs. induction xs as [|x xs IH]; intros H; [reflexivity|]. cbn [gather map]. rewrite (bincount_nth l x (H x (or_introl eq_refl))). cbn [bind]. rewrite IH by (intros; apply H; right; assumption). reflexivity.
Qed.
Lemma select_map : forall {A B} (P : A -> bool) (f : A -> B) V, select (map P V) (map f V) = map f (filter P V).
Proof. intros A B P f V. induction V as [|l V IH]; [reflexivity|]. cbn. destruct (P l); cbn; rewrite IH; reflexivity. Qed.
Lemma mask_store_map : forall {A} (P Q : A -> bool) V, mask_store (map P V) (map P V) (map Q (filter P V)) = Some (map (fun l => P l && Q l) V).
Proof. intros A P Q V. induction V as [|l V IH]; [reflexivity|]. cbn [map filter mask_store]. destruct (P l); cbn [map andb]; rewrite IH; reflexivity. Qed.
Lemma combine_maps : forall {A B C} (f : A -> B) (g : A -> C) V, combine (map f V) (map g V) = map (fun l => (f l, g l)) V.
Proof. intros A B C f g V. induction V; [reflexivity|]. cbn. rewrite IHV. reflexivity. Qed.
Lemma mem_iff : forall x l, mem x l = true <-> In x l.
Proof. intros x l. unfold mem. rewrite existsb_exists. split; [intros (y & I & E); apply Nat.eqb_eq in E; subst; exact I|intros I; exists x; split; [exact I|apply Nat.eqb_refl]]. Qed.
Lemma seen_twice_spec : forall x l, mem x (seen_twice l) = (2 <=? occurrences x l).
Proof.
  intros x l. destruct (Nat.leb_spec 2 (occurrences x l)) as [H|H].
  - apply mem_iff. unfold seen_twice. apply filter_In. split; [apply In_usort, occ_pos; lia|apply Nat.leb_le; exact H].
  - destruct (mem x (seen_twice l)) eqn:E; [|reflexivity]. apply mem_iff in E. unfold seen_twice in E. apply filter_In in E as [_ E]. apply Nat.leb_le in E. lia.
Qed.
Definition twins_of {A} (f g : A -> nat) (V : list A) (l : A) : bool :=
  (occurrences (g l) (map g V) =? 1) && ((occurrences (f l) (map f (filter (fun l' => occurrences (g l') (map g V) =? 1) V)) =? 2) && (occurrences (f l) (map f V) =? 2)).
Lemma get_twin_map : forall {A} (f g : A -> nat) V, get_twin (map f V) (map g V) = Some (map (twins_of f g V) V).
Proof.
  intros A f g V. unfold get_twin. rewrite gather_bincount by auto. cbn [bind]. rewrite !map_map. rewrite select_map.
  set (P := fun l : A => occurrences (g l) (map g V) =? 1). rewrite gather_bincount by auto. cbn [bind].
  rewrite gather_bincount. 2:{ intros x I. apply in_map_iff in I as (l & <- & I). apply filter_In in I as [I _]. apply in_map. exact I. }
  cbn [bind]. rewrite !map_map, combine_maps, map_map. cbn [fst snd].
  rewrite (mask_store_map P (fun l => (occurrences (f l) (map f (filter P V)) =? 2) && (occurrences (f l) (map f V) =? 2)) V). reflexivity.
Qed.
(** All the links of an eddy are selected when as many are selected as there are. *)
Lemma occ_all : forall {A} (f : A -> nat) (P : A -> bool) V a, occurrences a (map f (filter P V)) = occurrences a (map f V) <-> forall l, In l V -> f l = a -> P l = true.
Proof.
  intros A f P V a. induction V as [|l V IH]; cbn [filter map occurrences]; [split; [intros _ l []|reflexivity]|].
  assert (LE : occurrences a (map f (filter P V)) <= occurrences a (map f V)) by (rewrite !occ_filter; clear; induction V as [|l V IH]; [reflexivity|]; cbn; destruct (P l); cbn; destruct (f l =? a); cbn; lia).
  destruct (P l) eqn:PL; cbn [map occurrences].
  - split.
    + intros E l' [<-|I] F; [exact PL|]. apply IH; [lia|exact I|exact F].
    + intros H. rewrite (proj2 IH); [reflexivity|]. intros; apply H; [right; assumption|assumption].
  - destruct (Nat.eqb_spec (f l) a) as [E|D].
    + split; [intros X; lia|]. intros H. specialize (H l (or_introl eq_refl) E). congruence.
    + split; [intros X l' [<-|I] F; [contradiction|]; apply IH; [lia|exact I|exact F]|]. intros H. cbn. apply IH. intros; apply H; [right; assumption|assumption].
Qed.
Lemma NoDup_single : forall {A} (f : A -> nat) (P : A -> bool) V, (forall l, In l V -> P l = true -> occurrences (f l) (map f V) <= 1) -> NoDup (map f (filter P V)).
Proof.
  intros A f P V. induction V as [|l V IH]; intros H; [constructor|]. cbn [filter].
  assert (R : NoDup (map f (filter P V))). { apply IH. intros l' I E. specialize (H l' (or_intror I) E). cbn [map occurrences] in H. lia. }
  destruct (P l) eqn:PL; [|exact R]. cbn [map]. constructor; [|exact R]. intros I. apply in_map_iff in I as (l' & E & I). apply filter_In in I as [I _].
  specialize (H l (or_introl eq_refl) PL). cbn [map occurrences] in H. rewrite Nat.eqb_refl in H. assert (1 <= occurrences (f l) (map f V)) by (apply occ_pos; rewrite <- E; apply in_map; exact I). lia.
Qed.

(** ** The groups *)
Section Groups.
Variables (links : list link) (invalid low high : Q).
Notation V := (filter (fun l : link => Qle_bool invalid (snd l * 100)%Q) links).
Lemma kept_In : forall l, kept links invalid l <-> In l V.
Proof. intros l. unfold kept. rewrite filter_In. split; intros [A B]; (split; [exact A|]); apply Qle_bool_iff; exact B. Qed.
Lemma degree_1 : forall a, degree links invalid a = occurrences a (map f1 V).
Proof. intros a. rewrite occ_filter. unfold degree. induction links as [|l r IH]; [reflexivity|]. cbn [filter]. destruct (Qle_bool invalid (snd l * 100)); cbn [filter andb]; [destruct (fst (fst l) =? a); cbn [length]; rewrite IH; reflexivity|exact IH]. Qed.
Lemma degree_2 : forall b, degree (map swap links) invalid b = occurrences b (map f2 V).
Proof. intros b. rewrite occ_filter. unfold degree. induction links as [|l r IH]; [reflexivity|]. cbn [map filter]. change (snd (swap l)) with (snd l). change (fst (fst (swap l))) with (snd (fst l)). destruct (Qle_bool invalid (snd l * 100)); cbn [filter andb]; [destruct (snd (fst l) =? b); cbn [length]; rewrite IH; reflexivity|exact IH]. Qed.
Definition o1 (l : link) : nat := occurrences (f1 l) (map f1 V).
Definition o2 (l : link) : nat := occurrences (f2 l) (map f2 V).
Definition P_multi (l : link) : bool := (2 <=? o1 l) || (2 <=? o2 l).
Definition P_low (l : link) : bool := Qlt_bool (snd l * 100) low && negb (P_multi l).
Definition P_mid (l : link) : bool := (Qle_bool low (snd l * 100) && Qlt_bool (snd l * 100) high) && negb (P_multi l).
Definition P_high (l : link) : bool := Qle_bool high (snd l * 100) && negb (P_multi l).
Definition P_m1 (l : link) : bool := twins_of f1 f2 V l.
Definition P_m2 (l : link) : bool := twins_of f2 f1 V l.
Definition P_complex (l : link) : bool := negb (P_m1 l) && negb (P_m2 l) && P_multi l.
Definition the_group (no : list nat) (f : link -> nat) (mp mt : link -> bool) : groups :=
  {| nomatch := no; g_low := map f (filter P_low V); g_intermediate := map f (filter P_mid V); g_high := map f (filter P_high V);
     multi_match := usort (map f (filter P_multi V)); parent := usort (map f (filter mp V)); twin := map f (filter mt V); complex := usort (map f (filter P_complex V)) |}.
Lemma get_group_form : forall n1 n2, get_group n1 n2 links invalid low high =
  let! no1 := reverse_index (map f1 V) n1 in
  let! no2 := reverse_index (map f2 V) n2 in
  Some (the_group no1 f1 P_m1 P_m2, the_group no2 f2 P_m2 P_m1).
Proof.
  intros n1 n2. unfold get_group. destruct (reverse_index (map f1 V) n1) as [no1|]; [|reflexivity]. destruct (reverse_index (map f2 V) n2) as [no2|]; [|reflexivity]. cbn [bind].
  rewrite !get_twin_map. cbn [bind].
  assert (EM : map (fun p => mem (fst p) (seen_twice (map f1 V)) || mem (snd p) (seen_twice (map f2 V))) (combine (map f1 V) (map f2 V)) = map P_multi V).
  { rewrite combine_maps, map_map. apply map_ext. intros l. cbn [fst snd]. rewrite !seen_twice_spec. reflexivity. }
  rewrite EM. clear EM.
  rewrite !combine_maps, !map_map. cbn [fst snd]. rewrite !select_map. reflexivity.
Qed.
Lemma o1_pos : forall l, In l V -> 1 <= o1 l.
Proof. intros l I. unfold o1. apply occ_pos. apply (in_map f1) in I. exact I. Qed.
Lemma o2_pos : forall l, In l V -> 1 <= o2 l.
Proof. intros l I. unfold o2. apply occ_pos. apply (in_map f2) in I. exact I. Qed.
Lemma multi_false : forall l, In l V -> negb (P_multi l) = true <-> o1 l = 1 /\ o2 l = 1.
Proof. intros l I. pose proof (o1_pos l I). pose proof (o2_pos l I). unfold P_multi. rewrite negb_true_iff, orb_false_iff, !Nat.leb_gt. lia. Qed.
Lemma multi_true : forall l, P_multi l = true <-> 2 <= o1 l \/ 2 <= o2 l.
Proof. intros l. unfold P_multi. rewrite orb_true_iff, !Nat.leb_le. reflexivity. Qed.
Lemma twins_of_spec : forall {A} (f g : A -> nat) (W : list A) l, In l W -> twins_of f g W l = true <->
  occurrences (f l) (map f W) = 2 /\ forall l', In l' W -> f l' = f l -> occurrences (g l') (map g W) = 1.
Proof.
  intros A f g W l I. unfold twins_of. rewrite !andb_true_iff, !Nat.eqb_eq. pose proof (occ_all f (fun l' => occurrences (g l') (map g W) =? 1) W (f l)) as H. split.
  - intros (A1 & A2 & A3). split; [exact A3|]. intros l' I' E. apply Nat.eqb_eq. apply H; [congruence|exact I'|exact E].
  - intros (A1 & A2). split; [apply A2; [exact I|reflexivity]|]. split; [|exact A1]. rewrite (proj2 H); [exact A1|]. intros l' I' E. apply Nat.eqb_eq. apply A2; assumption.
Qed.
Lemma In_f1 : forall (P : link -> bool) a, In a (map f1 (filter P V)) <-> exists b s, kept links invalid (a, b, s) /\ P (a, b, s) = true.
Proof.
  intros P a. rewrite in_map_iff. split.
  - intros ([[a' b] s] & E & I). cbn [fst snd] in E. subst a'. apply filter_In in I as [I E]. exists b, s. split; [apply kept_In; exact I|exact E].
  - intros (b & s & K & E). exists (a, b, s). split; [reflexivity|]. apply filter_In. split; [apply kept_In; exact K|exact E].
Qed.
Lemma side_one : forall n no, reverse_index (map f1 V) n = Some no -> (forall i, In i (map f1 V) -> i < n) ->
  families links invalid n low high (the_group no f1 P_m1 P_m2).
Proof.
  intros n no R B. destruct (reverse_index_spec _ _ B) as (r & E & IR & IM). rewrite R in E. apply Some_inj in E. subst r. split.
  - assert (S1 : forall Q : link -> bool, (forall l, Q l = true -> negb (P_multi l) = true) -> NoDup (map f1 (filter Q V))).
    { intros Q H. apply NoDup_single. intros l I E. apply H in E. apply (multi_false l I) in E. unfold o1 in E. lia. }
    intros f [<-|[<-|[<-|[<-|[<-|[<-|[<-|[<-|[]]]]]]]]]; cbn [the_group nomatch g_low g_intermediate g_high multi_match parent twin complex]; try (apply incr_NoDup; (exact IR || apply incr_usort)).
    + apply S1. intros l H. unfold P_low in H. apply andb_true_iff in H. apply H.
    + apply S1. intros l H. unfold P_mid in H. apply andb_true_iff in H. apply H.
    + apply S1. intros l H. unfold P_high in H. apply andb_true_iff in H. apply H.
    + apply NoDup_single. intros l I H. unfold P_m2 in H. apply (twins_of_spec f2 f1 V l I) in H as [_ H]. rewrite (H l I eq_refl). lia.
  - intros a. unfold alone, is_multi, is_parent, is_twin. rewrite !degree_1. cbn [the_group nomatch g_low g_intermediate g_high multi_match parent twin complex].
    assert (AL : forall b s, kept links invalid (a, b, s) -> (negb (P_multi (a, b, s)) = true <-> occurrences a (map f1 V) = 1 /\ degree (map swap links) invalid b = 1)).
    { intros b s K. rewrite degree_2. apply (multi_false (a, b, s)). apply kept_In. exact K. }
    assert (MU : forall b s, P_multi (a, b, s) = true <-> 2 <= occurrences a (map f1 V) \/ 2 <= degree (map swap links) invalid b) by (intros b s; rewrite degree_2; apply (multi_true (a, b, s))).
    assert (PA : forall b s, kept links invalid (a, b, s) -> (P_m1 (a, b, s) = true <-> occurrences a (map f1 V) = 2 /\ forall b' s', kept links invalid (a, b', s') -> degree (map swap links) invalid b' = 1)).
    { intros b s K. apply kept_In in K. unfold P_m1. rewrite (twins_of_spec f1 f2 V _ K). cbn [fst snd]. split; intros [X Y]; (split; [exact X|]).
      - intros b' s' K'. rewrite degree_2. apply kept_In in K'. exact (Y (a, b', s') K' eq_refl).
      - intros [[a' b'] s'] I' E'. cbn [fst snd] in *. subst a'. rewrite <- degree_2. apply (Y b' s'). apply kept_In. exact I'. }
    assert (TW : forall b s, kept links invalid (a, b, s) -> (P_m2 (a, b, s) = true <-> degree (map swap links) invalid b = 2 /\ forall a' s', kept links invalid (a', b, s') -> degree links invalid a' = 1)).
    { intros b s K. apply kept_In in K. unfold P_m2. rewrite (twins_of_spec f2 f1 V _ K). cbn [fst snd]. rewrite degree_2. split; intros [X Y]; (split; [exact X|]).
      - intros a' s' K'. rewrite degree_1. apply kept_In in K'. exact (Y (a', b, s') K' eq_refl).
      - intros [[a' b'] s'] I' E'. cbn [fst snd] in *. subst b'. rewrite <- degree_1. apply (Y a' s'). apply kept_In. exact I'. }
    assert (O2 : occurrences a (map f1 V) = 2 -> exists b s, kept links invalid (a, b, s)).
    { intros H. assert (I : In a (map f1 V)) by (apply occ_pos; lia). apply in_map_iff in I as ([[a' b] s] & X & I). cbn [fst] in X. subst a'. exists b, s. apply kept_In. exact I. }
    split; [rewrite IM, occ_zero; reflexivity|]. rewrite !In_usort, !In_f1. split; [|split; [|split; [|split; [|split; [|split]]]]].
    + split.
      * intros (b & s & K & H). unfold P_low in H. apply andb_true_iff in H as [H1 H2]. exists b, s. apply Qlt_bool_iff in H1. apply (AL b s K) in H2. split; [split; [exact K|exact H2]|exact H1].
      * intros (b & s & (K & H2) & H1). exists b, s. split; [exact K|]. unfold P_low. apply andb_true_iff. split; [apply Qlt_bool_iff; exact H1|apply (AL b s K); exact H2].
    + split.
      * intros (b & s & K & H). unfold P_mid in H. apply andb_true_iff in H as [H1 H2]. apply andb_true_iff in H1 as [H0 H1]. exists b, s. apply Qlt_bool_iff in H1. apply Qle_bool_iff in H0. apply (AL b s K) in H2. split; [split; [exact K|exact H2]|split; assumption].
      * intros (b & s & (K & H2) & H0 & H1). exists b, s. split; [exact K|]. unfold P_mid. rewrite !andb_true_iff. split; [split; [apply Qle_bool_iff; exact H0|apply Qlt_bool_iff; exact H1]|apply (AL b s K); exact H2].
    + split.
      * intros (b & s & K & H). unfold P_high in H. apply andb_true_iff in H as [H1 H2]. exists b, s. apply Qle_bool_iff in H1. apply (AL b s K) in H2. split; [split; [exact K|exact H2]|exact H1].
      * intros (b & s & (K & H2) & H1). exists b, s. split; [exact K|]. unfold P_high. apply andb_true_iff. split; [apply Qle_bool_iff; exact H1|apply (AL b s K); exact H2].
    + split; intros (b & s & K & H); exists b, s; (split; [exact K|]); apply (MU b s); exact H.
    + split.
      * intros (b & s & K & H). apply (PA b s K). exact H.
      * intros H. destruct (O2 (proj1 H)) as (b & s & K). exists b, s. split; [exact K|]. apply (PA b s K). exact H.
    + split.
      * intros (b & s & K & H). apply (TW b s K) in H as [X Y]. exists b, s. split; [exact K|]. split; [rewrite <- degree_1; exact (Y a s K)|]. split; [exact X|]. intros a' s' K'. exact (Y a' s' K').
      * intros (b & s & K & X & Y & Z). exists b, s. split; [exact K|]. apply (TW b s K). split; [exact Y|]. intros a' s' K'. exact (Z a' s' K').
    + split.
      * intros (b & s & K & H). unfold P_complex in H. rewrite !andb_true_iff, !negb_true_iff in H. destruct H as ((H1 & H2) & H3). split; [exists b, s; split; [exact K|apply (MU b s); exact H3]|]. split.
        -- intros X. apply (PA b s K) in X. congruence.
        -- intros (b' & s' & K' & X & Y & Z). assert (EB : b' = b /\ s' = s).
           { apply kept_In in K. apply kept_In in K'. clear - K K' X. set (W := V) in *. clearbody W. induction W as [|l W IH]; [destruct K|]. cbn [map occurrences] in X. destruct K as [->|K], K' as [E|K'].
             - injection E as <- <-. split; reflexivity.
             - cbn [fst] in X. rewrite Nat.eqb_refl in X. assert (1 <= occurrences a (map f1 W)) by (apply occ_pos; exact (in_map f1 _ _ K')). lia.
             - subst l. cbn [fst] in X. rewrite Nat.eqb_refl in X. assert (1 <= occurrences a (map f1 W)) by (apply occ_pos; exact (in_map f1 _ _ K)). lia.
             - assert (1 <= occurrences a (map f1 W)) by (apply occ_pos; exact (in_map f1 _ _ K)). apply IH; [exact K|exact K'|lia]. }
           destruct EB as [-> ->]. assert (P_m2 (a, b, s) = true) by (apply (TW b s K); split; [exact Y|intros a' s'' K''; exact (Z a' s'' K'')]). congruence.
      * intros ((b & s & K & H) & NP & NT). exists b, s. split; [exact K|]. unfold P_complex. rewrite !andb_true_iff, !negb_true_iff. split; [split|apply (MU b s); exact H].
        -- destruct (P_m1 (a, b, s)) eqn:E; [|reflexivity]. exfalso. apply NP. apply (PA b s K). exact E.
        -- destruct (P_m2 (a, b, s)) eqn:E; [|reflexivity]. exfalso. apply NT. apply (TW b s K) in E as [X Y]. exists b, s. split; [exact K|]. split; [rewrite <- degree_1; exact (Y a s K)|]. split; [exact X|]. intros a' s' K'. exact (Y a' s' K').
Qed.
End Groups.
