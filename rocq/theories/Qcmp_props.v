(** * C142: files and table of the quick comparison of identifications. *)
From Coq Require Import List Arith ZArith QArith Bool Ascii String Lia Lqa Permutation.
From Verif Require TrackObs_filter.
From Verif Require Import Base Qaux Atl_model Atl_spec Atl_more Atl_props Fname_model Fname_props Qcmp_model.
Import ListNotations.
Local Close Scope Q_scope.
Local Open Scope nat_scope.

(** ** Specification *)
Definition sides : list text := [chars "other_"; chars "ref_"].
Definition labels : list text := map chars ["nomatch"; "low"; "intermediate"; "high"; "multi_match"; "parent"; "twin"; "complex"]%string.
(** The family of a label. *)
Definition family (label : text) (g : groups) : option (list nat) := option_map snd (List.find (fun p => same (fst p) label) (labelled g)).
(** No conversion of the operator [%] in a name. *)
Definition simple (t : text) : Prop := ~ In "%"%char t.

(** ** Names *)
Lemma same_spec : forall a b, reflect (a = b) (same a b).
Proof. intros a b. unfold same. destruct (list_eq_dec ascii_dec a b); constructor; assumption. Qed.
Arguments same : simpl never.

Lemma flat_slash : forall t, ~ In "/"%char (flat t).
Proof. intros t H. apply in_map_iff in H as (c & E & _). unfold eqa in E. destruct (ascii_dec c "/"); [discriminate|congruence]. Qed.
Lemma flat_percent : forall t, simple t -> simple (flat t).
Proof. intros t S H. apply in_map_iff in H as (c & E & I). unfold eqa in E. destruct (ascii_dec c "/"); [discriminate|]. subst c. exact (S I). Qed.
Lemma cut : forall (x : ascii) a b p q, ~ In x a -> ~ In x b -> a ++ x :: p = b ++ x :: q -> a = b /\ p = q.
Proof.
  intros x a. induction a as [|c a IH]; intros [|e b] p q A B H; cbn in *.
  - injection H as H. auto.
  - injection H as H _. subst. destruct B. now left.
  - injection H as H _. subst. destruct A. now left.
  - injection H as H1 H2. subst. destruct (IH b p q) as (-> & ->); auto.
Qed.
Lemma ends_cut : forall a b : text, a ++ chars ".nc" = b ++ chars ".nc" -> a = b.
Proof. intros a b H. apply app_inv_tail in H. exact H. Qed.
Lemma out_name_inj : forall path o o' s s' k k', In s sides -> In s' sides -> In k labels -> In k' labels ->
  out_name path o s k = out_name path o' s' k' -> flat o = flat o' /\ s = s' /\ k = k'.
Proof.
  intros path o o' s s' k k' S S' K K' H. unfold out_name in H. apply app_inv_head in H. apply app_inv_head in H.
  change (chars "/" ++ chars "/" ++ s ++ k ++ chars ".nc") with ("/"%char :: (chars "/" ++ s ++ k ++ chars ".nc")) in H. change (chars "/" ++ chars "/" ++ s' ++ k' ++ chars ".nc") with ("/"%char :: (chars "/" ++ s' ++ k' ++ chars ".nc")) in H.
  apply cut in H as (H1 & H2); [|apply flat_slash|apply flat_slash]. split; [exact H1|]. apply app_inv_head in H2. rewrite !app_assoc in H2. apply app_inv_tail in H2.
  assert (X : s = s') by (destruct S as [<-|[<-|[]]]; destruct S' as [<-|[<-|[]]]; try reflexivity; discriminate).
  subst s'. split; [reflexivity|]. apply app_inv_head in H2. exact H2.
Qed.
Lemma out_name_simple : forall path o s k, simple path -> simple o -> In s sides -> In k labels -> simple (out_name path o s k).
Proof.
  intros path o s k P O S K H. unfold out_name in H. repeat (apply in_app_or in H as [H|H]); try (now apply P); try (now apply (flat_percent o O)).
  - cbn in H. intuition discriminate.
  - cbn in H. intuition discriminate.
  - cbn in H. intuition discriminate.
  - destruct S as [<-|[<-|[]]]; cbn in H; intuition discriminate.
  - unfold labels in K. cbn [map In] in K. repeat (destruct K as [<-|K]; [cbn in H; intuition discriminate|]). destruct K.
  - cbn in H. intuition discriminate.
Qed.
Lemma write_simple : forall sign prod t, simple t -> exists f, write_file (chars "./") sign prod t false = Some (t, f).
Proof.
  intros sign prod t S. assert (P : forall p, In p [Lit t] -> plain p) by (intros p [<-|[]]; exact S).
  destruct (C131_written [Lit t] (chars "./") sign prod false P) as (name & f & E & N & _). cbn in E, N. rewrite app_nil_r in E, N. subst name. exists f. exact E.
Qed.

Section Props.
Context {A : Type}.
Variables (load : text -> list A) (match_ : list A -> list A -> list (nat * nat * Q)).
Variables (invalid low high : Q).

Lemma find_put : forall (fs : list (text * list A)) n r m, find (put fs n r) m = if same n m then Some r else find fs m.
Proof.
  intros fs n r m. induction fs as [|f fs IH]; cbn.
  - reflexivity.
  - destruct (same_spec (fst f) n) as [E|E]; cbn.
    + destruct (same_spec n m) as [E2|E2]; [reflexivity|]. destruct (same_spec (fst f) m); [congruence|reflexivity].
    + rewrite IH. destruct (same_spec (fst f) m) as [E2|E2]; [|reflexivity]. destruct (same_spec n m); [congruence|reflexivity].
Qed.
Lemma labelled_labels : forall g, map fst (labelled g) = labels.
Proof. reflexivity. Qed.
(** One series of eight files. *)
Lemma save_groups_spec : forall sign prod path o side (rows : list A) gs fs, simple path -> simple o -> In side sides -> (forall x, In x gs -> In (fst x) labels) -> NoDup (map fst gs) ->
  (forall x i, In x gs -> In i (snd x) -> i < List.length rows) ->
  exists fs', save_groups sign prod path o side rows gs fs = Some fs' /\
    (forall x, In x gs -> find fs' (out_name path o side (fst x)) = gather rows (snd x)) /\
    (forall n, (forall x, In x gs -> n <> out_name path o side (fst x)) -> find fs' n = find fs n).
Proof.
  intros sign prod path o side rows gs. induction gs as [|g gs IH]; intros fs P O S K N B; cbn [save_groups].
  - exists fs. split; [reflexivity|]. split; [intros x []|reflexivity].
  - destruct (gather_total rows (snd g)) as (r & R); [intros i I; apply (B g); [now left|exact I]|]. rewrite R. cbn [bind].
    assert (KG : In (fst g) labels) by (apply K; now left).
    destruct (write_simple sign prod _ (out_name_simple path o side (fst g) P O S KG)) as (f & W). rewrite W. cbn [bind fst]. cbn [map] in N. inversion N as [|? ? N1 N2]; subst.
    destruct (IH (put fs (out_name path o side (fst g)) r) P O S) as (fs' & E & F1 & F2).
    { intros x I. apply K. now right. } { exact N2. } { intros x i I. apply B. now right. }
    exists fs'. split; [exact E|]. split.
    + intros x [<-|I]; [|apply F1, I]. rewrite F2.
      * rewrite find_put. match goal with |- context [same ?u ?v] => destruct (same_spec u v) as [_|C] end; [now rewrite R|congruence].
      * intros x I C. apply out_name_inj in C as (_ & _ & C); auto; [|apply K; now right]. apply N1. rewrite C. now apply in_map.
    + intros n H. rewrite F2 by (intros x I; apply H; now right). rewrite find_put. match goal with |- context [same ?u ?v] => destruct (same_spec u v) as [C|_] end; [|reflexivity]. exfalso. apply (H g); [now left|congruence].
Qed.
Lemma family_In : forall label g idx, family label g = Some idx <-> In (label, idx) (labelled g).
Proof.
  intros label g idx. split.
  - unfold family. intros H. match type of H with option_map snd ?o = _ => destruct o as [p|] eqn:E; [|discriminate] end. cbn in H. apply Some_inj in H. subst idx.
    apply find_some in E as (E & L). destruct (same_spec (fst p) label) as [X|]; [|discriminate]. subst label. destruct p; exact E.
  - intros H. cbn [labelled In] in H. repeat (destruct H as [H|H]; [apply pair_equal_spec in H as (<- & <-); reflexivity|]). destruct H.
Qed.

Hypothesis links_ok : forall r o a b s, In (a, b, s) (match_ r o) -> a < List.length r /\ b < List.length o.

Lemma compare_ok : forall r o, exists g1 g2, compare match_ invalid low high r o = Some (g1, g2) /\
  (forall x i, In x (labelled g1) -> In i (snd x) -> i < List.length r) /\ (forall x i, In x (labelled g2) -> In i (snd x) -> i < List.length o).
Proof.
  intros r o. destruct (groups_spec (List.length r) (List.length o) (match_ r o) invalid low high (fun a b s => links_ok r o a b s)) as (g1 & g2 & E & (_ & F1) & (_ & F2)).
  exists g1, g2. split; [exact E|].
  assert (X : forall links n g, (forall a b s, In (a, b, s) links -> a < n) -> (forall a,
    (In a (nomatch g) <-> a < n /\ degree links invalid a = 0) /\ (In a (g_low g) <-> exists b s, alone links invalid a b s /\ (s * 100 < low)%Q) /\
    (In a (g_intermediate g) <-> exists b s, alone links invalid a b s /\ (low <= s * 100 < high)%Q) /\ (In a (g_high g) <-> exists b s, alone links invalid a b s /\ (high <= s * 100)%Q) /\
    (In a (multi_match g) <-> is_multi links invalid a) /\ (In a (parent g) <-> is_parent links invalid a) /\ (In a (twin g) <-> is_twin links invalid a) /\
    (In a (complex g) <-> is_multi links invalid a /\ ~ is_parent links invalid a /\ ~ is_twin links invalid a)) -> forall x i, In x (labelled g) -> In i (snd x) -> i < n).
  { intros links n g L F x i X I. destruct (F i) as (A1 & A2 & A3 & A4 & A5 & A6 & A7 & A8).
    assert (KP : forall b s, kept links invalid (i, b, s) -> i < n) by (intros b s (K & _); eapply L; exact K).
    cbn [labelled In] in X. repeat destruct X as [<-|X]; cbn [snd] in I.
    - apply A1 in I. apply I.
    - apply A2 in I as (b & s & (K & _) & _). eauto.
    - apply A3 in I as (b & s & (K & _) & _). eauto.
    - apply A4 in I as (b & s & (K & _) & _). eauto.
    - apply A5 in I as (b & s & K & _). eauto.
    - apply A6 in I as (D & _). assert (D1 : 1 <= degree links invalid i) by lia. apply deg_kept in D1 as (b & s & K). eauto.
    - apply A7 in I as (b & s & K & _). eauto.
    - apply A8 in I as ((b & s & K & _) & _). eauto.
    - destruct X. }
  split; [apply (X (match_ r o) (List.length r) g1); [intros a b s H; apply (links_ok r o a b s H)|exact F1]|].
  apply (X (map swap (match_ r o)) (List.length o) g2); [|exact F2]. intros a b s H. apply in_map_iff in H as (((a' & b') & s') & E' & H). unfold swap in E'. cbn in E'. injection E' as <- <- <-. apply (links_ok r o a' b' s' H).
Qed.
Lemma run_compare_spec : forall r others, exists gs, run_compare load match_ invalid low high r others = Some gs /\
  forall o, In o others -> exists g1 g2, compare match_ invalid low high r (load o) = Some (g1, g2) /\
    option_map snd (List.find (fun p => same (fst p) o) gs) = Some (g1, g2).
Proof.
  intros r others. induction others as [|o others (gs & E & F)]; cbn [run_compare].
  - exists []. split; [reflexivity|intros o []].
  - destruct (compare_ok r (load o)) as (g1 & g2 & C & _). rewrite C. cbn [bind]. rewrite E. cbn [bind]. eexists. split; [reflexivity|].
    intros o' I. cbn [List.find fst]. destruct (same_spec o o') as [<-|NE]; [exists g1, g2; split; [exact C|reflexivity]|].
    destruct I as [->|I]; [congruence|]. apply F, I.
Qed.

(** Names which stay different without their slashes and no [%]: the command
    writes, for each file compared, the rows of each family of both datasets,
    and changes no other file. *)
Theorem C142_files : forall sign prod path ref others fs, simple path -> (forall o, In o others -> simple o) ->
  (forall o o', In o others -> In o' others -> flat o = flat o' -> o = o') ->
  exists fs', quick_compare load match_ invalid low high sign prod path ref others fs = Some fs' /\
    (forall o, In o others -> exists g1 g2, get_group (List.length (load ref)) (List.length (load o)) (match_ (load ref) (load o)) invalid low high = Some (g1, g2) /\
       forall label i1 i2, family label g1 = Some i1 -> family label g2 = Some i2 ->
         (exists r1, gather (load ref) i1 = Some r1 /\ find fs' (out_name path o (chars "ref_") label) = Some r1) /\
         (exists r2, gather (load o) i2 = Some r2 /\ find fs' (out_name path o (chars "other_") label) = Some r2)) /\
    (forall n, (forall o side label, In o others -> In side sides -> In label labels -> n <> out_name path o side label) -> find fs' n = find fs n).
Proof.
  intros sign prod path ref others fs P O INJ. unfold quick_compare. destruct (run_compare_spec (load ref) others) as (gs & E & F). rewrite E. cbn [bind]. clear E.
  set (R := load ref) in *. clearbody R.
  (* what the loop has written for the names met so far is not overwritten by others *)
  assert (LOOP : forall l fs, (forall o, In o l -> In o others) ->
    exists fs', save_all load sign prod path R gs l fs = Some fs' /\
      (forall o g1 g2, In o l -> compare match_ invalid low high R (load o) = Some (g1, g2) -> forall x,
        (In x (labelled g2) -> find fs' (out_name path o (chars "other_") (fst x)) = gather (load o) (snd x)) /\
        (In x (labelled g1) -> find fs' (out_name path o (chars "ref_") (fst x)) = gather R (snd x))) /\
      (forall n, (forall o side label, In o l -> In side sides -> In label labels -> n <> out_name path o side label) -> find fs' n = find fs n)).
  { intros l. induction l as [|o l IH]; intros fs0 SUB; cbn [save_all].
    - exists fs0. split; [reflexivity|]. split; [intros o g1 g2 []|reflexivity].
    - destruct (F o) as (g1 & g2 & C & ->); [apply SUB; now left|]. cbn [bind fst snd].
      destruct (compare_ok R (load o)) as (h1 & h2 & C' & B1 & B2). rewrite C in C'. apply Some_inj in C'. apply pair_equal_spec in C' as (<- & <-).
      assert (S1 : In (chars "other_") sides) by now left. assert (S2 : In (chars "ref_") sides) by (right; now left).
      assert (ND : forall g, NoDup (map fst (labelled g))). { intros g. rewrite labelled_labels. unfold labels. cbn. repeat constructor; cbn; intuition discriminate. }
      assert (LB : forall g x, In x (labelled g) -> In (fst x) labels) by (intros g x X; rewrite <- (labelled_labels g); now apply in_map).
      assert (PO : simple o) by (apply O, SUB; now left).
      destruct (save_groups_spec sign prod path o (chars "other_") (load o) (labelled g2) fs0 P PO S1 (LB g2) (ND g2) B2) as (fs1 & W1 & X1 & Y1). rewrite W1. cbn [bind].
      destruct (save_groups_spec sign prod path o (chars "ref_") R (labelled g1) fs1 P PO S2 (LB g1) (ND g1) B1) as (fs2 & W2 & X2 & Y2). rewrite W2. cbn [bind].
      destruct (IH fs2) as (fs3 & W3 & X3 & Y3); [intros o' I; apply SUB; now right|]. exists fs3. split; [exact W3|].
      assert (HERE : forall x, (In x (labelled g2) -> find fs2 (out_name path o (chars "other_") (fst x)) = gather (load o) (snd x)) /\ (In x (labelled g1) -> find fs2 (out_name path o (chars "ref_") (fst x)) = gather R (snd x))).
      { intros x. split; intros X; [|apply X2, X]. rewrite Y2; [apply X1, X|]. intros y Y C2. apply out_name_inj in C2 as (_ & C2 & _); auto; [discriminate|eapply LB; exact X|eapply LB; exact Y]. }
      split.
      + intros o' g1' g2' I C' x. destruct (in_dec (list_eq_dec ascii_dec) o' l) as [I'|NI]; [apply (X3 o' g1' g2' I' C')|].
        destruct I as [<-|I]; [|contradiction]. rewrite C in C'. apply Some_inj in C'. apply pair_equal_spec in C' as (<- & <-).
        assert (KEEP : forall side label, In side sides -> In label labels -> find fs3 (out_name path o side label) = find fs2 (out_name path o side label)).
        { intros side label HS HL. apply Y3. intros o2 side2 label2 I2 HS2 HL2 C2. apply out_name_inj in C2 as (C2 & _); auto. apply NI. replace o with o2; [exact I2|]. symmetry. apply INJ; [apply SUB; now left|apply SUB; now right|exact C2]. }
        split; intros X; rewrite KEEP; try (apply HERE, X); auto; eapply LB; exact X.
      + intros n N. rewrite Y3, Y2, Y1; [reflexivity| | |].
        * intros x X. apply N; [now left|exact S1|eapply LB; exact X].
        * intros x X. apply N; [now left|exact S2|eapply LB; exact X].
        * intros o' side label I HS HL. apply N; auto. now right. }
  destruct (LOOP others fs (fun o I => I)) as (fs' & E & X & Y). exists fs'. split; [exact E|]. split; [|exact Y].
  intros o I. destruct (compare_ok R (load o)) as (g1 & g2 & C & B1 & B2). exists g1, g2. split; [exact C|]. intros label i1 i2 H1 H2. apply family_In in H1, H2.
  split.
  - destruct (gather_total R i1) as (r & G); [intros i II; apply (B1 _ i H1 II)|]. exists r. split; [exact G|]. destruct (X o g1 g2 I C (label, i1)) as (_ & Z). rewrite <- G. apply Z, H1.
  - destruct (gather_total (load o) i2) as (r & G); [intros i II; apply (B2 _ i H2 II)|]. exists r. split; [exact G|]. destruct (X o g1 g2 I C (label, i2)) as (Z & _). rewrite <- G. apply Z, H2.
Qed.
End Props.
Print Assumptions C142_files.

(** ** The table *)
Lemma skipn_S_tl : forall {X} k (l : list X), skipn (S k) l = tl (skipn k l).
Proof. intros X k. induction k as [|k IH]; intros [|a l]; try reflexivity. rewrite skipn_cons, IH. reflexivity. Qed.
Section Table.
Context {A : Type}.
Variables (area : option (A -> Q)) (rows : list A).
Definition one (a : A) : Q := match area with None => 1%Q | Some f => f a end.
Definition sumw (l : list A) : Q := fold_right (fun a s => one a + s)%Q 0%Q l.
Lemma weight_sumw : forall l, (weight area l == sumw l)%Q.
Proof.
  intros l. unfold weight, sumw, one. destruct area as [f|]; [reflexivity|]. induction l as [|a l IH]; [reflexivity|]. cbn [fold_right List.length]. rewrite <- IH, Nat2Z.inj_succ. unfold Z.succ. rewrite inject_Z_plus. change (inject_Z 1) with 1%Q. ring.
Qed.
Definition at_row (i : nat) : Q := match nth_error rows i with Some a => one a | None => 0%Q end.
Definition sumi (l : list nat) : Q := fold_right (fun i s => at_row i + s)%Q 0%Q l.
Lemma sumi_cons : forall i l, sumi (i :: l) = (at_row i + sumi l)%Q.
Proof. reflexivity. Qed.
Lemma sumi_gather : forall l r, gather rows l = Some r -> (sumw r == sumi l)%Q.
Proof.
  intros l. induction l as [|i l IH]; intros r H; cbn [gather] in H; [apply Some_inj in H; subst; reflexivity|].
  destruct (nth_error rows i) as [a|] eqn:E; [|discriminate]. cbn [bind] in H. destruct (gather rows l) as [r'|]; [|discriminate]. cbn [bind] in H. apply Some_inj in H. subst r.
  cbn [sumw sumi fold_right]. unfold at_row at 1. rewrite E. fold (sumw r'). fold (sumi l). rewrite (IH r' eq_refl). reflexivity.
Qed.
Lemma sumi_app : forall a b, (sumi (a ++ b) == sumi a + sumi b)%Q.
Proof. intros a b. induction a as [|i a IH]; cbn [app]; [cbn [sumi fold_right]; ring|]. rewrite !sumi_cons, IH. ring. Qed.
Lemma sumi_perm : forall a b, Permutation a b -> (sumi a == sumi b)%Q.
Proof. intros a b H. induction H; rewrite ?sumi_cons; [reflexivity|rewrite IHPermutation; reflexivity|ring|rewrite IHPermutation1; exact IHPermutation2]. Qed.
Lemma gather_seq : forall (l : list A), gather l (seq 0 (List.length l)) = Some l.
Proof.
  intros l. apply gather_Some. split; [now rewrite seq_length|]. intros k i H. rewrite nth_error_seq in H. destruct (Nat.ltb_spec k (List.length l)) as [K|]; [|discriminate].
  apply Some_inj in H. cbn in H. subst i. destruct (nth_error_lt_Some l k K) as (a & E). exists a. auto.
Qed.
Lemma NoDup_app_2 : forall (a b : list nat), NoDup a -> NoDup b -> (forall x, In x a -> ~ In x b) -> NoDup (a ++ b).
Proof. intros a b NA NB D. induction NA as [|x a X NA IH]; cbn; [exact NB|]. constructor; [|apply IH; intros y Y; apply D; now right]. intros C. apply in_app_or in C as [C|C]; [contradiction|]. apply (D x); [now left|exact C]. Qed.

(** The percentages of the first five columns are those of a partition, and the
    last three share out the fifth; the same holds for the study dataset, the
    groups being exchanged. *)
Theorem C142_percents : forall n2 links invalid low high g1 g2 ps, (forall a b s, In (a, b, s) links -> a < List.length rows /\ b < n2) -> (low <= high)%Q ->
  get_group (List.length rows) n2 links invalid low high = Some (g1, g2) -> percents area rows g1 = Some ps -> ~ (weight area rows == 0)%Q ->
  exists no lo im hi mu pa tw co, map fst ps = labels /\ map snd ps = map (fun x => Some x) [no; lo; im; hi; mu; pa; tw; co] /\
    (no + lo + im + hi + mu == 100)%Q /\ (pa + tw + co == mu)%Q.
Proof.
  intros n2 links invalid low high g1 g2 ps B LH E P W.
  destruct (groups_spec (List.length rows) n2 links invalid low high B) as (h1 & h2 & E' & F1 & _). rewrite E in E'. apply Some_inj in E'. apply pair_equal_spec in E' as (<- & <-).
  pose proof (Atl_more.partition _ _ _ _ _ _ LH F1) as PART. pose proof (multi_cases _ _ _ _ _ _ F1) as MULTI. destruct F1 as (ND & F1).
  assert (DISJ : forall k k' f f' x, nth_error seven k = Some f -> nth_error seven k' = Some f' -> x < List.length rows -> In x (f g1) -> In x (f' g1) -> k = k').
  { intros k k' f f' x K K' L I I'. destruct (PART x L) as (k0 & f0 & _ & _ & U). rewrite (U k f K I), (U k' f' K' I'). reflexivity. }
  assert (RANGE : forall f x, In f seven -> In x (f g1) -> x < List.length rows).
  { intros f x SV I. destruct (F1 x) as (A1 & A2 & A3 & A4 & A5 & A6 & A7 & A8).
    assert (KP : forall b s, kept links invalid (x, b, s) -> x < List.length rows) by (intros b s (K & _); eapply B; exact K).
    unfold seven in SV. cbn [In] in SV. repeat destruct SV as [<-|SV].
    - apply A1 in I. apply I.
    - apply A2 in I as (b & s & (K & _) & _). eauto.
    - apply A3 in I as (b & s & (K & _) & _). eauto.
    - apply A4 in I as (b & s & (K & _) & _). eauto.
    - apply A6 in I as (D & _). assert (D1 : 1 <= degree links invalid x) by lia. apply deg_kept in D1 as (b & s & K). eauto.
    - apply A7 in I as (b & s & K & _). eauto.
    - apply A8 in I as ((b & s & K & _) & _). eauto.
    - destruct SV. }
  assert (APP : forall fs k, skipn k seven = fs -> NoDup (List.concat (map (fun f => f g1) fs)) /\ forall x, In x (List.concat (map (fun f => f g1) fs)) -> exists k' f, k <= k' /\ nth_error seven k' = Some f /\ In x (f g1)).
  { intros fs. induction fs as [|f fs IH]; intros k K; [split; [constructor|intros x []]|].
    assert (NK : nth_error seven k = Some f). { replace k with (k + 0) by lia. rewrite <- TrackObs_filter.nth_error_skipn_add. rewrite K. reflexivity. }
    assert (K2 : skipn (S k) seven = fs). { rewrite skipn_S_tl, K. reflexivity. }
    destruct (IH (S k) K2) as (N & M). cbn [map List.concat]. split.
    - apply NoDup_app_2; [|exact N|].
      + apply ND. apply nth_error_In in NK. unfold seven in NK. cbn in *. intuition.
      + intros x X Y. destruct (M x Y) as (k' & f' & LE & NK' & I'). assert (k = k') by (eapply DISJ; [exact NK|exact NK'| |exact X|exact I']; eapply RANGE; [eapply nth_error_In; exact NK|exact X]). lia.
    - intros x X. apply in_app_or in X as [X|X]; [exists k, f; auto|]. destruct (M x X) as (k' & f' & LE & R). exists k', f'. split; [lia|exact R]. }
  assert (PERM : Permutation (List.concat (map (fun f => f g1) seven)) (seq 0 (List.length rows))).
  { apply NoDup_Permutation; [apply (APP seven 0 eq_refl)|apply seq_NoDup|]. intros x. rewrite in_seq. split.
    - intros X. destruct (proj2 (APP seven 0 eq_refl) x X) as (k & f & _ & NK & I). pose proof (RANGE f x (nth_error_In _ _ NK) I). lia.
    - intros X. destruct (PART x) as (k & f & NK & I & _); [lia|]. apply in_concat. exists (f g1). split; [|exact I]. apply (in_map (fun f => f g1)). eapply nth_error_In. exact NK. }
  assert (PM : Permutation (parent g1 ++ twin g1 ++ complex g1) (multi_match g1)).
  { apply NoDup_Permutation; [|apply ND; cbn; auto 10|].
    - pose proof (proj1 (APP _ 4 eq_refl)) as N. cbn in N. rewrite app_nil_r in N. exact N.
    - intros x. rewrite !in_app_iff, MULTI. tauto. }
  unfold percents in P. cbn [labelled] in P.
  repeat match type of P with context [gather rows (snd (?t, ?l))] => let r := fresh "r" in let H := fresh "G" in change (gather rows (snd (t, l))) with (gather rows l) in P; destruct (gather rows l) as [r|] eqn:H; [|cbn [bind] in P; discriminate] end.
  cbn [bind map fst snd] in P. apply Some_inj in P. destruct (Qeq_bool (weight area rows) 0) eqn:ZW; [apply Qeq_bool_iff in ZW; contradiction|].
  rewrite <- P. do 8 eexists. split; [reflexivity|]. split; [cbn [map snd]; reflexivity|].
  set (T := weight area rows) in *.
  assert (ST : (T == sumi (nomatch g1) + sumi (g_low g1) + sumi (g_intermediate g1) + sumi (g_high g1) + sumi (multi_match g1))%Q).
  { unfold T. rewrite weight_sumw, (sumi_gather _ _ (gather_seq rows)), <- (sumi_perm _ _ PERM). cbn [seven map List.concat]. rewrite !sumi_app, <- (sumi_perm _ _ PM), !sumi_app. cbn [sumi fold_right]. ring. }
  rewrite !weight_sumw. repeat match goal with G : gather rows _ = Some ?r |- context [sumw ?r] => rewrite (sumi_gather _ _ G) end.
  rewrite <- (sumi_perm _ _ PM), !sumi_app in *. split; [|field; exact W].
  match type of ST with (_ == ?x)%Q => transitivity (x / T * 100)%Q; [field; exact W|] end. rewrite <- ST. field. exact W.
Qed.
End Table.
Print Assumptions C142_percents.

(** ** Cases *)
Definition ex_load (n : text) : list nat := if same n (chars "ref.nc") then [10; 11; 12] else if same n (chars "a/b.nc") then [20; 21] else [30; 31; 32; 33].
Definition ex_match (r o : list nat) : list (nat * nat * Q) := 
  filter (fun l => (fst (fst l) <? List.length r) && (snd (fst l) <? List.length o)) [(0, 1, (1 # 2)%Q); (2, 0, (9 # 10)%Q)].
Definition ex_out (others : list text) := quick_compare ex_load ex_match 5 20 80 (chars "Cyclonic") (chars "20200101") (chars "out") (chars "ref.nc") others [].
Example C142_case : option_map (fun fs => (List.length fs, find fs (chars "out/a_b.nc//other_high.nc"), find fs (chars "out/a_b.nc//ref_high.nc"), find fs (chars "out/c.nc//other_nomatch.nc"))) (ex_out [chars "a/b.nc"; chars "c.nc"]) = Some (32, Some [20], Some [12], Some [32; 33]).
Proof. vm_compute. reflexivity. Qed.
Example C142_case_hyp : (forall r o a b s, In (a, b, s) (ex_match r o) -> a < List.length r /\ b < List.length o) /\
  simple (chars "out") /\ (forall o, In o [chars "a/b.nc"; chars "c.nc"] -> simple o) /\ flat (chars "a/b.nc") <> flat (chars "c.nc").
Proof.
  split; [|split; [|split]].
  - intros r o a b s H. apply filter_In in H as (_ & H). cbn [fst snd] in H. apply andb_true_iff in H as (H1 & H2). apply Nat.ltb_lt in H1, H2. auto.
  - unfold simple. cbn. intuition discriminate.
  - intros o [<-|[<-|[]]]; unfold simple; cbn; intuition discriminate.
  - discriminate.
Qed.
(** Two names which differ by a slash only: the second one takes the files of
    the first one. *)
Theorem C142_same_folder_refuted : option_map (fun fs => (List.length fs, find fs (out_name (chars "out") (chars "a/b.nc") (chars "other_") (chars "high")))) (ex_out [chars "a/b.nc"; chars "a_b.nc"]) = Some (16, Some [30]) /\
  ex_load (chars "a/b.nc") = [20; 21].
Proof. vm_compute. split; reflexivity. Qed.
(** A [%] in the name of a file: an error. *)
Theorem C142_percent_refuted : ex_out [chars "50%/c.nc"] = None.
Proof. vm_compute. reflexivity. Qed.
Example C142_percents_case : option_map (fun l => map (fun x => option_map Qred (snd x)) l) (match get_group 3 2 (ex_match [10; 11; 12] [20; 21]) 5 20 80 with Some (g1, g2) => percents None [10; 11; 12] g1 | None => None end)
  = Some [Some (100 # 3); Some 0; Some (100 # 3); Some (100 # 3); Some 0; Some 0; Some 0; Some 0]%Q.
Proof. vm_compute. reflexivity. Qed.
