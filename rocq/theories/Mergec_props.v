(** Properties of the command MergeEddies. *)
From Coq Require Import List Arith ZArith QArith Bool Lia.
From Verif Require Import Base Generic_model Fields_model Fields_props Mergec_model.
From Verif Require Corr_model Generic_proofs.
Import ListNotations.
Local Close Scope Q_scope.
Local Open Scope nat_scope.

(** ** Specification *)
Section Spec.
Variables (base added : list nat) (track type_cyc : nat).
Definition names (f : mfile) : list nat := map fst (f_vars (m_file f)).
Definition rows_of (f : mfile) : nat := f_size (m_file f).
(** Columns have one value by row, and arrays have samples; a file with rows. *)
Definition shaped (f : mfile) : Prop := (forall x c, In (x, c) (f_vars (m_file f)) -> length c = rows_of f) /\ (forall x, In x (f_arrays (m_file f)) -> 0 < f_samples (m_file f)).
Definition good (f : mfile) : Prop := 0 < rows_of f /\ shaped f.
(** Variables read, those which are arrays and those which are not basic. *)
Definition read (include : list nat) (f : mfile) : list nat := filter (fun x => mem x include) (names f).
Definition array_names (include : list nat) (f : mfile) : list nat := filter (fun x => mem x (f_arrays (m_file f))) (read include f).
Definition other_names (include : list nat) (f : mfile) : list nat := filter (fun x => negb (mem x base) && negb (mem x (f_arrays (m_file f)))) (read include f).
(** Same kind of file: same arrays and same other variables, in the same order. *)
Definition same_kind (include : list nat) (f g : mfile) : Prop :=
  other_names include f = other_names include g /\ array_names include f = array_names include g /\ f_samples (m_file f) = f_samples (m_file g).
(** Stored integers of a variable: zeros when it is not read. *)
Definition stored (include : list nat) (f : mfile) (x : nat) : list Z :=
  if mem x (read include f) then match column (f_vars (m_file f)) x with Some c => c | None => [] end else repeat 0%Z (rows_of f).
(** Rotation of a file: the type of its first row if this is read, otherwise its title,
    otherwise its attribute; cyclonic if there is none. *)
Definition rotation_of (include : list nat) (f : mfile) : Z :=
  let s := if mem type_cyc (read include f) then nth 0 (stored include f type_cyc) 0%Z
           else match m_title f, m_rotation f with Some true, _ => -1 | Some false, _ => 1 | None, Some r => r | None, None => 0 end%Z in
  if (s =? 0)%Z then (-1)%Z else s.
Definition asked (files : list mfile) (include : option (list nat)) : list nat :=
  match include with Some i => i | None => match files with f :: _ => names f | [] => [] end end.
(** Fields of the output. *)
Definition written (include : list nat) (rotation : bool) (f : mfile) (x : nat) : Prop :=
  In x base /\ In x include \/ In x (read include f) \/ In x added \/ rotation = true /\ x = type_cyc.
End Spec.

Section Proofs.
Variables (base added : list nat) (enum : list nat -> list nat) (track type_cyc : nat).
Hypothesis EN : forall l, NoDup (enum l) /\ forall x, In x (enum l) <-> In x l.
Hypothesis TR : In track added.
Hypothesis TT : track <> type_cyc.
Notation load_one := (load_one base added enum type_cyc).
Notation other_names := (other_names base).

Lemma arrays_same : forall include f, shaped f -> (if 0 <? f_samples (m_file f) then array_names include f else []) = array_names include f.
Proof.
  intros include f (_ & A). destruct (Nat.ltb_spec 0 (f_samples (m_file f))) as [|N]; auto.
  unfold array_names. symmetry. induction (read include f) as [|x l IH]; cbn; auto.
  destruct (mem x (f_arrays (m_file f))) eqn:M; auto. apply mem_In in M. apply A in M. lia.
Qed.
Lemma other_same : forall include f, shaped f ->
  filter (fun x => negb (mem x base) && negb (mem x (array_names include f))) (read include f) = other_names include f.
Proof.
  intros include f G. unfold Mergec_props.other_names. apply filter_ext_in. intros x X. f_equal. f_equal.
  destruct (mem x (f_arrays (m_file f))) eqn:M.
  - apply mem_In. apply filter_In. auto.
  - apply mem_not. intros I. apply filter_In in I as [_ I]. congruence.
Qed.
(** What is loaded from a file. *)
Lemma load_ok : forall include f, shaped f -> exists d, load 0%Z base added enum (m_file f) None (Some include) = Some d /\ well_made base added enum d /\ size d = rows_of f /\
  extra d = other_names include f /\ samples d = f_samples (m_file f) /\ arrays d = array_names include f /\ only d = Some include /\ as_sets d = false /\
  (forall x, In x (fields d) <-> In x base /\ In x include \/ In x (read include f) \/ In x added) /\
  (forall x, In x (fields d) -> column (obs d) x = Some (stored include f x)).
Proof.
  intros include f G. destruct (C114_load 0%Z base added enum EN (m_file f) None (Some include) (proj1 G) (proj2 G)) as (d & E & W & S & F & C1 & C2).
  exists d. split; auto. split; auto. split; auto.
  assert (AT : extra d = other_names include f /\ samples d = f_samples (m_file f) /\ arrays d = array_names include f /\ only d = Some include /\ as_sets d = false).
  { unfold load in E. cbv zeta in E. cbn [build_var_list] in E. change (filter (fun x => mem x include) (map fst (f_vars (m_file f)))) with (read include f) in E.
    destruct (copy_columns _ _ _) as [o|]; cbn [bind] in E; [|discriminate]. apply Some_inj in E. subst d. cbn [extra samples arrays only as_sets with_obs create].
    change (filter (fun x => mem x (f_arrays (m_file f))) (read include f)) with (array_names include f). rewrite arrays_same by auto. rewrite other_same by auto. auto. }
  destruct AT as (A1 & A2 & A3 & A4 & A5). split; auto. split; auto. split; auto. split; auto. split; auto.
  assert (RD : forall x, In x (read include f) <-> In x (map fst (f_vars (m_file f))) /\ wanted None (Some include) x).
  { intros x. unfold read. rewrite filter_In, mem_In. reflexivity. }
  split.
  - intros x. rewrite F, RD. tauto.
  - intros x X. unfold stored. destruct (mem x (read include f)) eqn:M.
    + apply mem_In, RD in M as [M1 M2]. rewrite C1 by auto. destruct (column_In _ _ M1) as (c & -> & _). reflexivity.
    + apply mem_not in M. rewrite RD in M. apply C2; auto.
Qed.
Lemma sign_ok : forall include f, good f -> sign_type type_cyc f include = Some (rotation_of type_cyc include f).
Proof.
  intros include f G. unfold sign_type, rotation_of, stored. cbn [build_var_list]. change (filter (fun x => mem x include) (map fst (f_vars (m_file f)))) with (read include f).
  destruct (mem type_cyc (read include f)) eqn:M.
  - apply mem_In, filter_In in M as [M _]. destruct (column_In _ _ M) as (c & -> & I). cbn [bind]. pose proof (proj1 (proj2 G) _ _ I) as L. destruct G as [G _]. destruct c as [|z c]; [cbn in L; lia|]. reflexivity.
  - destruct (m_title f) as [[]|]; destruct (m_rotation f); reflexivity.
Qed.
Lemma load_one_ok : forall include rotation f, good f -> exists d, load_one include rotation f = Some (d, rotation_of type_cyc include f) /\ well_made base added enum d /\ size d = rows_of f /\ as_sets d = false /\
  extra d = other_names include f ++ (if rotation then [type_cyc] else []) /\ samples d = f_samples (m_file f) /\ arrays d = array_names include f /\
  only d = Some (if rotation then elements base added enum (other_names include f) (f_samples (m_file f)) (array_names include f) (Some include) ++ [type_cyc] else include) /\
  (forall x, In x (fields d) <-> written base added type_cyc include rotation f x) /\
  (forall x, In x (fields d) -> column (obs d) x = Some (if rotation && (x =? type_cyc) then repeat (rotation_of type_cyc include f) (rows_of f) else stored include f x)).
Proof.
  intros include rotation f G. destruct (load_ok include f (proj2 G)) as (d & E & W & S & A1 & A2 & A3 & A4 & A5 & F & C).
  unfold Mergec_model.load_one. rewrite E. cbn [bind]. rewrite sign_ok by auto. cbn [bind]. destruct rotation.
  - unfold add_rotation_type. destruct (C114_add 0%Z base added enum EN d [type_cyc] [] W A5) as (e & E2 & W2 & S2 & F2 & K1 & K2). rewrite E2. cbn [bind].
    assert (AT : extra e = extra d ++ [type_cyc] /\ samples e = samples d /\ arrays e = arrays d /\ only e = Some (fields d ++ [type_cyc]) /\ as_sets e = false).
    { unfold add_fields in E2. rewrite A5 in E2. cbv zeta in E2. destruct (copy_columns _ _ _) as [o|]; cbn [bind] in E2; [|discriminate]. apply Some_inj in E2. subst e. cbn. rewrite !app_nil_r. auto. }
    destruct AT as (B1 & B2 & B3 & B4 & B5).
    assert (FE : forall x, In x (fields e) <-> In x (fields d) \/ x = type_cyc) by (intros x; rewrite F2; cbn; intuition).
    destruct (set_column_spec (size e) (obs e) type_cyc (repeat (rotation_of type_cyc include f) (size e))) as (o & E3 & N3 & C3 & L3).
    + exact (proj2 W2).
    + change (In type_cyc (fields e)). apply FE. auto.
    + apply repeat_length.
    + rewrite E3. cbn [bind]. exists (with_obs e o). split; [reflexivity|]. assert (FF : fields (with_obs e o) = fields e) by exact N3.
      split; [split; [rewrite FF; exact (proj1 W2)|exact L3]|]. split; [cbn; congruence|]. split; [exact B5|]. cbn [extra samples arrays only with_obs].
      split; [rewrite B1, A1; reflexivity|]. split; [congruence|]. split; [congruence|].
      split; [rewrite B4; rewrite (proj1 W), A1, A2, A3, A4; reflexivity|].
      rewrite FF. split.
      * intros x. rewrite FE, F. unfold written. intuition.
      * intros x X. cbn [obs with_obs andb]. rewrite C3. destruct (x =? type_cyc) eqn:XT; [rewrite S2, S; reflexivity|]. apply Nat.eqb_neq in XT. apply FE in X as [X|X]; [|congruence]. rewrite K1 by auto. apply C; auto.
  - exists d. split; [reflexivity|]. repeat (split; [solve [auto | rewrite app_nil_r; auto]|]). split.
    + intros x. rewrite F. unfold written. intuition discriminate.
    + intros x X. cbn [andb]. apply C. auto.
Qed.
Lemma sequence_Forall2 : forall {A B} (f : A -> option B) l, (forall a, In a l -> exists b, f a = Some b) -> exists r, Corr_model.sequence (map f l) = Some r /\ Forall2 (fun a b => f a = Some b) l r.
Proof.
  induction l as [|a l IH]; intros H; [exists []; split; [reflexivity|constructor]|]. destruct (H a (or_introl eq_refl)) as [b HB]. destruct IH as (r & E & F); [intros; apply H; right; auto|].
  exists (b :: r). cbn [map Corr_model.sequence]. rewrite HB. cbn [bind]. rewrite E. split; [reflexivity|constructor; auto].
Qed.

(** Numbers of the tracks. *)
Lemma shift_ok : forall l last, (0 <= last)%Z -> (forall c, In c l -> c <> [] /\ forall t, In t c -> (0 <= t)%Z) ->
  exists trs, shift_tracks last l = Some (concat trs) /\ map (@length Z) trs = map (@length Z) l /\ (forall t, In t (concat trs) -> (last <= t)%Z) /\
  forall d d' c c' t t' i i' a a' b b', nth_error l d = Some c -> nth_error l d' = Some c' -> nth_error trs d = Some t -> nth_error trs d' = Some t' ->
    nth_error c i = Some a -> nth_error c' i' = Some a' -> nth_error t i = Some b -> nth_error t' i' = Some b' -> (b = b' <-> d = d' /\ a = a').
Proof.
  induction l as [|c l IH]; intros last L H.
  - exists []. repeat split; cbn; try tauto; intros; destruct d; discriminate.
  - destruct (H c (or_introl eq_refl)) as [NE P]. set (s := map (fun t => t + last)%Z c).
    assert (SN : s <> []) by (unfold s; destruct c; [congruence|discriminate]). cbn [shift_tracks]. fold s.
    destruct s as [|x xs] eqn:ES; [congruence|]. destruct (Generic_proofs.zmax_from_spec xs x) as [M1 M2]. set (mx := zmax_from x xs) in *.
    assert (LOW : forall t, In t (x :: xs) -> (last <= t <= mx)%Z).
    { intros t I. split; [|apply M2; auto]. rewrite <- ES in I. unfold s in I. apply in_map_iff in I as (u & <- & I). apply P in I. lia. }
    destruct (IH (mx + 1)%Z) as (trs & E & LE & LO & U); [pose proof (LOW _ M1); lia|intros; apply H; right; auto|].
    rewrite E. cbn [bind]. exists ((x :: xs) :: trs). split; [reflexivity|]. split; [cbn [map]; rewrite LE; f_equal; rewrite <- ES; apply map_length|]. split.
    { intros t I. cbn [concat] in I. apply in_app_iff in I as [I|I]; [apply LOW; auto|]. apply LO in I. pose proof (LOW _ M1). lia. }
    assert (OWN : forall i a b, nth_error c i = Some a -> nth_error (x :: xs) i = Some b -> b = (a + last)%Z).
    { intros i a b A B. rewrite <- ES in B. unfold s in B. rewrite nth_error_map, A in B. apply Some_inj in B. auto. }
    assert (FAR : forall d t i b, nth_error trs d = Some t -> nth_error t i = Some b -> (mx + 1 <= b)%Z).
    { intros d t i b T B. apply LO. apply in_concat. exists t. split; eapply nth_error_In; eauto. }
    intros d d' c1 c1' t t' i i' a a' b b' C1 C2 T1 T2 A1 A2 B1 B2.
    destruct d as [|d], d' as [|d']; cbn in C1, C2, T1, T2.
    + apply Some_inj in C1, C2, T1, T2. subst. rewrite (OWN _ _ _ A1 B1), (OWN _ _ _ A2 B2). split; [intros; split; auto; lia|intros [_ ->]; auto].
    + apply Some_inj in C1, T1. subst. apply nth_error_In in B1. apply LOW in B1. pose proof (FAR _ _ _ _ T2 B2). split; [lia|intros [? _]; discriminate].
    + apply Some_inj in C2, T2. subst. apply nth_error_In in B2. apply LOW in B2. pose proof (FAR _ _ _ _ T1 B1). split; [lia|intros [? _]; discriminate].
    + rewrite (U d d' c1 c1' t t' i i' a a' b b') by auto. split; intros [? ?]; split; auto.
Qed.
Lemma shift_zeros : forall l k, (forall c, In c l -> exists m, c = repeat 0%Z (S m)) ->
  shift_tracks (Z.of_nat k) l = Some (concat (map (fun p => repeat (Z.of_nat (fst p)) (length (snd p))) (combine (seq k (length l)) l))).
Proof.
  induction l as [|c l IH]; intros k H; [reflexivity|]. destruct (H c (or_introl eq_refl)) as [m ->]. cbn [shift_tracks].
  assert (E : map (fun t => t + Z.of_nat k)%Z (repeat 0%Z (S m)) = repeat (Z.of_nat k) (S m)) by (generalize (S m); intros j; induction j; cbn [repeat map]; auto; rewrite IHj; f_equal).
  rewrite E. cbn [repeat]. assert (MX : zmax_from (Z.of_nat k) (repeat (Z.of_nat k) m) = Z.of_nat k).
  { destruct (Generic_proofs.zmax_from_spec (repeat (Z.of_nat k) m) (Z.of_nat k)) as [[M|M] _]; [auto|apply repeat_spec in M; auto]. }
  rewrite MX. replace (Z.of_nat k + 1)%Z with (Z.of_nat (S k)) by lia. rewrite IH by (intros; apply H; right; auto). cbn [bind length seq combine map concat fst snd repeat]. rewrite repeat_length. reflexivity.
Qed.

Notation merge_eddies := (merge_eddies base added enum track type_cyc).
Notation same_kind := (same_kind base).
Notation written := (written base added type_cyc).
Notation rotation_of := (rotation_of type_cyc).
Lemma Forall2_map_l : forall {A B C} (g : B -> C) (h : A -> C) (P : A -> B -> Prop) l r, (forall a b, In a l -> P a b -> g b = h a) -> Forall2 P l r -> map g r = map h l.
Proof. intros A B C g h P l r H F. induction F; cbn; auto. rewrite (H x y) by (auto; left; reflexivity). rewrite IHF; auto. intros; apply H; auto. right; auto. Qed.
Lemma Forall2_In_r : forall {A B} (P : A -> B -> Prop) l r p, Forall2 P l r -> In p r -> exists f, In f l /\ P f p.
Proof. intros A B P l r p F. induction F as [|x y l r HP F IH]; intros I; [destruct I|]. destruct I as [<-|I]; [exists x; split; [left|]; auto|]. destruct (IH I) as (f & I1 & I2). exists f. split; [right|]; auto. Qed.
Lemma sequence_F2 : forall {A B C} (h : B -> option C) (g : A -> C) l r, Forall2 (fun f p => h p = Some (g f)) l r -> Corr_model.sequence (map h r) = Some (map g l).
Proof. intros A B C h g l r F. induction F as [|x y l r HP F IH]; [reflexivity|]. cbn [map Corr_model.sequence]. rewrite HP. cbn [bind]. rewrite IH. reflexivity. Qed.
Lemma coherent_iff : forall d e : @dataset Z, as_sets d = false -> as_sets e = false -> (coherence d e = true <-> extra d = extra e /\ samples d = samples e /\ arrays d = arrays e).
Proof.
  intros d e A B. unfold coherence, same_names. rewrite A, B. cbn [Bool.eqb andb]. destruct (list_eq_dec Nat.eq_dec (extra d) (extra e)), (list_eq_dec Nat.eq_dec (arrays d) (arrays e)), (Nat.eqb_spec (samples d) (samples e)); cbn; split; intuition congruence.
Qed.

(** What a merge of good files of the same kind gives. *)
Lemma merge_ok : forall f0 fs include rotation (files := f0 :: fs) (inc := asked files include),
  (forall f, In f files -> good f /\ same_kind inc f f0 /\ forall t, In t (stored inc f track) -> (0 <= t)%Z) ->
  exists o tr, merge_eddies files include rotation = Some (Merged o (rotation_of inc f0)) /\
    (forall x, In x (map fst o) <-> written inc rotation f0 x) /\
    (forall x, written inc rotation f0 x -> column o x = Some (if x =? track then tr else
       concat (map (fun f => if rotation && (x =? type_cyc) then repeat (rotation_of inc f) (rows_of f) else stored inc f x) files))) /\
    shift_tracks 0 (map (fun f => stored inc f track) files) = Some tr.
Proof.
  intros f0 fs include rotation files inc H.
  assert (HL : forall f, In f files -> exists r, load_one inc rotation f = Some r).
  { intros f I. destruct (load_one_ok inc rotation f) as (d & E & _); [apply H; auto|eauto]. }
  destruct (sequence_Forall2 (load_one inc rotation) files HL) as (l & ES & F2).
  set (Q1 := fun (f : mfile) (p : @dataset Z * Z) => snd p = rotation_of inc f /\ well_made base added enum (fst p) /\ size (fst p) = rows_of f /\ as_sets (fst p) = false /\
    extra (fst p) = other_names inc f0 ++ (if rotation then [type_cyc] else []) /\ samples (fst p) = f_samples (m_file f0) /\ arrays (fst p) = array_names inc f0 /\
    only (fst p) = Some (if rotation then elements base added enum (other_names inc f0) (f_samples (m_file f0)) (array_names inc f0) (Some inc) ++ [type_cyc] else inc) /\
    (forall x, In x (fields (fst p)) <-> written inc rotation f x) /\
    (forall x, In x (fields (fst p)) -> column (obs (fst p)) x = Some (if rotation && (x =? type_cyc) then repeat (rotation_of inc f) (rows_of f) else stored inc f x))).
  assert (F3 : Forall2 Q1 files l).
  { assert (X : forall g l, (forall f, In f g -> In f files) -> Forall2 (fun f p => load_one inc rotation f = Some p) g l -> Forall2 Q1 g l).
    { clear ES F2 l. intros g l S F. induction F as [|f p g l HP F IH]; constructor; [|apply IH; intros; apply S; right; auto].
      destruct (H f (S f (or_introl eq_refl))) as (G & (K1 & K2 & K3) & _). destruct (load_one_ok inc rotation f G) as (d & E & B1 & B2 & B3 & B4 & B5 & B6 & B7 & B8 & B9).
      rewrite E in HP. apply Some_inj in HP. subst p. unfold Q1. cbn [fst snd]. rewrite K1 in B4, B7. rewrite K2 in B6, B7. rewrite K3 in B5, B7. auto 12. }
    apply X; auto. }
  destruct l as [|[d0 s0] l']; [inversion F3|].
  assert (Q0 : Q1 f0 (d0, s0)) by (inversion F3; auto). destruct Q0 as (A0 & A1 & A2 & A3 & A4 & A5 & A6 & A7 & A8 & A9). cbn [fst snd] in *.
  assert (ALL : forall p, In p ((d0, s0) :: l') -> exists f, In f files /\ Q1 f p).
  { intros p I. exact (Forall2_In_r Q1 _ _ p F3 I). }
  destruct (C114_concatenate 0%Z base added enum EN d0 (map fst l')) as (e & EC & FE & SE & CE).
  { intros e I. assert (I' : In e (map fst ((d0, s0) :: l'))) by exact I. apply in_map_iff in I' as (p & <- & I'). destruct (ALL p I') as (f & _ & B0 & B1 & B2 & B3 & B4 & B5 & B6 & B7 & _).
    split; auto. split; [rewrite (proj1 B1), (proj1 A1); congruence|]. split; auto. split; [congruence|]. split; congruence. }
  assert (FT : forall x, In x (fields d0) <-> written inc rotation f0 x) by exact A8.
  assert (TF : In track (fields d0)) by (apply FT; unfold Mergec_props.written; auto).
  assert (SAMEF : forall p, In p ((d0, s0) :: l') -> fields (fst p) = fields d0).
  { intros p I. destruct (ALL p I) as (f & _ & B0 & B1 & B2 & B3 & B4 & B5 & B6 & B7 & _). rewrite (proj1 B1), (proj1 A1). congruence. }
  set (val := fun (x : nat) (f : mfile) => if rotation && (x =? type_cyc) then repeat (rotation_of inc f) (rows_of f) else stored inc f x).
  assert (COL : forall x, In x (fields d0) -> Forall2 (fun f p => column (obs (fst p)) x = Some (val x f)) files ((d0, s0) :: l')).
  { intros x X. assert (G : forall g r, Forall2 Q1 g r -> (forall p, In p r -> In p ((d0, s0) :: l')) -> Forall2 (fun f p => column (obs (fst p)) x = Some (val x f)) g r).
    { intros g r F. induction F as [|f p g r HP F IH]; intros S; constructor; [|apply IH; intros; apply S; right; auto]. apply HP. rewrite SAMEF by (apply S; left; auto). auto. }
    apply G; auto. }
  assert (VT : forall f, val track f = stored inc f track) by (intros f; unfold val; rewrite (proj2 (Nat.eqb_neq _ _) TT), andb_false_r; reflexivity).
  assert (SEQ : Corr_model.sequence (map (fun d => column (obs (fst d)) track) ((d0, s0) :: l')) = Some (map (fun f => stored inc f track) files)).
  { rewrite (sequence_F2 _ (val track) files _ (COL track TF)). f_equal. apply map_ext. exact VT. }
  destruct (shift_ok (map (fun f => stored inc f track) files) 0) as (trs & ET & LT & _ & _); [lia| |].
  { intros c I. apply in_map_iff in I as (f & <- & I). destruct (H f I) as (G & _ & P). split; [|exact P].
    assert (L : length (stored inc f track) = rows_of f).
    { unfold stored. destruct (mem track (read inc f)) eqn:M; [|apply repeat_length]. apply mem_In, filter_In in M as [M _]. destruct (column_In _ _ M) as (c & -> & I2). eapply G; eauto. }
    intros E. rewrite E in L. destruct G as [G _]. cbn in L. lia. }
  assert (LEN : length (concat trs) = size e).
  { rewrite SE. assert (X : forall t : list (list Z), length (concat t) = sum_list (map (@length Z) t)) by (induction t; cbn; auto; rewrite app_length; congruence). rewrite X, LT. f_equal.
    change (d0 :: map fst l') with (map fst ((d0, s0) :: l')). rewrite !map_map. symmetry. eapply (Forall2_map_l _ _ Q1); [|exact F3]. intros f p I HP. destruct HP as (_ & _ & -> & _).
    destruct (H f I) as (G & _). unfold stored. destruct (mem track (read inc f)) eqn:M; [|symmetry; apply repeat_length]. apply mem_In, filter_In in M as [M _]. destruct (column_In _ _ M) as (c & -> & I2). symmetry. eapply G; eauto. }
  assert (LE : forall y d, In (y, d) (obs e) -> length d = size e).
  { clear - EC CE FE SE ALL A1 SAMEF COL H EN. intros y d I.
    assert (NDF : NoDup (map fst (obs e))) by (change (NoDup (fields e)); rewrite FE, (proj1 A1); apply elements_spec; auto).
    assert (Y : In y (fields d0)) by (rewrite <- FE; apply (in_map fst) in I; exact I).
    assert (D : column (obs e) y = Some d).
    { clear - I NDF. induction (obs e) as [|[z c] r IH]; [destruct I|]. cbn [column]. cbn in NDF. inversion NDF as [|? ? N1 N2]; subst. destruct I as [E|I]; [injection E as <- <-; rewrite Nat.eqb_refl; reflexivity|].
      destruct (Nat.eqb_spec y z) as [->|]; [exfalso; apply N1; apply (in_map fst) in I; exact I|auto]. }
    rewrite (CE y Y) in D. apply Some_inj in D. subst d. rewrite SE. change (d0 :: map fst l') with (map fst ((d0, s0) :: l')).
    assert (G : forall r, (forall p, In p r -> In p ((d0, s0) :: l')) -> length (concat (map (fun e0 => col_of e0 y) (map fst r))) = sum_list (map size (map fst r))).
    { induction r as [|p r IH]; intros S; [reflexivity|]. cbn [map concat]. rewrite app_length, IH by (intros; apply S; right; auto). cbn [sum_list]. f_equal.
      destruct (ALL p (S p (or_introl eq_refl))) as (f & _ & _ & W & _). apply (proj2 (well_made_obs base added enum EN (fst p) W)). rewrite SAMEF by (apply S; left; auto). auto. }
    apply G. auto. }
  destruct (set_column_spec (size e) (obs e) track (concat trs) LE) as (o & EO & NO & CO & _); [change (In track (fields e)); rewrite FE; auto|auto|].
  exists o, (concat trs). split.
  { unfold Mergec_model.merge_eddies. unfold files. fold files. change (match include with Some i => i | None => map fst (f_vars (m_file f0)) end) with inc. rewrite ES. cbn [bind].
    change (map fst ((d0, s0) :: l')) with (d0 :: map fst l'). rewrite EC. cbn [bind]. rewrite SEQ. cbn [bind]. rewrite ET. cbn [bind]. rewrite EO. cbn [bind]. rewrite A0. reflexivity. }
  split; [intros x; rewrite NO; change (map fst (obs e)) with (fields e); rewrite FE; apply FT|]. split; [|exact ET].
  intros x X. apply FT in X. rewrite CO. destruct (x =? track) eqn:XT; [reflexivity|]. rewrite CE by auto. f_equal. f_equal.
  change (d0 :: map fst l') with (map fst ((d0, s0) :: l')). rewrite map_map. eapply Forall2_map_l; [|exact (COL x X)]. cbn beta. intros f p _ HP. unfold col_of. rewrite HP. reflexivity.
Qed.

Lemma load_one_shape : forall include rotation f r, shaped f -> load_one include rotation f = Some r ->
  as_sets (fst r) = false /\ extra (fst r) = other_names include f ++ (if rotation then [type_cyc] else []) /\ samples (fst r) = f_samples (m_file f) /\ arrays (fst r) = array_names include f /\
  exists c, column (obs (fst r)) track = Some c /\ length c = rows_of f.
Proof.
  intros include rotation f r G E. destruct (load_ok include f G) as (d & EL & W & S & A1 & A2 & A3 & A4 & A5 & F & C).
  assert (TF : In track (fields d)) by (apply F; auto). unfold Mergec_model.load_one in E. rewrite EL in E. cbn [bind] in E. destruct (sign_type type_cyc f include) as [s|]; cbn [bind] in E; [|discriminate]. destruct rotation.
  - unfold add_rotation_type in E. destruct (C114_add 0%Z base added enum EN d [type_cyc] [] W A5) as (e & E2 & W2 & S2 & F2 & K1 & K2).
    assert (AT : extra e = extra d ++ [type_cyc] /\ samples e = samples d /\ arrays e = arrays d /\ as_sets e = false).
    { unfold add_fields in E2. rewrite A5 in E2. cbv zeta in E2. destruct (copy_columns _ _ _) as [o|]; cbn [bind] in E2; [|discriminate]. apply Some_inj in E2. subst e. cbn. rewrite !app_nil_r. auto. }
    rewrite E2 in E. cbn [bind] in E. destruct AT as (B1 & B2 & B3 & B5).
    destruct (set_column_spec (size e) (obs e) type_cyc (repeat s (size e))) as (o & E3 & N3 & C3 & L3); [exact (proj2 W2)|change (In type_cyc (fields e)); apply F2; cbn; auto|apply repeat_length|].
    rewrite E3 in E. cbn [bind] in E. apply Some_inj in E. subst r. cbn [fst with_obs as_sets extra samples arrays obs]. split; auto. split; [congruence|]. split; [congruence|]. split; [congruence|].
    rewrite C3, (proj2 (Nat.eqb_neq _ _) TT), K1 by auto. destruct (column_In (obs d) track TF) as (c & -> & I). exists c. split; auto. rewrite <- S. eapply W; eauto.
  - apply Some_inj in E. subst r. cbn [fst]. rewrite app_nil_r. split; auto. split; auto. split; auto. split; auto. destruct (column_In (obs d) track TF) as (c & -> & I). exists c. split; auto. rewrite <- S. eapply W; eauto.
Qed.
Lemma sequence_inv : forall {A B} (f : A -> option B) l r, Corr_model.sequence (map f l) = Some r -> Forall2 (fun a b => f a = Some b) l r.
Proof.
  induction l as [|a l IH]; intros r E; cbn in E; [apply Some_inj in E; subst; constructor|]. destruct (f a) eqn:FA; cbn [bind] in E; [|discriminate]. destruct (Corr_model.sequence (map f l)); cbn [bind] in E; [|discriminate]. apply Some_inj in E. subst. constructor; auto.
Qed.
Lemma Forall2_In_l : forall {A B} (P : A -> B -> Prop) l r a, Forall2 P l r -> In a l -> exists p, In p r /\ P a p.
Proof. intros A B P l r a F. induction F as [|x y l r HP F IH]; intros I; [destruct I|]. destruct I as [<-|I]; [exists y; split; [left|]; auto|]. destruct (IH I) as (f & I1 & I2). exists f. split; [right|]; auto. Qed.
Lemma shift_empty : forall l last, In [] l -> shift_tracks last l = None.
Proof. induction l as [|c l IH]; intros last I; [destruct I|]. cbn. destruct c as [|z c]; [reflexivity|]. destruct I as [I|I]; [discriminate|]. cbn [map]. rewrite IH by auto. reflexivity. Qed.

(** ** C151 *)

(** A merge of files of the same kind keeps the rows in order, with the fields of the
    first file; the numbers of two rows are the same exactly when the rows are in the same
    file with the same number. *)
Theorem C151_merge : forall f0 fs include rotation (files := f0 :: fs) (inc := asked files include),
  (forall f, In f files -> good f /\ same_kind inc f f0 /\ forall t, In t (stored inc f track) -> (0 <= t)%Z) ->
  exists o trs, merge_eddies files include rotation = Some (Merged o (rotation_of inc f0)) /\
    (forall x, In x (map fst o) <-> written inc rotation f0 x) /\
    (forall x, written inc rotation f0 x -> x <> track -> (rotation = true -> x <> type_cyc) -> column o x = Some (concat (map (fun f => stored inc f x) files))) /\
    (rotation = true -> column o type_cyc = Some (concat (map (fun f => repeat (rotation_of inc f) (rows_of f)) files))) /\
    column o track = Some (concat trs) /\ map (@length Z) trs = map rows_of files /\
    forall d d' f f' t t' i i' a a' b b', nth_error files d = Some f -> nth_error files d' = Some f' -> nth_error trs d = Some t -> nth_error trs d' = Some t' ->
      nth_error (stored inc f track) i = Some a -> nth_error (stored inc f' track) i' = Some a' -> nth_error t i = Some b -> nth_error t' i' = Some b' -> (b = b' <-> d = d' /\ a = a').
Proof.
  intros f0 fs include rotation files inc H. destruct (merge_ok f0 fs include rotation H) as (o & tr & E & FO & CO & ST). fold files inc in E, FO, CO, ST.
  assert (LS : forall f, In f files -> length (stored inc f track) = rows_of f).
  { intros f I. destruct (H f I) as (G & _). unfold stored. destruct (mem track (read inc f)) eqn:M; [|apply repeat_length]. apply mem_In, filter_In in M as [M _]. destruct (column_In _ _ M) as (c & -> & I2). eapply G; eauto. }
  destruct (shift_ok (map (fun f => stored inc f track) files) 0) as (trs & ET & LT & _ & U); [lia| |].
  { intros c I. apply in_map_iff in I as (f & <- & I). destruct (H f I) as (G & _ & P). split; [|exact P]. pose proof (LS f I) as L. intros E0. rewrite E0 in L. destruct G as [G _]. cbn in L. lia. }
  rewrite ST in ET. apply Some_inj in ET. subst tr. exists o, trs. split; auto. split; auto. split.
  { intros x X XT XC. rewrite CO by auto. rewrite (proj2 (Nat.eqb_neq _ _) XT). destruct rotation; [rewrite (proj2 (Nat.eqb_neq _ _) (XC eq_refl))|]; reflexivity. }
  split.
  { intros ->. rewrite CO by (unfold Mergec_props.written; auto 6). rewrite (proj2 (Nat.eqb_neq _ _) (not_eq_sym TT)), Nat.eqb_refl. reflexivity. }
  split; [rewrite CO by (unfold Mergec_props.written; auto); rewrite Nat.eqb_refl; reflexivity|].
  split; [rewrite LT, map_map; apply map_ext_in; exact LS|].
  intros d d' f f' t t' i i' a a' b b' F1 F2. apply U; rewrite nth_error_map; [rewrite F1|rewrite F2]; reflexivity.
Qed.
(** Files which are not of the same kind, or without rows, are errors. *)
Theorem C151_different : forall f0 fs include rotation (files := f0 :: fs) (inc := asked files include), (forall f, In f files -> shaped f) ->
  (exists f, In f files /\ ~ same_kind inc f f0) -> merge_eddies files include rotation = None.
Proof.
  intros f0 fs include rotation files inc SH (f & I & NK). unfold Mergec_model.merge_eddies, files. fold files. change (match include with Some i => i | None => map fst (f_vars (m_file f0)) end) with inc.
  destruct (Corr_model.sequence (map (load_one inc rotation) files)) as [l|] eqn:ES; cbn [bind]; [|reflexivity]. apply sequence_inv in ES.
  destruct (Forall2_In_l _ _ _ f ES I) as (p & IP & EP). destruct l as [|p0 l]; [destruct IP|].
  assert (E0 : load_one inc rotation f0 = Some p0) by (inversion ES; auto).
  assert (C : concatenate 0%Z base added enum (map fst (p0 :: l)) = None); [|rewrite C; reflexivity].
  unfold concatenate. cbn [map]. change (fst p0 :: map fst l) with (map fst (p0 :: l)). destruct (forallb (coherence (fst p0)) (map fst (p0 :: l))) eqn:FB; [|reflexivity]. exfalso. apply NK.
  rewrite forallb_forall in FB. specialize (FB (fst p) (in_map fst _ _ IP)).
  destruct (load_one_shape inc rotation f p (SH f I) EP) as (A1 & A2 & A3 & A4 & _). destruct (load_one_shape inc rotation f0 p0 (SH f0 (or_introl eq_refl)) E0) as (B1 & B2 & B3 & B4 & _).
  apply coherent_iff in FB as (C1 & C2 & C3); auto. rewrite A2, B2 in C1. apply app_inv_tail in C1. unfold Mergec_props.same_kind. split; [auto|split; congruence].
Qed.
Theorem C151_empty : forall f0 fs include rotation (files := f0 :: fs), (forall f, In f files -> shaped f) -> (exists f, In f files /\ rows_of f = 0) -> merge_eddies files include rotation = None.
Proof.
  intros f0 fs include rotation files SH (f & I & Z0). unfold Mergec_model.merge_eddies, files. fold files. set (inc := match include with Some i => i | None => map fst (f_vars (m_file f0)) end).
  destruct (Corr_model.sequence (map (load_one inc rotation) files)) as [l|] eqn:ES; cbn [bind]; [|reflexivity]. apply sequence_inv in ES.
  destruct (concatenate _ _ _ _ _) as [e|]; cbn [bind]; [|reflexivity].
  destruct (Corr_model.sequence (map (fun d => column (obs (fst d)) track) l)) as [cols|] eqn:EC; cbn [bind]; [|reflexivity]. apply sequence_inv in EC.
  destruct (Forall2_In_l _ _ _ f ES I) as (p & IP & EP). destruct (Forall2_In_l _ _ _ p EC IP) as (c & IC & CC).
  destruct (load_one_shape inc rotation f p (SH f I) EP) as (_ & _ & _ & _ & c' & C1 & C2). rewrite CC in C1. apply Some_inj in C1. subst c'. rewrite Z0 in C2. destruct c; [|discriminate].
  rewrite shift_empty by auto. reflexivity.
Qed.
(** When the number of the track is not read, each file becomes one track. *)
Theorem C151_tracks_refuted : forall f0 fs include rotation (files := f0 :: fs) (inc := asked files include),
  (forall f, In f files -> good f /\ same_kind inc f f0) -> ~ In track inc ->
  exists o s, merge_eddies files include rotation = Some (Merged o s) /\
    column o track = Some (concat (map (fun p => repeat (Z.of_nat (fst p)) (rows_of (snd p))) (combine (seq 0 (length files)) files))).
Proof.
  intros f0 fs include rotation files inc H NT.
  assert (SZ : forall f, stored inc f track = repeat 0%Z (rows_of f)).
  { intros f. unfold stored. replace (mem track (read inc f)) with false; [reflexivity|]. symmetry. apply mem_not. intros I. apply filter_In in I as [_ I]. apply mem_In in I. auto. }
  destruct (merge_ok f0 fs include rotation) as (o & tr & E & FO & CO & ST).
  { intros f I. destruct (H f I). split; auto. split; auto. intros t T. fold files inc in T. rewrite SZ in T. apply repeat_spec in T. lia. }
  fold files inc in E, FO, CO, ST. exists o. eexists. split; [exact E|]. rewrite CO by (unfold Mergec_props.written; auto). rewrite Nat.eqb_refl. f_equal.
  rewrite (map_ext _ (fun f => repeat 0%Z (rows_of f)) SZ) in ST. change 0%Z with (Z.of_nat 0) in ST at 1. rewrite shift_zeros in ST.
  - apply Some_inj in ST. rewrite <- ST. f_equal. rewrite map_length. clear. generalize 0 as k. induction files as [|f l IH]; intros k; [reflexivity|]. cbn [length seq map combine fst snd]. rewrite repeat_length, IH. reflexivity.
  - intros c I. apply in_map_iff in I as (f & <- & I). destruct (H f I) as [[G _] _]. exists (rows_of f - 1). replace (S (rows_of f - 1)) with (rows_of f) by lia. reflexivity.
Qed.
(** Values: a stored integer is read with the packing of its file, and in the output with
    the one of the software. *)
Definition value (p : Q * Q) (z : Z) : Q := (inject_Z z * fst p + snd p)%Q.
Theorem C151_values : forall software f0 fs include rotation x (files := f0 :: fs) (inc := asked files include),
  (forall f, In f files -> good f /\ same_kind inc f f0 /\ (forall t, In t (stored inc f track) -> (0 <= t)%Z) /\ m_packing f x = software x) ->
  written inc rotation f0 x -> x <> track -> x <> type_cyc ->
  exists o s c, merge_eddies files include rotation = Some (Merged o s) /\ column o x = Some c /\
    map (value (software x)) c = concat (map (fun f => map (value (m_packing f x)) (stored inc f x)) files).
Proof.
  intros software f0 fs include rotation x files inc H W NT NC. destruct (C151_merge f0 fs include rotation) as (o & trs & E & _ & CO & _); [intros f I; destruct (H f I) as (? & ? & ? & _); auto|].
  fold files inc in E, CO. exists o. do 2 eexists. split; [exact E|]. split; [apply CO; auto|]. rewrite concat_map, map_map. f_equal. apply map_ext_in. intros f I. destruct (H f I) as (_ & _ & _ & P). cbn beta. rewrite P. reflexivity.
Qed.
End Proofs.
Print Assumptions C151_merge.
Print Assumptions C151_different.
Print Assumptions C151_empty.
Print Assumptions C151_tracks_refuted.
Print Assumptions C151_values.

(** ** Cases: 0 amplitude and 1 radius are basic, 2 is another variable, 3 the type of
    rotation, 4 the track, 5 and 6 the two other fields of tracks *)
Definition set_enum (l : list nat) : list nat := nodup Nat.eq_dec l.
Lemma set_enum_ok : forall l, NoDup (set_enum l) /\ forall x, In x (set_enum l) <-> In x l.
Proof. intros l. split; [apply NoDup_nodup|intros x; apply nodup_In]. Qed.
Definition run := merge_eddies [0; 1] [4; 5; 6] set_enum 4 3.
Definition unit_packing (_ : nat) : Q * Q := (1, 0)%Q.
Definition file_of (n : nat) (vars : list (nat * list Z)) (title : option bool) : mfile := MFile (File n vars 0 []) unit_packing title None.
Definition cyclones := file_of 3 [(4%nat, [0; 0; 1]); (0%nat, [5; 6; 7]); (1%nat, [50; 60; 70]); (2%nat, [1; 1; 2])]%Z (Some true).
Definition anticyclones := file_of 2 [(4%nat, [0; 2]); (0%nat, [8; 9]); (1%nat, [80; 90]); (2%nat, [3; 3])]%Z (Some false).
Definition get_out (r : option merged) (x : nat) : option (list Z) := match r with Some m => column (out m) x | None => None end.

Example C151_case :
  (forall f, In f [cyclones; anticyclones] -> good f /\ same_kind [0; 1] [4; 0; 1; 2] f cyclones /\ forall t, In t (stored [4; 0; 1; 2] f 4) -> (0 <= t)%Z) /\
  map (get_out (run [cyclones; anticyclones] None true)) [0; 2; 3; 4; 5] =
    [Some [5; 6; 7; 8; 9]; Some [1; 1; 2; 3; 3]; Some [-1; -1; -1; 1; 1]; Some [0; 0; 1; 2; 4]; Some [0; 0; 0; 0; 0]]%Z /\
  option_map out_sign (run [cyclones; anticyclones] None true) = Some (-1)%Z.
Proof.
  split; [|split; reflexivity]. intros f [<-|[<-|[]]].
  - split; [split; [cbn; lia|split; [intros x c H; cbn in H; repeat (destruct H as [H|H]; [injection H as <- <-; reflexivity|]); destruct H|intros x []]]|]. split; [repeat split; reflexivity|]. cbn. intros t H. lia.
  - split; [split; [cbn; lia|split; [intros x c H; cbn in H; repeat (destruct H as [H|H]; [injection H as <- <-; reflexivity|]); destruct H|intros x []]]|]. split; [repeat split; reflexivity|]. cbn. intros t H. lia.
Qed.
(** A basic variable which is not in the second file is filled with zeros, and a basic
    variable which is not in the first one is lost. *)
Theorem C151_missing_refuted :
  let f := file_of 2 [(4%nat, [0; 0]); (0%nat, [5; 6])]%Z (Some true) in let g := file_of 2 [(4%nat, [0; 0]); (1%nat, [80; 90])]%Z (Some true) in
  get_out (run [f; g] None false) 0 = Some [5; 6; 0; 0]%Z /\ run [f; g] None false <> None /\ get_out (run [f; g] None false) 1 = None.
Proof. vm_compute. split; [reflexivity|split; [discriminate|reflexivity]]. Qed.
(** Variables of the second file stored with another packing change of value. *)
Theorem C151_packing_refuted :
  let f := file_of 1 [(4%nat, [0]); (0%nat, [5])]%Z (Some true) in let g := MFile (File 1 [(4%nat, [0]); (0%nat, [5])]%Z 0 []) (fun _ => (1 # 10, 0)%Q) (Some true) None in
  map (value (m_packing g 0)) (stored [4; 0] g 0) = [5 # 10]%Q /\
  option_map (map (value (unit_packing 0))) (get_out (run [f; g] None false) 0) = Some [5 # 1; 5 # 1]%Q.
Proof. vm_compute. split; reflexivity. Qed.
(** The rotation is asked for on a file which has both types already: all its rows take
    the type of the first one.  Without asking, the merged file of both rotations is said
    to be of the rotation of the first file. *)
Theorem C151_rotation_refuted :
  let both := file_of 4 [(4%nat, [0; 0; 1; 1]); (0%nat, [5; 6; 7; 8]); (3%nat, [-1; -1; 1; 1])]%Z None in
  get_out (run [both] None false) 3 = Some [-1; -1; 1; 1]%Z /\ get_out (run [both] None true) 3 = Some [-1; -1; -1; -1]%Z /\
  option_map out_sign (run [cyclones; anticyclones] None false) = Some (-1)%Z /\ option_map out_sign (run [anticyclones; cyclones] None false) = Some 1%Z.
Proof. vm_compute. repeat split; reflexivity. Qed.
(** Case of [C151_tracks_refuted] and of [C151_different]. *)
Example C151_tracks_case : get_out (run [cyclones; anticyclones] (Some [0; 1; 2]) false) 4 = Some [0; 0; 0; 1; 1]%Z /\
  run [cyclones; file_of 2 [(4%nat, [0; 2]); (0%nat, [8; 9]); (1%nat, [80; 90])]%Z (Some false)] None false = None /\
  run [cyclones; file_of 0 [(4%nat, []); (0%nat, []); (1%nat, []); (2%nat, [])] (Some false)] None false = None.
Proof. vm_compute. repeat split; reflexivity. Qed.
