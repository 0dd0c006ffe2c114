(** Fields of a dataset. *)
From Coq Require Import List Arith Bool Lia.
From Verif Require Import Base Fields_model.
From Verif Require Corr_model.
Import ListNotations.

Section Props.
Context {V : Type}.
Variables (zero : V) (base added : list nat) (enum : list nat -> list nat).
(** Iterating on a set gives each of its elements once. *)
Hypothesis EN : forall l, NoDup (enum l) /\ forall x, In x (enum l) <-> In x l.
Notation dataset := (@dataset V).
(** A dataset made by the software: its fields are those of its attributes and all its
    columns have the same number of rows. *)
Definition well_made (d : dataset) : Prop :=
  fields d = elements base added enum (extra d) (samples d) (arrays d) (only d) /\ forall x c, In (x, c) (obs d) -> length c = size d.

Lemma mem_In : forall x l, mem x l = true <-> In x l.
Proof. intros x l. unfold mem. rewrite existsb_exists. split; [intros (y & H & E); apply Nat.eqb_eq in E; subst; exact H|intros H; exists x; split; [exact H|apply Nat.eqb_refl]]. Qed.
Lemma mem_not : forall x l, mem x l = false <-> ~ In x l.
Proof. intros x l. rewrite <- mem_In. destruct (mem x l); split; congruence. Qed.
Lemma In_minus : forall x a b, In x (minus a b) <-> In x a /\ ~ In x b.
Proof. intros x a b. unfold minus. rewrite filter_In, negb_true_iff, mem_not. reflexivity. Qed.
Lemma elements_spec : forall ex n ar on, NoDup (elements base added enum ex n ar on) /\ forall x, In x (elements base added enum ex n ar on) <->
  (In x base \/ 0 < n /\ In x ar \/ In x ex) /\ match on with None => True | Some o => In x o end \/ In x added.
Proof.
  intros ex n ar on. unfold elements. set (l := base ++ (if 0 <? n then ar else []) ++ ex). set (l' := match on with None => l | Some o => filter (fun x => mem x o) l end).
  assert (L : forall x, In x l <-> In x base \/ 0 < n /\ In x ar \/ In x ex). { intros x. unfold l. rewrite !in_app_iff. destruct (Nat.ltb_spec 0 n); cbn [In]; intuition lia. }
  assert (L' : forall x, In x l' <-> (In x base \/ 0 < n /\ In x ar \/ In x ex) /\ match on with None => True | Some o => In x o end). { intros x. unfold l'. destruct on as [o|]; [rewrite filter_In, L, mem_In; reflexivity|rewrite L; tauto]. }
  clearbody l'. destruct added as [|a r] eqn:AD.
  - split; [apply EN|]. intros x. rewrite (proj2 (EN _)), L'. cbn. tauto.
  - rewrite <- AD. split; [apply EN|]. intros x. rewrite (proj2 (EN _)), in_app_iff, (proj2 (EN _)), L'. tauto.
Qed.

Lemma column_In : forall (cols : list (nat * list V)) x, In x (map fst cols) -> exists c, column cols x = Some c /\ In (x, c) cols.
Proof.
  induction cols as [|[y c] r IH]; intros x H; [destruct H|]. cbn [column]. destruct (Nat.eqb_spec x y) as [->|N]; [exists c; split; [reflexivity|left; reflexivity]|]. destruct H as [H|H]; [cbn in H; congruence|]. destruct (IH x H) as (c' & A & B). exists c'. split; [exact A|right; exact B].
Qed.
Lemma column_None : forall (cols : list (nat * list V)) x, ~ In x (map fst cols) -> column cols x = None.
Proof. induction cols as [|[y c] r IH]; intros x H; [reflexivity|]. cbn [column]. destruct (Nat.eqb_spec x y) as [->|N]; [exfalso; apply H; left; reflexivity|]. apply IH. intros C. apply H. right. exact C. Qed.
Lemma column_Some_In : forall (cols : list (nat * list V)) x c, column cols x = Some c -> In (x, c) cols.
Proof. intros cols x c H. destruct (in_dec Nat.eq_dec x (map fst cols)) as [I|I]; [destruct (column_In cols x I) as (c' & A & B); congruence|rewrite (column_None cols x I) in H; discriminate]. Qed.
Lemma set_column_spec : forall n (cols : list (nat * list V)) x c, (forall y d, In (y, d) cols -> length d = n) -> In x (map fst cols) -> length c = n ->
  exists r, set_column cols x c = Some r /\ map fst r = map fst cols /\ (forall y, column r y = if y =? x then Some c else column cols y) /\ (forall y d, In (y, d) r -> length d = n).
Proof.
  intros n. induction cols as [|[z old] r IH]; intros x c A H L; [destruct H|]. cbn [set_column]. destruct (Nat.eqb_spec x z) as [->|N].
  - rewrite (A z old (or_introl eq_refl)), L, Nat.eqb_refl. eexists. split; [reflexivity|]. split; [reflexivity|]. split; [intros y; cbn [column]; destruct (y =? z); reflexivity|]. intros y d [E|E]; [congruence|eapply A; right; exact E].
  - destruct H as [H|H]; [cbn in H; congruence|]. destruct (IH x c (fun y d I => A y d (or_intror I)) H L) as (r' & E & F & G & K). rewrite E. cbn [bind]. eexists. split; [reflexivity|]. split; [cbn [map]; rewrite F; reflexivity|]. split.
    + intros y. cbn [column]. rewrite G. destruct (Nat.eqb_spec y z) as [->|]; [destruct (Nat.eqb_spec z x); congruence|reflexivity].
    + intros y d [I|I]; [injection I as <- <-; eapply A; left; reflexivity|eapply K; exact I].
Qed.
Lemma copy_columns_spec : forall n (src : list (nat * list V)), (forall y d, In (y, d) src -> length d = n) -> forall names dst, (forall x, In x names -> In x (map fst src) /\ In x (map fst dst)) -> (forall y d, In (y, d) dst -> length d = n) ->
  exists r, copy_columns src names dst = Some r /\ map fst r = map fst dst /\ (forall y, column r y = if mem y names then column src y else column dst y) /\ (forall y d, In (y, d) r -> length d = n).
Proof.
  intros n src A. induction names as [|x names IH]; intros dst H L.
  - exists dst. split; [reflexivity|]. split; [reflexivity|]. split; [intros; reflexivity|exact L].
  - cbn [copy_columns]. destruct (H x (or_introl eq_refl)) as [H1 H2]. destruct (column_In src x H1) as (c & C & CI). rewrite C. cbn [bind]. destruct (set_column_spec n dst x c L H2 (A _ _ CI)) as (d1 & E & F & G & K). rewrite E. cbn [bind].
    destruct (IH d1) as (r & E' & F' & G' & K'); [intros y Y; rewrite F; apply H; right; exact Y|exact K|]. exists r. split; [exact E'|]. split; [congruence|]. split; [|exact K'].
    intros y. rewrite G'. destruct (mem y names) eqn:M.
    + apply mem_In in M. rewrite (proj2 (mem_In y (x :: names)) (or_intror M)). reflexivity.
    + rewrite G. destruct (Nat.eqb_spec y x) as [->|N]; [rewrite (proj2 (mem_In x (x :: names)) (or_introl eq_refl)); congruence|]. replace (mem y (x :: names)) with false; [reflexivity|]. symmetry. apply mem_not. intros [C'|C']; [congruence|]. apply mem_In in C'. congruence.
Qed.
Lemma create_fields : forall n ex sa ar on ws, fields (create zero base added enum n ex sa ar on ws) = elements base added enum ex sa ar on /\
  (forall x c, In (x, c) (obs (create zero base added enum n ex sa ar on ws)) -> length c = n) /\
  forall x, column (obs (create zero base added enum n ex sa ar on ws)) x = if mem x (elements base added enum ex sa ar on) then Some (repeat zero n) else None.
Proof.
  intros n ex sa ar on ws. unfold fields, create. cbn [obs]. set (l := elements base added enum ex sa ar on). split; [rewrite map_map; apply map_id|]. split.
  - intros x c H. apply in_map_iff in H as (y & E & _). injection E as <- <-. apply repeat_length.
  - intros x. induction l as [|y l IH]; [reflexivity|]. cbn [map column mem existsb]. destruct (x =? y); [reflexivity|exact IH].
Qed.
Lemma well_made_lists : forall d, well_made d -> forall x, In x (fields d) <-> (In x base \/ 0 < samples d /\ In x (arrays d) \/ In x (extra d)) /\ match only d with None => True | Some o => In x o end \/ In x added.
Proof. intros d [W _] x. rewrite W. apply (proj2 (elements_spec _ _ _ _)). Qed.

(** C114: the removal of fields keeps the other fields and their values, and the fields
    added by the class of the dataset. *)
Theorem C114_remove : forall d names, well_made d -> exists e, remove_fields zero base added enum d names = Some e /\ well_made e /\ size e = size d /\
  (forall x, In x (fields e) <-> In x (fields d) /\ (~ In x names \/ In x added)) /\ (forall x, In x (fields e) -> column (obs e) x = column (obs d) x).
Proof.
  intros d names W. unfold remove_fields. destruct (create_fields (size d) (minus (extra d) names) (samples d) (minus (arrays d) names) (Some (minus (fields d) names)) true) as (CF & CL & CC). set (new := create _ _ _ _ _ _ _ _ _ _) in *.
  assert (F : forall x, In x (fields new) <-> In x (fields d) /\ (~ In x names \/ In x added)).
  { intros x. rewrite CF, (proj2 (elements_spec _ _ _ _)), !In_minus, !(well_made_lists d W). destruct (in_dec Nat.eq_dec x names); tauto. }
  destruct (copy_columns_spec (size d) (obs d) (proj2 W) (fields new) (obs new)) as (o & E & N & C & L); [intros x X; split; [apply F in X; apply X|exact X]|exact CL|].
  rewrite E. cbn [bind]. exists (with_obs new o). split; [reflexivity|]. assert (FE : fields (with_obs new o) = fields new) by exact N. split; [|split; [reflexivity|]].
  - split; [rewrite FE, CF; reflexivity|exact L].
  - split; [intros x; rewrite FE; apply F|]. intros x X. rewrite FE in X. cbn [obs with_obs]. rewrite C, (proj2 (mem_In _ _) X). reflexivity.
Qed.
(** C114: the addition of fields keeps the fields and their values; the new ones are
    zeros, and new arrays are forgotten when the dataset has no array. *)
Theorem C114_add : forall d names array_names, well_made d -> as_sets d = false -> exists e, add_fields zero base added enum d names array_names = Some e /\ well_made e /\ size e = size d /\
  (forall x, In x (fields e) <-> In x (fields d) \/ In x names \/ 0 < samples d /\ In x array_names \/ In x array_names /\ (In x base \/ In x (extra d))) /\
  (forall x, In x (fields d) -> column (obs e) x = column (obs d) x) /\
  (forall x, In x (fields e) -> ~ In x (fields d) -> column (obs e) x = Some (repeat zero (size d))).
Proof.
  intros d names ar W AS. unfold add_fields. rewrite AS. destruct (create_fields (size d) (extra d ++ names) (samples d) (arrays d ++ ar) (Some (fields d ++ names ++ ar)) false) as (CF & CL & CC). set (new := create _ _ _ _ _ _ _ _ _ _) in *.
  assert (F : forall x, In x (fields new) <-> In x (fields d) \/ In x names \/ 0 < samples d /\ In x ar \/ In x ar /\ (In x base \/ In x (extra d))).
  { intros x. rewrite CF, (proj2 (elements_spec _ _ _ _)), !in_app_iff, !(well_made_lists d W). destruct (lt_dec 0 (samples d)); tauto. }
  destruct (copy_columns_spec (size d) (obs d) (proj2 W) (fields d) (obs new)) as (o & E & N & C & L); [intros x X; split; [exact X|apply F; left; exact X]|exact CL|].
  rewrite E. cbn [bind]. exists (with_obs new o). split; [reflexivity|]. assert (FE : fields (with_obs new o) = fields new) by exact N. split; [|split; [reflexivity|]].
  - split; [rewrite FE, CF; reflexivity|exact L].
  - split; [intros x; rewrite FE; apply F|]. split.
    + intros x X. cbn [obs with_obs]. rewrite C, (proj2 (mem_In _ _) X). reflexivity.
    + intros x X Y. rewrite FE in X. cbn [obs with_obs]. rewrite C, (proj2 (mem_not _ _) Y), CC. rewrite <- CF, (proj2 (mem_In _ _) X). reflexivity.
Qed.
(** C114: nothing can be added to a dataset whose fields were removed. *)
Theorem C114_remove_add_refuted : forall d e names a b, remove_fields zero base added enum d names = Some e -> add_fields zero base added enum e a b = None.
Proof. intros d e names a b H. unfold remove_fields in H. destruct (copy_columns _ _ _) as [o|]; [|discriminate]. cbn [bind] in H. injection H as <-. reflexivity. Qed.

Lemma combine_same : forall {X Y} (f : X -> Y) l, combine l (map f l) = map (fun x => (x, f x)) l.
Proof. induction l as [|x l IH]; cbn; [reflexivity|]. rewrite IH. reflexivity. Qed.
Lemma put_rows_spec : forall n i names (f g : nat -> list V) m, (forall x, In x names -> length (g x) = m) -> (forall x, In x names -> length (f x) = n) -> i + m <= n ->
  put_rows i (map (fun x => (x, f x)) names) (map (fun x => (x, g x)) names) = Some (map (fun x => (x, firstn i (f x) ++ g x ++ skipn (i + m) (f x))) names).
Proof.
  intros n i names f g m G F L. unfold put_rows. rewrite !map_length, Nat.eqb_refl. f_equal. induction names as [|x names IH]; [reflexivity|]. cbn [map combine fst snd]. rewrite (G x (or_introl eq_refl)). f_equal. apply IH; intros y Y; [apply G|apply F]; right; exact Y.
Qed.
Lemma obs_by_name : forall (cols : list (nat * list V)), NoDup (map fst cols) -> cols = map (fun x => (x, match column cols x with Some c => c | None => [] end)) (map fst cols).
Proof.
  induction cols as [|[y c] r IH]; intros N; [reflexivity|]. cbn [map fst] in N |- *. inversion N as [|a b NI N' EQ]; subst. cbn [column]. rewrite Nat.eqb_refl. f_equal. rewrite (IH N') at 1. apply map_ext_in. intros x X. destruct (Nat.eqb_spec x y) as [->|]; [contradiction|reflexivity].
Qed.
Definition col_of (d : dataset) (x : nat) : list V := match column (obs d) x with Some c => c | None => [] end.
Lemma well_made_obs : forall d, well_made d -> obs d = map (fun x => (x, col_of d x)) (fields d) /\ forall x, In x (fields d) -> length (col_of d x) = size d.
Proof.
  intros d [W1 W2]. split.
  - apply obs_by_name. change (NoDup (fields d)). rewrite W1. apply elements_spec.
  - intros x X. unfold col_of. destruct (column_In (obs d) x X) as (c & -> & I). eapply W2. exact I.
Qed.
Lemma put_all_spec : forall names l i f n, (forall d, In d l -> well_made d /\ fields d = names) -> (forall x, In x names -> length (f x) = n) -> i + sum_list (map size l) <= n ->
  put_all i (map (fun x => (x, f x)) names) l = Some (map (fun x => (x, firstn i (f x) ++ concat (map (fun d => col_of d x) l) ++ skipn (i + sum_list (map size l)) (f x))) names).
Proof.
  intros names. induction l as [|d l IH]; intros i f n H F L.
  - cbn [put_all map sum_list concat]. f_equal. apply map_ext_in. intros x X. cbn. rewrite Nat.add_0_r, firstn_skipn. reflexivity.
  - cbn [put_all map sum_list concat]. cbn [map sum_list] in L. destruct (H d (or_introl eq_refl)) as [W E]. destruct (well_made_obs d W) as [O OL]. rewrite O, E. rewrite E in OL. rewrite (put_rows_spec n i names f (col_of d) (size d) OL F ltac:(lia)). cbn [bind].
    set (f' := fun x => firstn i (f x) ++ col_of d x ++ skipn (i + size d) (f x)). assert (F' : forall x, In x names -> length (f' x) = n). { intros x X. unfold f'. rewrite !app_length, firstn_length, skipn_length, (OL x X), (F x X). lia. }
    change (map (fun x => (x, firstn i (f x) ++ col_of d x ++ skipn (i + size d) (f x))) names) with (map (fun x => (x, f' x)) names).
    rewrite (IH (i + size d) f' n (fun e I => H e (or_intror I)) F' ltac:(lia)). f_equal. apply map_ext_in. intros x X. f_equal. unfold f'.
    assert (P : length (firstn i (f x)) = i) by (rewrite firstn_length, (F x X); lia).
    replace (firstn (i + size d) (firstn i (f x) ++ col_of d x ++ skipn (i + size d) (f x))) with (firstn i (f x) ++ col_of d x).
    + replace (skipn (i + size d + sum_list (map size l)) (firstn i (f x) ++ col_of d x ++ skipn (i + size d) (f x))) with (skipn (i + (size d + sum_list (map size l))) (f x)); [rewrite <- !app_assoc; reflexivity|].
      symmetry. rewrite app_assoc, skipn_app, (skipn_all2 (firstn i (f x) ++ col_of d x)) by (rewrite app_length, P, (OL x X); lia). rewrite app_length, P, (OL x X). cbn [app]. assert (SS : forall (l0 : list V) a b, skipn a (skipn b l0) = skipn (b + a) l0) by (intros l0 a b; revert l0; induction b as [|b IHb]; intros [|z l0]; try reflexivity; [apply skipn_nil|apply IHb]). rewrite SS. f_equal. lia.
    + rewrite app_assoc. symmetry. rewrite firstn_app, (firstn_all2 (firstn i (f x) ++ col_of d x)) by (rewrite app_length, P, (OL x X); lia). rewrite app_length, P, (OL x X), Nat.sub_diag. cbn [firstn]. rewrite app_nil_r. reflexivity.
Qed.
Lemma column_map : forall (f : nat -> list V) l x, In x l -> column (map (fun y => (y, f y)) l) x = Some (f x).
Proof. induction l as [|y l IH]; intros x H; [destruct H|]. cbn [map column]. destruct (Nat.eqb_spec x y) as [->|N]; [reflexivity|]. destruct H as [H|H]; [congruence|auto]. Qed.
Lemma skip_all_rows : forall (c : list V) n, length c <= n -> skipn n c = [].
Proof. intros. apply skipn_all2. assumption. Qed.
(** C114: the concatenation of datasets of the same kind and with the same fields in the
    same order joins their columns, in the order of the datasets. *)
Theorem C114_concatenate : forall d l, (forall e, In e (d :: l) -> well_made e /\ fields e = fields d /\ as_sets e = false /\ extra e = extra d /\ samples e = samples d /\ arrays e = arrays d) ->
  exists r, concatenate zero base added enum (d :: l) = Some r /\ fields r = fields d /\ size r = sum_list (map size (d :: l)) /\ forall x, In x (fields d) -> column (obs r) x = Some (concat (map (fun e => col_of e x) (d :: l))).
Proof.
  intros d l H. unfold concatenate. assert (CO : forallb (coherence d) (d :: l) = true).
  { apply forallb_forall. intros e E. destruct (H e E) as (_ & _ & A1 & A2 & A3 & A4). destruct (H d (or_introl eq_refl)) as (_ & _ & B1 & _). unfold coherence, same_names. rewrite A1, B1, A2, A3, A4, Nat.eqb_refl. destruct (list_eq_dec _ (extra d) (extra d)); [|congruence]. destruct (list_eq_dec _ (arrays d) (arrays d)); [|congruence]. reflexivity. }
  rewrite CO. set (n := sum_list (map size (d :: l))). destruct (H d (or_introl eq_refl)) as (W & _). destruct W as [W1 W2].
  set (new := new_like zero base added enum d n). assert (NO : obs new = map (fun x => (x, repeat zero n)) (fields d)) by (rewrite W1; reflexivity).
  rewrite NO. rewrite (put_all_spec (fields d) (d :: l) 0 (fun _ => repeat zero n) n); [|intros e E; destruct (H e E) as (X1 & X2 & _); auto|intros; apply repeat_length|unfold n; lia].
  cbn [bind]. fold n. eexists. split; [reflexivity|]. split; [unfold fields; cbn [obs with_obs]; rewrite map_map; apply map_id|]. split; [reflexivity|].
  intros x X. cbn [obs with_obs]. rewrite column_map by exact X. f_equal. cbn [firstn app]. rewrite skip_all_rows by (rewrite repeat_length; lia). apply app_nil_r.
Qed.
(** C114: the merge joins the columns of the fields of the first dataset; where the
    second one has no such field, zeros are put. *)
Theorem C114_merge : forall d e, well_made d -> exists r, merge zero base added enum d e = Some r /\ fields r = fields d /\ size r = size d + size e /\
  forall x, In x (fields d) -> column (obs r) x = Some (col_of d x ++ match column (obs e) x with Some c => c | None => repeat zero (size e) end).
Proof.
  intros d e W. unfold merge. set (new := new_like zero base added enum d (size d + size e)). assert (NO : obs new = map (fun x => (x, repeat zero (size d + size e))) (fields d)) by (rewrite (proj1 W); reflexivity). rewrite NO, map_map. cbn [fst].
  assert (G : forall names, (forall x, In x names -> In x (fields d)) -> Corr_model.sequence (map (fun x => let! a := column (obs d) x in Some (x, a ++ match column (obs e) x with Some b => b | None => repeat zero (size e) end)) names) =
     Some (map (fun x => (x, col_of d x ++ match column (obs e) x with Some b => b | None => repeat zero (size e) end)) names)).
  { induction names as [|x names IH]; intros I; [reflexivity|]. cbn [map Corr_model.sequence]. unfold col_of at 1. destruct (column_In (obs d) x (I x (or_introl eq_refl))) as (c & C & _). rewrite C. cbn [bind]. rewrite IH by (intros y Y; apply I; right; exact Y). reflexivity. }
  rewrite G by auto. cbn [bind]. eexists. split; [reflexivity|]. split; [unfold fields; cbn [obs with_obs]; rewrite map_map; apply map_id|]. split; [reflexivity|]. intros x X. cbn [obs with_obs]. apply (column_map (fun x => col_of d x ++ _) _ _ X).
Qed.
(** C114: a copy has the same fields and values. *)
Theorem C114_copy : forall d, well_made d -> exists e, copy zero base added enum d = Some e /\ fields e = fields d /\ size e = size d /\ forall x, column (obs e) x = column (obs d) x.
Proof.
  intros d W. unfold copy. destruct (create_fields (size d) (extra d) (samples d) (arrays d) (only d) (as_sets d)) as (CF & CL & CC). set (new := new_like zero base added enum d (size d)).
  assert (F : fields new = fields d) by (rewrite (proj1 W); exact CF). destruct (copy_columns_spec (size d) (obs d) (proj2 W) (fields d) (obs new)) as (o & E & N & C & L); [intros x X; split; [exact X|change (In x (fields new)); rewrite F; exact X]|exact CL|].
  rewrite E. cbn [bind]. eexists. split; [reflexivity|]. split; [unfold fields at 1; cbn [obs with_obs]; rewrite N; exact F|]. split; [reflexivity|]. intros x. cbn [obs with_obs]. rewrite C. destruct (mem x (fields d)) eqn:M; [reflexivity|]. apply mem_not in M. rewrite (column_None (obs d) x M). apply column_None. change (~ In x (fields new)). rewrite F. exact M.
Qed.

(** A variable asked for: in the list to include if there is one, otherwise not in the
    list to remove. *)
Definition wanted (remove include : option (list nat)) (x : nat) : Prop :=
  match include with Some i => In x i | None => match remove with Some r => ~ In x r | None => True end end.
Lemma var_list_spec : forall vars remove include x, In x (build_var_list vars remove include) <-> In x vars /\ wanted remove include x.
Proof. intros vars remove [i|] x; cbn [build_var_list wanted]; [rewrite filter_In, mem_In; reflexivity|]. destruct remove as [r|]; [rewrite filter_In, negb_true_iff, mem_not; reflexivity|tauto]. Qed.
(** C114: a load fills the fields of the variables of the file asked for.  The basic
    fields which are not in the file, or which are removed, are fields full of zeros. *)
Theorem C114_load : forall f remove include, (forall x c, In (x, c) (f_vars f) -> length c = f_size f) -> (forall x, In x (f_arrays f) -> 0 < f_samples f) ->
  exists d, load zero base added enum f remove include = Some d /\ well_made d /\ size d = f_size f /\
  (forall x, In x (fields d) <-> In x base /\ (match include with Some i => In x i | None => True end) \/ In x (map fst (f_vars f)) /\ wanted remove include x \/ In x added) /\
  (forall x, In x (map fst (f_vars f)) -> wanted remove include x -> column (obs d) x = column (f_vars f) x) /\
  (forall x, In x (fields d) -> ~ (In x (map fst (f_vars f)) /\ wanted remove include x) -> column (obs d) x = Some (repeat zero (f_size f))).
Proof.
  intros f remove include L A. unfold load. set (vars := build_var_list (map fst (f_vars f)) remove include). set (ar := if 0 <? f_samples f then filter (fun x => mem x (f_arrays f)) vars else []). set (ex := filter (fun x => negb (mem x base) && negb (mem x ar)) vars).
  destruct (create_fields (f_size f) ex (f_samples f) ar include false) as (CF & CL & CC). set (new := create _ _ _ _ _ _ _ _ _ _) in *.
  assert (VS : forall x, In x vars <-> In x (map fst (f_vars f)) /\ wanted remove include x) by (intros; apply var_list_spec).
  assert (AR : forall x, In x ar -> In x vars /\ 0 < f_samples f). { intros x X. unfold ar in X. destruct (Nat.ltb_spec 0 (f_samples f)); [|destruct X]. apply filter_In in X as [X _]. auto. }
  assert (EX : forall x, In x ex <-> In x vars /\ ~ In x base /\ ~ In x ar). { intros x. unfold ex. rewrite filter_In, andb_true_iff, !negb_true_iff, !mem_not. reflexivity. }
  assert (F : forall x, In x (fields new) <-> In x base /\ (match include with Some i => In x i | None => True end) \/ In x vars \/ In x added).
  { intros x. rewrite CF, (proj2 (elements_spec _ _ _ _)), EX.
    assert (IW : In x vars -> match include with Some o => In x o | None => True end). { intros X. apply VS in X as [_ X]. unfold wanted in X. destruct include; [exact X|exact I]. }
    split.
    - intros [[[B|[[_ B]|[B _]]] O]|B]; [left; auto|right; left; apply AR, B|right; left; exact B|right; right; exact B].
    - intros [[B O]|[B|B]]; [left; auto| |right; exact B]. left. split; [|apply IW, B]. destruct (in_dec Nat.eq_dec x base) as [B1|B1]; [left; exact B1|right]. destruct (in_dec Nat.eq_dec x ar) as [B2|B2]; [left; split; [apply (AR x B2)|exact B2]|right; auto]. }
  destruct (copy_columns_spec (f_size f) (f_vars f) L vars (obs new)) as (o & E & N & C & K); [intros x X; split; [apply VS in X; apply X|apply (F x); auto]|exact CL|].
  rewrite E. cbn [bind]. exists (with_obs new o). split; [reflexivity|]. assert (FE : fields (with_obs new o) = fields new) by exact N. split; [split; [rewrite FE, CF; reflexivity|exact K]|]. split; [reflexivity|]. split; [intros x; rewrite FE, F, VS; tauto|]. split.
  - intros x X Y. cbn [obs with_obs]. rewrite C. rewrite (proj2 (mem_In x vars)) by (apply VS; auto). reflexivity.
  - intros x X Y. rewrite FE in X. cbn [obs with_obs]. rewrite C. rewrite (proj2 (mem_not x vars)) by (rewrite VS; exact Y). rewrite CC, <- CF, (proj2 (mem_In x (fields new)) X). reflexivity.
Qed.
End Props.
Print Assumptions C114_remove.
Print Assumptions C114_add.
Print Assumptions C114_remove_add_refuted.
Print Assumptions C114_concatenate.
Print Assumptions C114_merge.
Print Assumptions C114_copy.
Print Assumptions C114_load.

(** Fields 0 to 3 are basic, 4 is the number of the track, 5 another variable; sets give
    their elements in the order of their last place. *)
Definition ex_enum (l : list nat) : list nat := nodup Nat.eq_dec l.
Lemma ex_enum_ok : forall l, NoDup (ex_enum l) /\ forall x, In x (ex_enum l) <-> In x l.
Proof. intros l. split; [apply NoDup_nodup|intros; apply nodup_In]. Qed.
Definition ex_file := File 2 [(0, [10; 11]); (1, [20; 21]); (4, [7; 7]); (5, [50; 51])] 0 [].
(** The variable 1 is removed: the field stays, full of zeros; the field of the class
    cannot be removed. *)
Example C114_ex : option_map obs (load 0 [0; 1; 2; 3] [4] ex_enum ex_file (Some [1]) None) = Some [(0, [10; 11]); (1, [0; 0]); (2, [0; 0]); (3, [0; 0]); (5, [50; 51]); (4, [7; 7])] /\
  option_map obs (load 0 [0; 1; 2; 3] [4] ex_enum ex_file (Some [1]) (Some [1; 3; 5])) = Some [(1, [20; 21]); (3, [0; 0]); (5, [50; 51]); (4, [0; 0])] /\
  option_map obs (let! d := load 0 [0; 1; 2; 3] [4] ex_enum ex_file None (Some [0; 4; 5]) in remove_fields 0 [0; 1; 2; 3] [4] ex_enum d [4; 5]) = Some [(0, [10; 11]); (4, [7; 7])].
Proof. vm_compute. auto. Qed.
(** C114: two datasets loaded with different variables pass the check of coherence, and
    the concatenation puts the values of one variable in the column of another one. *)
Theorem C114_concatenate_refuted : forall base added enum (d := Dataset 1 [] 0 [] (Some [0]) false [(0, [10])]) (e := Dataset 1 [] 0 [] (Some [1]) false [(1, [20])]),
  base = [0; 1] -> added = [] -> enum [0] = [0] -> enum [1] = [1] -> well_made base added enum d /\ well_made base added enum e /\ option_map obs (concatenate 0 base added enum [d; e]) = Some [(0, [10; 20])].
Proof.
  intros base added enum d e -> -> E0 E1. split; [split; [cbn; rewrite E0; reflexivity|intros x c [H|[]]; injection H as <- <-; reflexivity]|].
  split; [split; [cbn; rewrite E1; reflexivity|intros x c [H|[]]; injection H as <- <-; reflexivity]|]. cbv. rewrite E0. reflexivity.
Qed.
Print Assumptions C114_concatenate_refuted.
