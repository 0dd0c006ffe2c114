(** C157: datasets written in an open file. *)
From Coq Require Import List Arith ZArith Bool Lia Permutation Sorted.
Import ListNotations.
From Verif Require Import Base Ncw_model.
Local Open Scope nat_scope.

(** ** Specification *)
(** Variables of the file which stand for the fields, whatever their chunks. *)
Definition stands {D} (f : field D) (v : var D) : Prop := v_name v = f_name f /\ v_matrix v = f_matrix f /\ v_data v = f_data f.
(** A dataset whose fields have different names and which has samples if it has a field
    with two dimensions. *)
Definition sound {D} (d : dataset D) : Prop := NoDup (map f_name (d_fields d)) /\ forall f, In f (d_fields d) -> f_matrix f = true -> d_samples d <> 0.
(** The file holds the chunks and dimensions it declares. *)
Definition chunk_ok (obs sample : nat) (c : Z * Z) : Prop :=
  snd c = Z.of_nat sample /\ (fst c <= Z.of_nat obs)%Z /\ (fst c * snd c <= 400000)%Z /\ ((0 < fst c)%Z <-> 0 < obs /\ (Z.of_nat sample <= 400000)%Z) /\ ((400000 < (fst c + 1) * snd c)%Z \/ fst c = Z.of_nat obs).

(** ** Lemmas *)
Lemma insert_perm {D} (f : field D) l : Permutation (insert f l) (f :: l).
Proof. induction l as [|g l IH]; cbn; [auto|]. destruct (f_name f <=? f_name g); [auto|]. rewrite IH. apply perm_swap. Qed.
Lemma sorted_perm {D} (l : list (field D)) : Permutation (sorted l) l.
Proof. induction l as [|f l IH]; cbn; [constructor|]. rewrite insert_perm. now constructor. Qed.
Lemma insert_sorted {D} (f : field D) l : StronglySorted (fun a b => f_name a <= f_name b) l -> StronglySorted (fun a b => f_name a <= f_name b) (insert f l).
Proof.
  induction l as [|g l IH]; intros H; cbn; [repeat constructor|]. inversion H as [|? ? H1 H2]; subst. destruct (Nat.leb_spec (f_name f) (f_name g)).
  - constructor; [exact H|]. constructor; [assumption|]. rewrite Forall_forall in *. intros x X. specialize (H2 x X). lia.
  - constructor; [now apply IH|]. rewrite Forall_forall in *. intros x X. apply (Permutation_in _ (insert_perm f l)) in X. destruct X as [<-|X]; [lia|now apply H2].
Qed.
Lemma sorted_sorted {D} (l : list (field D)) : StronglySorted (fun a b => f_name a <= f_name b) (sorted l).
Proof. induction l as [|f l IH]; cbn; [constructor|now apply insert_sorted]. Qed.
(** The variable made of a field. *)
Definition made {D} (obs : nat) (sample : option nat) (f : field D) : var D :=
  Var (f_name f) (f_matrix f) (if f_matrix f then match sample with Some s => Some (chunk obs s) | None => None end else None) (f_data f).
Lemma create_ok {D} (h : file D) f obs : h_obs h = Some obs -> ~ In (f_name f) (map v_name (h_vars h)) -> (f_matrix f = true -> h_sample h <> None) ->
  create h f = Some (File (h_obs h) (h_sample h) (h_extra h) (h_arrays h) (h_vars h ++ [made obs (h_sample h) f])).
Proof.
  intros O N S1. unfold create, made. destruct (existsb _ (h_vars h)) eqn:X.
  - apply existsb_exists in X. destruct X as (v & V & E). apply Nat.eqb_eq in E. elim N. rewrite <- E. now apply in_map.
  - rewrite O. cbn [bind]. destruct (f_matrix f); [|reflexivity]. destruct (h_sample h); [reflexivity|]. now elim S1.
Qed.
Lemma create_inv {D} (h h' : file D) f : create h f = Some h' -> exists obs, h_obs h = Some obs /\ ~ In (f_name f) (map v_name (h_vars h)) /\ (f_matrix f = true -> h_sample h <> None) /\
  h' = File (h_obs h) (h_sample h) (h_extra h) (h_arrays h) (h_vars h ++ [made obs (h_sample h) f]).
Proof.
  intros E. unfold create in E. destruct (existsb _ (h_vars h)) eqn:X; [discriminate|]. destruct (h_obs h) as [obs|] eqn:O; [cbn [bind] in E|discriminate]. exists obs. split; [reflexivity|].
  split; [intros I; apply in_map_iff in I; destruct I as (v & V & I); apply Bool.not_true_iff_false in X; apply X, existsb_exists; exists v; split; [exact I|now apply Nat.eqb_eq]|].
  unfold made. destruct (f_matrix f); [|cbn [bind] in E; injection E as <-; split; [discriminate|reflexivity]]. destruct (h_sample h); [cbn [bind] in E; injection E as <-; split; [discriminate|reflexivity]|discriminate].
Qed.
Lemma create_all_ok {D} (l : list (field D)) : forall h obs, h_obs h = Some obs -> NoDup (map f_name l) -> (forall f, In f l -> ~ In (f_name f) (map v_name (h_vars h))) -> (forall f, In f l -> f_matrix f = true -> h_sample h <> None) ->
  create_all h l = (File (h_obs h) (h_sample h) (h_extra h) (h_arrays h) (h_vars h ++ map (made obs (h_sample h)) l), true).
Proof.
  induction l as [|f l IH]; intros h obs O ND N S1; cbn [create_all map]; [rewrite app_nil_r; destruct h; reflexivity|]. inversion ND as [|? ? NI ND']; subst.
  rewrite (create_ok h f obs O (N f (or_introl eq_refl)) (S1 f (or_introl eq_refl))). rewrite (IH _ obs); cbn [h_obs h_sample h_extra h_arrays h_vars]; auto.
  - now rewrite <- app_assoc.
  - intros g G I. rewrite map_app, in_app_iff in I. destruct I as [I|[I|[]]]; [exact (N g (or_intror G) I)|]. cbn in I. apply NI. rewrite I. now apply in_map.
  - intros g G. apply (S1 g). now right.
Qed.
(** What create_all keeps, and what it needed if it went to its end. *)
Lemma create_all_inv {D} (l : list (field D)) : forall h h' b, create_all h l = (h', b) -> h_obs h' = h_obs h /\ h_sample h' = h_sample h /\ h_extra h' = h_extra h /\ h_arrays h' = h_arrays h /\
  (exists more, h_vars h' = h_vars h ++ more) /\ (b = true -> NoDup (map f_name l) /\ (forall f, In f l -> ~ In (f_name f) (map v_name (h_vars h))) /\ forall f, In f l -> f_matrix f = true -> h_sample h <> None).
Proof.
  induction l as [|f l IH]; intros h h' b E; cbn [create_all] in E.
  - injection E as <- <-. repeat split; [exists []; now rewrite app_nil_r|constructor|intros f []|intros f []].
  - destruct (create h f) as [h1|] eqn:C; [|injection E as <- <-; repeat split; [exists []; now rewrite app_nil_r|discriminate|discriminate|discriminate]].
    destruct (create_inv _ _ _ C) as (obs & O & N & S1 & ->). destruct (IH _ _ _ E) as (A1 & A2 & A3 & A4 & (more & A5) & A6). cbn [h_obs h_sample h_extra h_arrays h_vars] in *.
    repeat (split; [assumption|]). split; [exists (made obs (h_sample h) f :: more); now rewrite A5, <- app_assoc|]. intros B. destruct (A6 B) as (B1 & B2 & B3). cbn [map]. split; [|split].
    + constructor; [|exact B1]. intros I. apply in_map_iff in I. destruct I as (g & G & I). apply (B2 g I). rewrite map_app, in_app_iff. right. left. cbn. now symmetry.
    + intros g [<-|G]; [exact N|]. intros I. apply (B2 g G). rewrite map_app, in_app_iff. now left.
    + intros g [<-|G]; [exact S1|now apply B3].
Qed.

(** ** Theorems *)
(** In a new file a sound dataset is written to the end: the dimensions are its sizes, the
    attributes are its lists, and the variables are its fields in the order of their names. *)
Theorem C157_written : forall D (d : dataset D), sound d -> exists h, to_netcdf new_file d = (h, true) /\ h_obs h = Some (d_rows d) /\ h_extra h = Some (d_extra d) /\
  (d_samples d = 0 -> h_sample h = None /\ h_arrays h = None) /\ (d_samples d <> 0 -> h_sample h = Some (d_samples d) /\ h_arrays h = Some (d_samples d, d_arrays d)) /\
  StronglySorted lt (map v_name (h_vars h)) /\ length (h_vars h) = length (d_fields d) /\ (forall f, In f (d_fields d) -> exists v, In v (h_vars h) /\ stands f v) /\
  (forall v, In v (h_vars h) -> (exists f, In f (d_fields d) /\ stands f v) /\ (v_matrix v = true -> exists c, v_chunk v = Some c /\ chunk_ok (d_rows d) (d_samples d) c)).
Proof.
  intros D d (ND & SM). set (smp := if d_samples d =? 0 then None else Some (d_samples d)).
  assert (PS := sorted_perm (d_fields d)). assert (ND' : NoDup (map f_name (sorted (d_fields d)))) by (apply (Permutation_NoDup (Permutation_map f_name (Permutation_sym PS)) ND)).
  assert (IN : forall f, In f (sorted (d_fields d)) <-> In f (d_fields d)) by (intros f; split; apply Permutation_in; [exact PS|now symmetry]).
  set (h := File (Some (d_rows d)) smp (Some (d_extra d)) (if d_samples d =? 0 then None else Some (d_samples d, d_arrays d)) (map (made (d_rows d) smp) (sorted (d_fields d)))).
  exists h. split.
  { unfold to_netcdf, h, smp. cbn [new_file h_obs h_sample h_extra h_arrays h_vars dimension]. destruct (Nat.eqb_spec (d_samples d) 0) as [Z0|Z0].
    - rewrite (create_all_ok _ _ (d_rows d)); [reflexivity|reflexivity|exact ND'|intros f _ []|]. intros f F M. apply IN in F. elim (SM f F M Z0).
    - rewrite (create_all_ok _ _ (d_rows d)); [reflexivity|reflexivity|exact ND'|intros f _ []|discriminate]. }
  split; [reflexivity|]. split; [reflexivity|]. unfold h, smp. cbn [h_sample h_arrays h_vars]. split; [intros ->; auto|]. split; [intros Z0; apply Nat.eqb_neq in Z0; rewrite Z0; auto|].
  split.
  { rewrite map_map. cbn [made v_name]. assert (SS := sorted_sorted (d_fields d)). revert SS ND'. generalize (sorted (d_fields d)) as l. clear. induction l as [|f l IH]; intros H N; cbn [map]; [constructor|]. inversion H as [|? ? H1 H2]; subst. inversion N as [|? ? NI N']; subst.
    constructor; [now apply IH|]. rewrite Forall_forall in *. intros x X. apply in_map_iff in X. destruct X as (g & <- & G). specialize (H2 g G). cbn in *. assert (f_name g <> f_name f) by (intros Q; apply NI; rewrite <- Q; now apply in_map). lia. }
  split; [rewrite map_length; now apply Permutation_length|]. split.
  { intros f F. exists (made (d_rows d) (if d_samples d =? 0 then None else Some (d_samples d)) f). split; [apply in_map, IN, F|repeat split]. }
  intros v V. apply in_map_iff in V. destruct V as (f & <- & F). apply IN in F. split; [exists f; split; [exact F|repeat split]|]. cbn [made v_matrix v_chunk]. intros M. specialize (SM f F M). rewrite M. apply Nat.eqb_neq in SM. rewrite SM. eexists. split; [reflexivity|].
  apply Nat.eqb_neq in SM. unfold chunk_ok, chunk. cbn [fst snd]. assert (P : (0 < Z.of_nat (d_samples d))%Z) by lia. pose proof (Z.div_mod 400000 (Z.of_nat (d_samples d)) ltac:(lia)) as DM. pose proof (Z.mod_pos_bound 400000 (Z.of_nat (d_samples d)) P) as MB.
  remember (400000 / Z.of_nat (d_samples d))%Z as q. remember (400000 mod Z.of_nat (d_samples d))%Z as r. remember (Z.of_nat (d_samples d)) as n.
  assert (Q0 : (0 <= q)%Z) by (subst q; apply Z.div_pos; lia).
  split; [reflexivity|]. split; [apply Z.le_min_r|]. split; [nia|]. split.
  - split.
    + intros H. split; [lia|]. assert (1 <= q)%Z by lia. nia.
    + intros (H1 & H2). assert (0 < q)%Z by nia. lia.
  - destruct (Z.min_spec q (Z.of_nat (d_rows d))) as [(_ & ->)|(_ & ->)]; [left; nia|right; reflexivity].
Qed.
Print Assumptions C157_written.

(** Whatever is written after, with or without errors, a dimension once set keeps its size
    and a variable once written stays as it is. *)
Theorem C157_kept : forall D (l : list (dataset D)) h, (forall n, h_obs h = Some n -> h_obs (write_all h l) = Some n) /\ (forall n, h_sample h = Some n -> h_sample (write_all h l) = Some n) /\ exists more, h_vars (write_all h l) = h_vars h ++ more.
Proof.
  intros D. assert (ONE : forall (d : dataset D) h h' b, to_netcdf h d = (h', b) -> (forall n, h_obs h = Some n -> h_obs h' = Some n) /\ (forall n, h_sample h = Some n -> h_sample h' = Some n) /\ exists more, h_vars h' = h_vars h ++ more).
  { intros d h h' b E. unfold to_netcdf in E. destruct (dimension (h_obs h) (d_rows d)) as [obs|] eqn:O; [|injection E as <- <-; repeat split; auto; exists []; now rewrite app_nil_r].
    assert (O' : forall n, h_obs h = Some n -> Some obs = Some n) by (intros n N; rewrite N in O; unfold dimension in O; destruct (d_rows d =? n); [congruence|discriminate]).
    cbn [h_obs h_sample h_extra h_vars] in E. destruct (d_samples d =? 0).
    - destruct (create_all_inv _ _ _ _ E) as (A1 & A2 & _ & _ & A5 & _). cbn [h_obs h_sample h_vars] in *. rewrite A1, A2. auto.
    - destruct (dimension (h_sample h) (d_samples d)) as [s|] eqn:SD; [|injection E as <- <-; cbn [h_obs h_sample h_vars]; repeat split; auto; exists []; now rewrite app_nil_r].
      assert (S' : forall n, h_sample h = Some n -> Some s = Some n) by (intros n N; rewrite N in SD; unfold dimension in SD; destruct (d_samples d =? n); [congruence|discriminate]).
      destruct (create_all_inv _ _ _ _ E) as (A1 & A2 & _ & _ & A5 & _). cbn [h_obs h_sample h_vars] in *. rewrite A1, A2. auto. }
  induction l as [|d l IH]; intros h; cbn [write_all]; [repeat split; auto; exists []; now rewrite app_nil_r|]. destruct (to_netcdf h d) as [h1 b] eqn:E. cbn [fst]. destruct (ONE _ _ _ _ E) as (A1 & A2 & (m1 & A3)). destruct (IH h1) as (B1 & B2 & (m2 & B3)).
  split; [intros n N; apply B1, A1, N|]. split; [intros n N; apply B2, A2, N|]. exists (m1 ++ m2). now rewrite B3, A3, app_assoc.
Qed.
Print Assumptions C157_kept.

(** A dataset is written to the end in a file which holds variables exactly when it has as
    many rows, as many samples when it has some, no field with a name of the file nor twice
    the same, and the dimension of its fields. *)
Theorem C157_accepted : forall D (h : file D) (d : dataset D) n, h_obs h = Some n ->
  (snd (to_netcdf h d) = true <-> d_rows d = n /\ (d_samples d <> 0 -> h_sample h = None \/ h_sample h = Some (d_samples d)) /\ NoDup (map f_name (d_fields d)) /\
    (forall f, In f (d_fields d) -> ~ In (f_name f) (map v_name (h_vars h))) /\ forall f, In f (d_fields d) -> f_matrix f = true -> d_samples d <> 0 \/ h_sample h <> None).
Proof.
  intros D h d n O. unfold to_netcdf. rewrite O. cbn [dimension]. destruct (Nat.eqb_spec (d_rows d) n) as [R|R]; [|split; [discriminate|intros (Q & _); contradiction]].
  assert (PS := sorted_perm (d_fields d)). assert (IN : forall f, In f (sorted (d_fields d)) <-> In f (d_fields d)) by (intros f; split; apply Permutation_in; [exact PS|now symmetry]).
  assert (NDI : NoDup (map f_name (sorted (d_fields d))) <-> NoDup (map f_name (d_fields d))) by (split; apply Permutation_NoDup, Permutation_map; [exact PS|now symmetry]).
  assert (GEN : forall hs (h1 : file D), h_obs h1 = Some n -> h_vars h1 = h_vars h -> h_sample h1 = hs -> (snd (create_all h1 (sorted (d_fields d))) = true <-> NoDup (map f_name (d_fields d)) /\ (forall f, In f (d_fields d) -> ~ In (f_name f) (map v_name (h_vars h))) /\ forall f, In f (d_fields d) -> f_matrix f = true -> hs <> None)).
  { intros hs h1 O1 V1 S1. split.
    - destruct (create_all h1 (sorted (d_fields d))) as [h' b] eqn:E. cbn [snd]. intros ->. destruct (create_all_inv _ _ _ _ E) as (_ & _ & _ & _ & _ & A). destruct (A eq_refl) as (A1 & A2 & A3). rewrite V1 in A2. rewrite S1 in A3. split; [now apply NDI|]. split; [intros f F; apply A2, IN, F|intros f F; apply A3, IN, F].
    - intros (A1 & A2 & A3). rewrite (create_all_ok _ _ n); [reflexivity|exact O1|now apply NDI|rewrite V1; intros f F; apply A2, IN, F|rewrite S1; intros f F; apply A3, IN, F]. }
  cbn [h_obs h_sample h_extra h_vars]. destruct (Nat.eqb_spec (d_samples d) 0) as [Z0|Z0].
  - rewrite (GEN (h_sample h)) by reflexivity. split.
    + intros (A1 & A2 & A3). split; [exact R|]. split; [contradiction|]. split; [exact A1|]. split; [exact A2|]. intros f F M. right. now apply (A3 f F M).
    + intros (_ & _ & A1 & A2 & A3). split; [exact A1|]. split; [exact A2|]. intros f F M. destruct (A3 f F M); [contradiction|assumption].
  - destruct (dimension (h_sample h) (d_samples d)) as [s|] eqn:SD; cbn [snd].
    + rewrite (GEN (Some s)) by reflexivity. assert (HS : h_sample h = None \/ h_sample h = Some (d_samples d)) by (destruct (h_sample h) as [o|]; [right|now left]; unfold dimension in SD; destruct (Nat.eqb_spec (d_samples d) o); [congruence|discriminate]).
      split; [intros (A1 & A2 & A3); split; [exact R|]; split; [intros _; exact HS|]; split; [exact A1|]; split; [exact A2|]; intros f F M; now left|intros (_ & _ & A1 & A2 & A3); split; [exact A1|]; split; [exact A2|]; discriminate].
    + split; [discriminate|]. intros (_ & A & _). destruct (A Z0) as [Q|Q]; rewrite Q in SD; cbn in SD; [discriminate|rewrite Nat.eqb_refl in SD; discriminate].
Qed.
Print Assumptions C157_accepted.

(** A dataset refused for its number of samples has already changed the list of extra
    variables: the file then describes variables which it does not hold. *)
Theorem C157_refused_refuted : forall D (h : file D) (d : dataset D) n k, h_obs h = Some n -> d_rows d = n -> h_sample h = Some k -> d_samples d <> 0 -> d_samples d <> k ->
  exists h', to_netcdf h d = (h', false) /\ h_vars h' = h_vars h /\ h_extra h' = Some (d_extra d).
Proof.
  intros D h d n k O R S1 Z0 N. unfold to_netcdf. rewrite O. cbn [dimension]. rewrite R, Nat.eqb_refl. apply Nat.eqb_neq in Z0. rewrite Z0. cbn [h_sample]. rewrite S1. cbn [dimension]. apply Nat.eqb_neq in N. rewrite N. eexists. split; [reflexivity|]. split; reflexivity.
Qed.
Print Assumptions C157_refused_refuted.

(** ** Cases *)
Definition d1 : dataset nat := Dataset 100 50 [7] [4; 5] [Field 5 true 15; Field 1 false 11; Field 7 false 17; Field 4 true 14].
Definition d2 : dataset nat := Dataset 100 20 [9] [8] [Field 8 true 18; Field 9 false 19].
Definition d3 : dataset nat := Dataset 100 0 [9] [] [Field 9 false 19; Field 2 false 12].
Example C157_written_ex : sound d1 /\ fst (to_netcdf new_file d1) = File (Some 100) (Some 50) (Some [7]) (Some (50, [4; 5])) [Var 1 false None 11; Var 4 true (Some (100, 50)%Z) 14; Var 5 true (Some (100, 50)%Z) 15; Var 7 false None 17].
Proof. split; [split; [repeat constructor; cbn; intuition discriminate|cbn; intros; discriminate]|vm_compute; reflexivity]. Qed.
Example C157_accepted_ex : h_obs (fst (to_netcdf new_file d1)) = Some 100 /\ snd (to_netcdf (fst (to_netcdf new_file d1)) d3) = true /\ snd (to_netcdf (fst (to_netcdf new_file d1)) d1) = false
  /\ map v_name (h_vars (write_all new_file [d1; d1; d2; d3])) = [1; 4; 5; 7; 2; 9].
Proof. repeat split; vm_compute; reflexivity. Qed.
Example C157_refused_ex : let h := fst (to_netcdf new_file d1) in h_obs h = Some (d_rows d2) /\ h_sample h = Some 50 /\ d_samples d2 <> 0 /\ d_samples d2 <> 50 /\ h_extra (fst (to_netcdf h d2)) = Some [9].
Proof. repeat split; (vm_compute; reflexivity) || discriminate. Qed.
