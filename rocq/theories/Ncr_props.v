(** C159: a dataset which was written and is read back. *)
From Coq Require Import List Arith ZArith Bool Lia Sorted.
Import ListNotations.
From Verif Require Import Base Ncw_model Ncw_props Ncr_model.
Local Open Scope nat_scope.

(** ** Specification *)
(** A dataset as the class makes them: its fields have different names, those with two
    dimensions are the array variables, which are there when there are samples. *)
Definition regular {D} (d : dataset D) : Prop :=
  NoDup (map f_name (d_fields d)) /\ (forall f, In f (d_fields d) -> (f_matrix f = true <-> In (f_name f) (d_arrays d))) /\ (d_samples d = 0 <-> d_arrays d = []).
(** The names of the fields of the class for this dataset. *)
Definition expected {D} (own : list nat) (d : dataset D) (n : nat) : Prop := In n own \/ In n (d_arrays d) \/ In n (d_extra d).

(** No name, one of two letters or more, or several of which the first is not empty. *)
Definition long_names (width : nat -> nat) (l : list nat) : Prop := match l with [] => True | [n] => 2 <= width n | n :: _ :: _ => 1 <= width n end.

(** ** Lemmas *)
Lemma memn_iff : forall n l, memn n l = true <-> In n l.
Proof. intros n l. unfold memn. rewrite existsb_exists. split; [intros (x & X & E); apply Nat.eqb_eq in E; congruence|intros H; exists n; split; [exact H|apply Nat.eqb_refl]]. Qed.
Lemma once_in : forall l n, In n (once l) <-> In n l.
Proof.
  induction l as [|a l IH]; intros n; cbn [once]; [reflexivity|]. destruct (memn a l) eqn:M; cbn [In]; rewrite IH; [|reflexivity]. apply memn_iff in M. split; [auto|]. intros [<-|H]; assumption.
Qed.
Lemma once_nodup : forall l, NoDup (once l).
Proof. induction l as [|a l IH]; cbn [once]; [constructor|]. destruct (memn a l) eqn:M; [exact IH|]. constructor; [|exact IH]. rewrite once_in. intros H. apply memn_iff in H. congruence. Qed.
Lemma names_map : forall {D} (n : nat) (x : D) fs, map f_name (map (fun g => if f_name g =? n then Field (f_name g) (f_matrix g) x else g) fs) = map f_name fs.
Proof. intros D n x fs. rewrite map_map. apply map_ext. intros g. now destruct (f_name g =? n). Qed.
Lemma fill_spec : forall {D} (vars : list (var D)) fs, NoDup (map v_name vars) -> NoDup (map f_name fs) -> (forall v, In v vars -> exists c, In (Field (v_name v) (v_matrix v) c) fs) ->
  exists out, fill fs vars = Some out /\ map f_name out = map f_name fs /\
    forall n b c, In (Field n b c) out <-> (exists v c0, In v vars /\ v_name v = n /\ v_data v = c /\ In (Field n b c0) fs) \/ (~ In n (map v_name vars) /\ In (Field n b c) fs).
Proof.
  intros D. induction vars as [|v vars IH]; intros fs NV NF H; cbn [fill].
  - exists fs. split; [reflexivity|]. split; [reflexivity|]. intros n b c. split; [intros X; right; split; [intros []|exact X]|]. intros [(v & c0 & [] & _)|(_ & X)]. exact X.
  - inversion NV as [|? ? NI NV']; subst. destruct (H v (or_introl eq_refl)) as (c1 & I1).
    destruct (find (fun f => f_name f =? v_name v) fs) as [f|] eqn:F; [|pose proof (find_none _ _ F _ I1) as X; cbn in X; rewrite Nat.eqb_refl in X; discriminate]. cbn [bind].
    apply find_some in F. destruct F as (FI & FE). apply Nat.eqb_eq in FE.
    assert (UQ : forall g1 g2, In g1 fs -> In g2 fs -> f_name g1 = f_name g2 -> g1 = g2).
    { clear - NF. induction fs as [|a fs IH]; intros g1 g2 [] []; cbn [map] in NF; inversion NF as [|? ? N1 N2]; subst; intros E; auto; try congruence; exfalso; apply N1; [rewrite E|rewrite <- E]; now apply in_map. }
    assert (FM : f = Field (v_name v) (v_matrix v) c1) by (apply UQ; auto). rewrite FM. cbn [f_matrix]. rewrite Bool.eqb_reflx.
    remember (map (fun g => if f_name g =? v_name v then Field (f_name g) (f_matrix g) (v_data v) else g) fs) as fs' eqn:E'.
    assert (IN' : forall n b c, In (Field n b c) fs' <-> (n = v_name v /\ c = v_data v /\ exists c0, In (Field n b c0) fs) \/ (n <> v_name v /\ In (Field n b c) fs)).
    { intros n b c. rewrite E', in_map_iff. split.
      - intros (g & G & I). destruct (Nat.eqb_spec (f_name g) (v_name v)) as [Q|Q]; [inversion G; subst; left; split; [congruence|]; split; [reflexivity|]; exists (f_data g); destruct g; exact I|right; subst g; cbn in Q; auto].
      - intros [(-> & -> & c0 & I)|(Q & I)]; [exists (Field (v_name v) b c0); cbn; rewrite Nat.eqb_refl; auto|exists (Field n b c); cbn; apply Nat.eqb_neq in Q; rewrite Q; auto]. }
    destruct (IH fs' NV') as (out & E & NM & S1).
    { rewrite E', names_map. exact NF. }
    { intros u U. destruct (H u (or_intror U)) as (c0 & I0). exists c0. apply IN'. right. split; [|exact I0]. intros Q. apply NI. rewrite <- Q. now apply in_map. }
    exists out. split; [exact E|]. split; [rewrite NM, E'; apply names_map|]. intros n b c. rewrite S1. split.
    + intros [(u & c0 & U & UN & UC & I)|(N & I)].
      * left. apply IN' in I. destruct I as [(Q & _ & c2 & I)|(_ & I)]; [exists u, c2|exists u, c0]; (split; [now right|]); auto.
      * apply IN' in I. destruct I as [(Q & QC & c0 & I)|(Q & I)]; [left; exists v, c0; split; [now left|]; auto|right; split; [|exact I]; intros [X|X]; [congruence|contradiction]].
    + intros [(u & c0 & [<-|U] & UN & UC & I)|(N & I)].
      * right. split; [rewrite <- UN; exact NI|]. apply IN'. left. split; [congruence|]. split; [congruence|]. now exists c0.
      * left. exists u, c0. split; [exact U|]. split; [exact UN|]. split; [exact UC|]. apply IN'. right. split; [|exact I]. intros Q. apply NI. rewrite <- Q, <- UN. now apply in_map.
      * right. split; [intros X; apply N; now right|]. apply IN'. right. split; [|exact I]. intros Q. apply N. left. now symmetry.
Qed.
Lemma fill_unknown : forall {D} (vars : list (var D)) fs v, In v vars -> ~ In (v_name v) (map f_name fs) -> fill fs vars = None.
Proof.
  intros D. induction vars as [|u vars IH]; intros fs v I N; [destruct I|]. cbn [fill]. destruct (find (fun f => f_name f =? v_name u) fs) as [f|] eqn:F; [cbn [bind]|reflexivity]. destruct (eqb (f_matrix f) (v_matrix u)); [|reflexivity].
  destruct I as [<-|I]; [apply find_some in F; destruct F as (F & Q); apply Nat.eqb_eq in Q; elim N; rewrite <- Q; now apply in_map|]. apply (IH _ v I). now rewrite names_map.
Qed.
Lemma regular_sound : forall {D} (d : dataset D), regular d -> sound d.
Proof. intros D d (N & M & A). split; [exact N|]. intros f F X Z0. apply A in Z0. apply (M f F) in X. rewrite Z0 in X. destruct X. Qed.
Lemma written_names : forall {D} (d : dataset D) h, StronglySorted lt (map v_name (h_vars h)) -> NoDup (map (@v_name D) (h_vars h)).
Proof.
  intros D d h. generalize (map v_name (h_vars h)). induction l as [|a l IH]; intros S1; [constructor|]. inversion S1 as [|? ? S2 S3]; subst. constructor; [|now apply IH]. intros I. rewrite Forall_forall in S3. specialize (S3 a I). lia.
Qed.

(** ** Theorems *)
(** Written in a new file and read back with the class, a dataset keeps its sizes, its lists
    and each of its columns; a field of the class which it did not have is there with zeros.
    This asks that its only extra variable, if it has one only, has a name of two letters or more. *)
Theorem C159_read_back : forall D (zero : D) width known own (d : dataset D), regular d -> (forall n, expected own d n -> known n = true) -> (forall f, In f (d_fields d) -> expected own d (f_name f)) ->
  long_names width (d_extra d) ->
  exists d', from_netcdf zero width known own (fst (to_netcdf new_file d)) = Some d' /\ d_rows d' = d_rows d /\ d_samples d' = d_samples d /\ d_extra d' = d_extra d /\ d_arrays d' = d_arrays d /\
    NoDup (map f_name (d_fields d')) /\ (forall n, In n (map f_name (d_fields d')) <-> expected own d n) /\
    forall n b c, In (Field n b c) (d_fields d') <-> In (Field n b c) (d_fields d) \/ (expected own d n /\ ~ In n (map f_name (d_fields d)) /\ (b = true <-> In n (d_arrays d)) /\ c = zero).
Proof.
  intros D zero width known own d RG KN EX TX. destruct (C157_written D d (regular_sound d RG)) as (h & E & O & X & S0 & S1 & ST & _ & V1 & V2). destruct RG as (ND & MA & AR). rewrite E. cbn [fst].
  assert (RA : read_arrays h = Some (d_samples d, d_arrays d)).
  { unfold read_arrays. destruct (Nat.eq_dec (d_samples d) 0) as [Z0|Z0]; [destruct (S0 Z0) as (_ & ->); rewrite Z0; now rewrite (proj1 AR Z0)|]. destruct (S1 Z0) as (_ & ->). destruct (d_arrays d) eqn:Q; [elim Z0; now apply AR|reflexivity]. }
  assert (RE : read_extra width h = Some (d_extra d)).
  { unfold read_extra. rewrite X. cbn [bind]. destruct (Nat.ltb_spec 1 (text width (d_extra d))) as [T|T]; [reflexivity|]. unfold text in T. destruct (d_extra d) as [|n [|k r]]; [reflexivity| |]; cbn [long_names total length] in *; lia. }
  unfold from_netcdf. rewrite O. cbn [bind]. rewrite RA. cbn [bind]. rewrite RE. cbn [bind]. remember (once (own ++ d_arrays d ++ d_extra d)) as el eqn:EL.
  assert (IE : forall n, In n el <-> expected own d n) by (intros n; rewrite EL, once_in, !in_app_iff; reflexivity). assert (NE : NoDup el) by (rewrite EL; apply once_nodup).
  assert (KE : forallb known el = true) by (apply forallb_forall; intros n N; apply KN, IE, N). rewrite KE.
  remember (map (fun e => Field e (memn e (d_arrays d)) zero) el) as fs eqn:FS. assert (NF : map f_name fs = el) by (rewrite FS, map_map; cbn; apply map_id).
  assert (IF : forall n b c, In (Field n b c) fs <-> expected own d n /\ (b = true <-> In n (d_arrays d)) /\ c = zero).
  { intros n b c. rewrite FS, in_map_iff. split.
    - intros (e & Q & I). inversion Q; subst. split; [now apply IE|]. split; [apply memn_iff|reflexivity].
    - intros (I & B & ->). exists n. split; [|now apply IE]. f_equal. destruct (memn n (d_arrays d)) eqn:M; [apply memn_iff in M; symmetry; now apply B|]. destruct b; [|reflexivity]. assert (In n (d_arrays d)) as K by (now apply B). apply memn_iff in K. congruence. }
  assert (VF : forall v, In v (h_vars h) -> In (Field (v_name v) (v_matrix v) (v_data v)) (d_fields d)).
  { intros v V. destruct (V2 v V) as ((f & F & (A1 & A2 & A3)) & _). rewrite A1, A2, A3. destruct f. exact F. }
  assert (VN : forall n, In n (map v_name (h_vars h)) <-> In n (map f_name (d_fields d))).
  { intros n. rewrite !in_map_iff. split; [intros (v & <- & V); eexists; split; [|apply (VF v V)]; reflexivity|]. intros (f & <- & F). destruct (V1 f F) as (v & V & (A1 & _)). exists v. auto. }
  destruct (fill_spec (h_vars h) fs) as (out & FO & NM & SP); [exact (written_names d h ST)|rewrite NF; exact NE|intros v V; exists zero; apply IF; pose proof (VF v V) as W; split; [apply (EX _ W)|]; split; [apply (MA _ W)|reflexivity]|].
  rewrite FO. cbn [bind]. eexists. split; [reflexivity|]. cbn [d_rows d_samples d_extra d_arrays d_fields]. do 4 (split; [reflexivity|]). rewrite NM, NF. split; [exact NE|]. split; [exact IE|].
  intros n b c. rewrite SP, VN. split.
  - intros [(v & c0 & V & <- & <- & I)|(N & I)].
    + left. pose proof (VF v V) as W. apply IF in I. destruct I as (_ & B & _). assert (b = v_matrix v) as ->; [|exact W]. apply MA in W. cbn in W. destruct b, (v_matrix v); intuition congruence.
    + right. apply IF in I. tauto.
  - intros [F|(I & N & B & ->)].
    + left. destruct (V1 _ F) as (v & V & (A1 & A2 & A3)). cbn in A1, A2, A3. exists v, zero. split; [exact V|]. split; [exact A1|]. split; [exact A3|]. apply IF. split; [apply (EX _ F)|]. split; [apply (MA _ F)|reflexivity].
    + right. split; [exact N|]. apply IF. auto.
Qed.
Print Assumptions C159_read_back.

(** One extra variable whose name has one letter is left out of the list, so the dataset
    which has it is written but cannot be read back. *)
Theorem C159_short_name_refuted : forall D (zero : D) width known own (d : dataset D) n, regular d -> d_extra d = [n] -> width n <= 1 -> ~ In n own -> ~ In n (d_arrays d) -> In n (map f_name (d_fields d)) ->
  snd (to_netcdf new_file d) = true /\ from_netcdf zero width known own (fst (to_netcdf new_file d)) = None.
Proof.
  intros D zero width known own d n RG E1 W NO NA IF. destruct (C157_written D d (regular_sound d RG)) as (h & E & O & X & S0 & S1 & _ & _ & V1 & _). destruct RG as (ND & MA & AR). rewrite E. cbn [fst snd]. split; [reflexivity|].
  unfold from_netcdf. rewrite O. cbn [bind]. destruct (read_arrays h) as [[s l]|] eqn:RA; [|reflexivity]. cbn [bind].
  assert (L : l = d_arrays d).
  { unfold read_arrays in RA. destruct (Nat.eq_dec (d_samples d) 0) as [Z0|Z0]; [destruct (S0 Z0) as (_ & Q); rewrite Q in RA; injection RA as <- <-; symmetry; now apply AR|]. destruct (S1 Z0) as (_ & Q). rewrite Q in RA. destruct (length (d_arrays d) =? 0); [discriminate|]. now injection RA. }
  unfold read_extra. rewrite X, E1. cbn [bind]. assert (T : 1 <? text width [n] = false) by (apply Nat.ltb_ge; unfold text; cbn; lia). rewrite T. destruct (forallb known _); [|reflexivity].
  apply in_map_iff in IF. destruct IF as (f & FN & F). destruct (V1 f F) as (v & V & (A1 & _)). rewrite (fill_unknown _ _ v V); [reflexivity|]. rewrite map_map. cbn [f_name]. rewrite map_id, once_in, !in_app_iff, L, A1, FN. intros [Q|[Q|[]]]; contradiction.
Qed.
Print Assumptions C159_short_name_refuted.

(** A variable which is neither a field of the class nor in the lists of the file makes the
    reading fail, whatever the other variables are. *)
Theorem C159_unlisted : forall D (zero : D) width known own (h : file D) v extra, In v (h_vars h) -> h_extra h = Some extra -> ~ In (v_name v) own -> ~ In (v_name v) extra ->
  match h_arrays h with Some (_, l) => ~ In (v_name v) l | None => True end -> from_netcdf zero width known own h = None.
Proof.
  intros D zero width known own h v extra V E NO NX NA. unfold from_netcdf. destruct (h_obs h) as [n|]; [|reflexivity]. cbn [bind]. destruct (read_arrays h) as [[s l]|] eqn:RA; [|reflexivity]. cbn [bind].
  assert (L : ~ In (v_name v) l) by (unfold read_arrays in RA; destruct (h_arrays h) as [[s' l']|]; [destruct (length l' =? 0); [discriminate|]; injection RA as <- <-; exact NA|injection RA as <- <-; intros []]).
  unfold read_extra. rewrite E. cbn [bind]. destruct (forallb known _); [|reflexivity]. rewrite (fill_unknown _ _ v V); [reflexivity|]. rewrite map_map. cbn [f_name]. rewrite map_id, once_in, !in_app_iff. intros [Q|[Q|Q]]; [contradiction|contradiction|]. destruct (1 <? text width extra); [contradiction|destruct Q].
Qed.
Print Assumptions C159_unlisted.

(** ** Cases: field 2 of the class is not in the dataset; names of three letters but 9. *)
Definition wd (n : nat) : nat := if n =? 9 then 1 else 3.
Definition dx : dataset nat := Dataset 100 50 [7] [4; 5] [Field 5 true 15; Field 1 false 11; Field 7 false 17; Field 4 true 14].
Example C159_read_back_ex : regular dx /\ long_names wd (d_extra dx) /\ (forall f, In f (d_fields dx) -> expected [1; 2] dx (f_name f)) /\
  from_netcdf 0 wd (fun n => n <? 20) [1; 2] (fst (to_netcdf new_file dx)) = Some (Dataset 100 50 [7] [4; 5] [Field 1 false 11; Field 2 false 0; Field 4 true 14; Field 5 true 15; Field 7 false 17]).
Proof.
  split; [split; [repeat constructor; cbn; intuition discriminate|split; [|cbn; intuition discriminate]]|split; [vm_compute; lia|split; [|vm_compute; reflexivity]]].
  - intros f F. cbn in F. decompose [or] F; subst; cbn; try contradiction; intuition discriminate.
  - intros f F. cbn in F. unfold expected. cbn. decompose [or] F; subst; cbn; auto; contradiction.
Qed.
Definition dy : dataset nat := Dataset 100 0 [9] [] [Field 1 false 11; Field 9 false 19].
Example C159_short_name_ex : regular dy /\ wd 9 <= 1 /\ from_netcdf 0 wd (fun n => n <? 20) [1; 2] (fst (to_netcdf new_file dy)) = None.
Proof.
  split; [split; [repeat constructor; cbn; intuition discriminate|split; [|cbn; tauto]]|split; [vm_compute; lia|vm_compute; reflexivity]].
  intros f F. cbn in F. decompose [or] F; subst; cbn; try contradiction; intuition discriminate.
Qed.
