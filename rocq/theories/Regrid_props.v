(** Property C132: a field brought to another grid, land, and the file written after. *)
From Coq Require Import List Arith Bool QArith Lia.
Import ListNotations.
From Verif Require Import Base Spec Store_model Store_props Regrid_model.
Local Open Scope nat_scope.

(** ** Specification *)
(** The field of the values of a function at the places of a grid, by longitude. *)
Definition sampled {A} (f : Q -> Q -> A) (xs ys : list Q) : list (list A) := map (fun x => map (fun y => f x y) ys) xs.
(** The same, by latitude. *)
Definition by_latitude {A} (f : Q -> Q -> A) (xs ys : list Q) : list (list A) := map (fun y => map (fun x => f x y) xs) ys.
Definition present (g : gridset) (v : nat) : Prop := lookup v (g_vars g) <> None.
(** A grid as it is after it was read: every variable has its own name in the files, and its
    dimensions are those of the grid. *)
Definition sound (g : gridset) : Prop :=
  NoDup (map fst (g_desc g)) /\ (forall v d, In (v, d) (g_desc g) -> d_name d = v /\ incl (d_dims d) (g_dims g)).

Lemma mesh : forall {A} (f : Q -> Q -> A) xs ys, map (fun p => f (fst p) (snd p)) (combine (concat (mesh_x xs ys)) (concat (mesh_y xs ys))) = concat (by_latitude f xs ys).
Proof.
  intros A f xs ys. induction ys as [|y ys IH]; [reflexivity|]. unfold mesh_x, mesh_y, by_latitude in *. cbn [map concat]. rewrite <- IH. clear IH. generalize (concat (map (fun _ => xs) ys)) as a. generalize (concat (map (fun y => map (fun _ => y) xs) ys)) as b. intros b a.
  induction xs as [|x xs IH]; [reflexivity|]. cbn [map app combine fst snd]. rewrite IH. reflexivity.
Qed.
Lemma firstn_app_exact : forall {A} (a b : list A), firstn (length a) (a ++ b) = a /\ skipn (length a) (a ++ b) = b.
Proof. intros. rewrite firstn_app, skipn_app, Nat.sub_diag, firstn_all, skipn_all. cbn [firstn skipn]. rewrite app_nil_r. split; reflexivity. Qed.
Lemma reshape_concat : forall {A} w (rows : list (list A)), (forall r, In r rows -> length r = w) -> reshape (length rows) w (concat rows) = rows.
Proof.
  induction rows as [|r rows IH]; intros H; [reflexivity|]. cbn [length concat reshape]. assert (W : w = length r) by (symmetry; apply H; left; reflexivity). rewrite W at 1 3. destruct (firstn_app_exact r (concat rows)) as [-> ->]. rewrite IH; [reflexivity|]. intros q I. apply H. right. exact I.
Qed.
Lemma map_via_nth : forall {A B} (f : A -> B) (l : list A) (g : nat -> B), (forall i a, nth_error l i = Some a -> g i = f a) -> map g (seq 0 (length l)) = map f l.
Proof.
  intros A B f l. induction l as [|a l IH]; intros g H; [reflexivity|]. cbn [length seq map]. f_equal; [apply H; reflexivity|]. rewrite <- seq_shift, map_map. apply IH. intros i b Hi. apply H. exact Hi.
Qed.
Lemma transpose_by : forall {A} (f : Q -> Q -> A) xs ys, transpose (length xs) (by_latitude f xs ys) = sampled f xs ys.
Proof.
  intros A f xs ys. unfold transpose, sampled. apply map_via_nth. intros i x Hi. unfold by_latitude. induction ys as [|y ys IH]; [reflexivity|]. cbn [map flat_map]. rewrite nth_error_map, Hi. cbn [option_map app]. rewrite IH. reflexivity.
Qed.
Lemma transpose_sampled : forall {A} (f : Q -> Q -> A) xs ys, transpose (length ys) (sampled f xs ys) = by_latitude f xs ys.
Proof. intros A f xs ys. exact (transpose_by (fun y x => f x y) ys xs). Qed.
Lemma on_grid_sampled : forall {A} (f : Q -> Q -> A) xs ys, on_grid f xs ys = sampled f xs ys.
Proof.
  intros A f xs ys. unfold on_grid. rewrite mesh. replace (length ys) with (length (by_latitude f xs ys)) by apply map_length. rewrite reshape_concat; [apply transpose_by|]. intros r I. apply in_map_iff in I as (y & <- & _). apply map_length.
Qed.

(** ** Property C132 *)
(** The field added has at each place of the grid the value of the other one there, masked
    exactly when it has none; the other fields stay. *)
Theorem C132_regrid : forall interp g od n new,
  let m := match new with Some m => m | None => n end in
  (regrid interp g od n new = None <-> lookup n od = None) /\
  forall g', regrid interp g od n new = Some g' ->
    lookup m (g_vars g') = Some (sampled interp (g_x g) (g_y g)) /\
    (forall v, v <> m -> lookup v (g_vars g') = lookup v (g_vars g) /\ lookup v (g_desc g') = lookup v (g_desc g)) /\
    g_x g' = g_x g /\ g_y g' = g_y g /\ g_dims g' = g_dims g.
Proof.
  intros interp g od n new m. unfold regrid. fold m. destruct (lookup n od) as [d|]; cbn [bind]; (split; [split; congruence|]); [|discriminate]. intros g' E. apply Some_inj in E. subst g'. cbn [g_vars g_desc g_x g_y g_dims]. rewrite on_grid_sampled, !lookup_put, Nat.eqb_refl. split; [reflexivity|]. split; [|auto]. intros v N. rewrite !lookup_put. destruct (Nat.eqb_spec m v); [congruence|]. split; reflexivity.
Qed.
Print Assumptions C132_regrid.

(** Land: a value is masked exactly when it was or when the nearest pixel of the grid of land
    is not 0 or out of it; the others stay. *)
Theorem C132_land : forall land g name data, lookup name (g_vars g) = Some data ->
  length data = length (g_x g) -> (forall c, In c data -> length c = length (g_y g)) ->
  exists g' r, clean_land land g name = Some g' /\ lookup name (g_vars g') = Some r /\ length r = length data /\ (forall c, In c r -> length c = length (g_y g)) /\
    (forall v, v <> name -> lookup v (g_vars g') = lookup v (g_vars g)) /\
    forall i j x y c v, nth_error (g_x g) i = Some x -> nth_error (g_y g) j = Some y -> nth_error data i = Some c -> nth_error c j = Some v ->
      exists c' w, nth_error r i = Some c' /\ nth_error c' j = Some w /\
        ((w = None <-> v = None \/ land x y = None \/ exists q, land x y = Some q /\ ~ (q == 0)%Q) /\ (w <> None -> w = v)).
Proof.
  intros land g name data E L W. unfold clean_land. rewrite E, on_grid_sampled. cbn [bind]. do 2 eexists. split; [reflexivity|]. cbn [g_vars]. rewrite lookup_put, Nat.eqb_refl. split; [reflexivity|].
  assert (ZL : forall {X Y Z} (f : X -> Y -> Z) a b, length a = length b -> length (zip2 f a b) = length a). { intros X Y Z f. induction a as [|u a IH]; intros [|w b] H; try discriminate; [reflexivity|]. cbn [zip2 length] in *. rewrite IH; lia. }
  assert (ZN : forall {X Y Z} (f : X -> Y -> Z) a b i u w, nth_error a i = Some u -> nth_error b i = Some w -> nth_error (zip2 f a b) i = Some (f u w)). { intros X Y Z f. induction a as [|u0 a IH]; intros [|w0 b] [|i] u w H1 H2; cbn in *; try discriminate. - inversion H1; inversion H2; reflexivity. - apply IH; assumption. }
  assert (SL : length (sampled land (g_x g) (g_y g)) = length data) by (unfold sampled; rewrite map_length; lia).
  split; [apply ZL; lia|]. split. { intros c I. apply In_nth_error in I as [i Hi]. assert (B : i < length data) by (apply nth_error_Some_lt in Hi; rewrite ZL in Hi by lia; exact Hi). destruct (nth_error_lt_Some data i B) as [u Hu]. destruct (nth_error_lt_Some (g_x g) i ltac:(lia)) as [x Hx]. assert (HS : nth_error (sampled land (g_x g) (g_y g)) i = Some (map (fun y => land x y) (g_y g))) by (unfold sampled; rewrite nth_error_map, Hx; reflexivity). rewrite (ZN _ _ _ _ _ _ _ _ _ Hu HS) in Hi. apply Some_inj in Hi. subst c. pose proof (W u (nth_error_In _ _ Hu)) as LU. rewrite ZL; [exact LU|rewrite map_length; exact LU]. }
  split. { intros v N. rewrite lookup_put. destruct (Nat.eqb_spec name v); [congruence|reflexivity]. }
  intros i j x y c v Hx Hy Hc Hv. assert (HS : nth_error (sampled land (g_x g) (g_y g)) i = Some (map (fun y => land x y) (g_y g))) by (unfold sampled; rewrite nth_error_map, Hx; reflexivity). do 2 eexists. split; [apply (ZN _ _ _ _ _ _ _ _ _ Hc HS)|]. split; [apply ZN; [exact Hv|rewrite nth_error_map, Hy; reflexivity]|].
  unfold is_land. destruct (land x y) as [q|].
  - destruct (Qeq_bool q 0) eqn:Z0; cbn [negb]. + apply Qeq_bool_iff in Z0. split; [|reflexivity]. split; [intros H; left; exact H|]. intros [H|[H|(q' & H & N)]]; [exact H|discriminate|]. apply Some_inj in H. subst. contradiction.
    + split; [|intros H; congruence]. split; [|reflexivity]. intros _. right. right. exists q. split; [reflexivity|]. intros H. apply Qeq_bool_iff in H. congruence.
  - split; [|congruence]. split; [|reflexivity]. intros _. right. left. reflexivity.
Qed.
Print Assumptions C132_land.

(** The variables written. *)
Definition line (g : gridset) (p : nat * desc) : list (nat * (list nat * field)) :=
  match lookup (fst p) (g_vars g) with None => [] | Some a => [(d_name (snd p), (d_dims (snd p), if d_tr (snd p) then transpose (length (g_y g)) a else a))] end.
Lemma write_none : forall g ds, fold_left (write_one g) ds None = None.
Proof. induction ds as [|d ds IH]; [reflexivity|exact IH]. Qed.
Lemma dims_iff : forall l k, forallb (fun dim => existsb (Nat.eqb dim) k) l = true <-> incl l k.
Proof. intros l k. rewrite forallb_forall. unfold incl. split; intros H x I; specialize (H x I); [apply existsb_exists in H as (y & Y & E); apply Nat.eqb_eq in E; subst; exact Y|apply existsb_exists; exists x; split; [exact H|apply Nat.eqb_refl]]. Qed.
Lemma name_iff : forall (f : list (nat * (list nat * field))) n, existsb (fun q => fst q =? n) f = true <-> In n (map fst f).
Proof. intros f n. rewrite existsb_exists, in_map_iff. split; intros (x & A & B); exists x; [apply Nat.eqb_eq in B; auto|split; [exact B|apply Nat.eqb_eq; exact A]]. Qed.
Lemma write_value : forall g ds acc file, NoDup (map fst acc) -> fold_left (write_one g) ds (Some acc) = Some file -> file = acc ++ flat_map (line g) ds /\ NoDup (map fst file).
Proof.
  intros g. induction ds as [|[v d] ds IH]; intros acc file N E. { apply Some_inj in E. subst. cbn [flat_map]. rewrite app_nil_r. auto. }
  cbn [fold_left] in E. unfold write_one at 2 in E. cbn [bind fst snd] in E. cbn [flat_map]. unfold line at 1. cbn [fst snd]. destruct (lookup v (g_vars g)) as [a|]; [|apply IH; assumption].
  destruct (forallb _ (d_dims d)); cbn [negb] in E; [|rewrite write_none in E; discriminate]. destruct (existsb _ acc) eqn:X; [rewrite write_none in E; discriminate|]. apply IH in E as [H1 H2]. 2:{ rewrite map_app. cbn [map fst]. rewrite <- (rev_involutive (map fst acc ++ [d_name d])). apply NoDup_rev. rewrite rev_app_distr. cbn [rev app]. constructor; [|apply NoDup_rev, N]. rewrite <- in_rev. intros I. apply name_iff in I. congruence. }
  split; [|exact H2]. rewrite H1, <- app_assoc. reflexivity.
Qed.
Lemma write_ok : forall g ds acc, (forall v d, In (v, d) ds -> incl (d_dims d) (g_dims g)) -> NoDup (map fst (acc ++ flat_map (line g) ds)) -> fold_left (write_one g) ds (Some acc) = Some (acc ++ flat_map (line g) ds).
Proof.
  intros g. induction ds as [|[v d] ds IH]; intros acc D N; [cbn [fold_left flat_map]; rewrite app_nil_r; reflexivity|]. cbn [fold_left flat_map] in *. unfold write_one at 2. cbn [bind fst snd]. unfold line at 1 in N. unfold line at 1. cbn [fst snd] in *. assert (D' : forall v d, In (v, d) ds -> incl (d_dims d) (g_dims g)) by (intros; apply (D v0); right; assumption).
  destruct (lookup v (g_vars g)) as [a|]; [|apply IH; assumption]. rewrite (proj2 (dims_iff _ _) (D v d (or_introl eq_refl))). cbn [negb].
  destruct (existsb _ acc) eqn:X. { exfalso. apply name_iff in X. rewrite map_app in N. cbn [app map fst] in N. apply NoDup_remove_2 in N. apply N. apply in_or_app. left. exact X. }
  rewrite (app_assoc acc) in N. rewrite IH; [rewrite <- app_assoc; reflexivity|exact D'|exact N].
Qed.
Lemma lines_names : forall g ds, (forall v d, In (v, d) ds -> d_name d = v) -> forall n, In n (map fst (flat_map (line g) ds)) -> In n (map fst ds).
Proof.
  intros g ds H n I. apply in_map_iff in I as (l & <- & I). apply in_flat_map in I as ([v d] & I & L). unfold line in L. cbn [fst snd] in L. destruct (lookup v (g_vars g)); [|destruct L]. destruct L as [<-|[]]. cbn [fst]. rewrite (H v d I). apply in_map_iff. exists (v, d). auto.
Qed.
Lemma lines_nodup : forall g ds, (forall v d, In (v, d) ds -> d_name d = v) -> NoDup (map fst ds) -> NoDup (map fst (flat_map (line g) ds)).
Proof.
  intros g. induction ds as [|[v d] ds IH]; intros H N; [constructor|]. cbn [flat_map map fst] in *. inversion N as [|? ? N1 N2]. subst. assert (H' : forall v d, In (v, d) ds -> d_name d = v) by (intros; apply H; right; assumption). unfold line at 1. cbn [fst snd]. destruct (lookup v (g_vars g)); [|apply IH; assumption]. cbn [app map fst]. constructor; [|apply IH; assumption]. rewrite (H v d (or_introl eq_refl)). intros I. apply N1, (lines_names g ds H'), I.
Qed.
Lemma put_desc : forall (m : nat) (d : desc) ds, NoDup (map fst ds) -> NoDup (map fst (put m d ds)) /\ (forall v e, In (v, e) (put m d ds) <-> (v = m /\ e = d) \/ (v <> m /\ In (v, e) ds)).
Proof.
  intros m d ds N. unfold put. cbn [map fst]. split.
  - constructor. + intros I. apply in_map_iff in I as ([v e] & E & I). apply filter_In in I as [_ I]. cbn [fst] in *. subst. rewrite Nat.eqb_refl in I. discriminate.
    + induction ds as [|[v e] ds IH]; [constructor|]. cbn [map fst filter] in *. inversion N; subst. destruct (negb (v =? m)); [|apply IH; assumption]. cbn [map fst]. constructor; [|apply IH; assumption]. intros I. apply in_map_iff in I as (q & E & I). apply filter_In in I as [I _]. apply H1. apply in_map_iff. exists q. auto.
  - intros v e. cbn [In]. rewrite filter_In. cbn [fst]. destruct (Nat.eqb_spec v m) as [->|H]; cbn [negb]; split.
    + intros [E|[_ X]]; [inversion E; auto|discriminate]. + intros [[_ ->]|[X _]]; [left; reflexivity|congruence].
    + intros [E|[I _]]; [inversion E; congruence|auto]. + intros [[X _]|[_ I]]; [congruence|auto].
Qed.

(** Under the same name, the file written has the field, in the order of the dimensions of
    the other file, beside all the variables which were there. *)
Theorem C132_written : forall interp g od n d g', sound g -> lookup n od = Some d -> d_name d = n -> incl (d_dims d) (g_dims g) ->
  regrid interp g od n None = Some g' ->
  exists file, write g' = Some file /\ NoDup (map fst file) /\
    In (n, (d_dims d, if d_tr d then by_latitude interp (g_x g) (g_y g) else sampled interp (g_x g) (g_y g))) file /\
    (forall v, In v (map fst file) -> v = n \/ present g v) /\
    (forall v e, v <> n -> In (v, e) (g_desc g) -> present g v -> In v (map fst file)).
Proof.
  intros interp g od n d g' [N H] Hn DN DI E. unfold regrid in E. rewrite Hn in E. cbn [bind] in E. apply Some_inj in E. rewrite on_grid_sampled in E. set (r := sampled interp (g_x g) (g_y g)) in *. destruct (put_desc n d (g_desc g) N) as [PN PI].
  assert (P1 : forall v e, In (v, e) (g_desc g') -> d_name e = v /\ incl (d_dims e) (g_dims g')). { subst g'. cbn [g_desc g_dims]. intros v e I. apply PI in I as [[-> ->]|[_ I]]; [auto|apply H, I]. }
  assert (P0 : NoDup (map fst (g_desc g'))) by (subst g'; exact PN).
  exists (flat_map (line g') (g_desc g')). split; [apply (write_ok g' _ []); [intros v e I; apply (P1 v e I)|apply lines_nodup; [intros v e I; apply (P1 v e I)|exact P0]]|]. split; [apply lines_nodup; [intros v e I; apply (P1 v e I)|exact P0]|].
  assert (LV : forall v, lookup v (g_vars g') = if n =? v then Some r else lookup v (g_vars g)) by (intros v; subst g'; cbn [g_vars]; apply lookup_put).
  split; [|split].
  - apply in_flat_map. exists (n, d). split; [subst g'; left; reflexivity|]. unfold line. cbn [fst snd]. rewrite LV, Nat.eqb_refl, DN. left. replace (g_y g') with (g_y g) by (subst g'; reflexivity). unfold r at 1. rewrite transpose_sampled. reflexivity.
  - intros v I. apply in_map_iff in I as (l & <- & I). apply in_flat_map in I as ([u e] & I & L). unfold line in L. cbn [fst snd] in L. destruct (lookup u (g_vars g')) as [a|] eqn:LU; [|destruct L]. destruct L as [<-|[]]. cbn [fst]. rewrite (proj1 (P1 u e I)). rewrite LV in LU. destruct (Nat.eqb_spec n u); [left; congruence|right; unfold present; congruence].
  - intros v e NV I PV. assert (I' : In (v, e) (g_desc g')) by (subst g'; apply PI; auto). destruct (lookup v (g_vars g')) as [a|] eqn:LU; [|rewrite LV in LU; destruct (Nat.eqb_spec n v); [congruence|contradiction]]. apply in_map_iff. exists (v, (d_dims e, if d_tr e then transpose (length (g_y g')) a else a)). split; [reflexivity|]. apply in_flat_map. exists (v, e). split; [exact I'|]. unfold line. cbn [fst snd]. rewrite LU. left. rewrite (proj1 (P1 v e I')). reflexivity.
Qed.
Print Assumptions C132_written.

(** Under a new name: the file has the field under the former name and no variable of the new
    name, and there is no file at all when the grid has a variable of the former name. *)
Theorem C132_new_name_refuted : forall interp g od n m d g', sound g -> m <> n -> lookup n od = Some d -> d_name d = n -> incl (d_dims d) (g_dims g) ->
  regrid interp g od n (Some m) = Some g' ->
  (~ present g n -> exists file, write g' = Some file /\ ~ In m (map fst file) /\ exists dims, In (n, (dims, if d_tr d then by_latitude interp (g_x g) (g_y g) else sampled interp (g_x g) (g_y g))) file) /\
  (present g n -> In n (map fst (g_desc g)) -> write g' = None).
Proof.
  intros interp g od n m d g' [N H] NM Hn DN DI E. unfold regrid in E. rewrite Hn in E. cbn [bind] in E. apply Some_inj in E. rewrite on_grid_sampled in E. set (r := sampled interp (g_x g) (g_y g)) in *. destruct (put_desc m d (g_desc g) N) as [PN PI].
  assert (LV : forall v, lookup v (g_vars g') = if m =? v then Some r else lookup v (g_vars g)) by (intros v; subst g'; cbn [g_vars]; apply lookup_put).
  assert (P1 : forall v e, In (v, e) (g_desc g') -> (v = m /\ e = d) \/ (v <> m /\ d_name e = v /\ incl (d_dims e) (g_dims g'))). { subst g'. cbn [g_desc g_dims]. intros v e I. apply PI in I as [I|[X I]]; [auto|]. right. split; [exact X|]. apply H, I. }
  assert (GD : g_desc g' = (m, d) :: filter (fun p => negb (fst p =? m)) (g_desc g)) by (subst g'; reflexivity). assert (DG : g_dims g' = g_dims g) by (subst g'; reflexivity). assert (YG : g_y g' = g_y g) by (subst g'; reflexivity). set (rest := filter (fun p => negb (fst p =? m)) (g_desc g)) in *.
  assert (RI : forall v e, In (v, e) rest -> v <> m /\ In (v, e) (g_desc g)). { intros v e I. apply filter_In in I as [I X]. cbn [fst] in X. destruct (Nat.eqb_spec v m); [discriminate|auto]. }
  assert (L0 : line g' (m, d) = [(n, (d_dims d, if d_tr d then by_latitude interp (g_x g) (g_y g) else r))]). { unfold line. cbn [fst snd]. rewrite LV, Nat.eqb_refl, DN, YG. unfold r at 1. rewrite transpose_sampled. reflexivity. }
  split.
  - intros AP. exists (flat_map (line g') (g_desc g')).
    assert (NN : NoDup (map fst (flat_map (line g') (g_desc g')))). { rewrite GD. cbn [flat_map]. rewrite L0. cbn [app map fst]. constructor.
      - intros I. apply in_map_iff in I as (l & E1 & I). apply in_flat_map in I as ([u e] & I & L). destruct (RI u e I) as [X1 X2]. unfold line in L. cbn [fst snd] in L. rewrite LV in L. destruct (Nat.eqb_spec m u); [congruence|]. destruct (lookup u (g_vars g)) eqn:LU; [|destruct L]. destruct L as [<-|[]]. cbn [fst] in E1. rewrite (proj1 (H u e X2)) in E1. apply AP. unfold present. congruence.
      - apply lines_nodup; [intros v e I; apply H, (RI v e I)|]. unfold put in PN. cbn [map] in PN. inversion PN. assumption. }
    split; [apply (write_ok g' _ []); [|exact NN]|]. { intros v e I. destruct (P1 v e I) as [[_ ->]|(_ & _ & X)]; [rewrite DG; exact DI|exact X]. }
    split. { rewrite GD. cbn [flat_map]. rewrite L0. cbn [app map fst]. intros [X|X]; [congruence|]. apply in_map_iff in X as (l & E1 & I). apply in_flat_map in I as ([u e] & I & L). destruct (RI u e I) as [X1 X2]. unfold line in L. cbn [fst snd] in L. destruct (lookup u (g_vars g')); [|destruct L]. destruct L as [<-|[]]. cbn [fst] in E1. rewrite (proj1 (H u e X2)) in E1. congruence. }
    exists (d_dims d). rewrite GD. cbn [flat_map]. rewrite L0. left. reflexivity.
  - intros PR I. destruct (write g') as [file|] eqn:W; [|reflexivity]. exfalso. destruct (write_value g' _ [] file (NoDup_nil _) W) as [F1 F2]. cbn [app] in F1. rewrite F1, GD in F2. cbn [flat_map] in F2. rewrite L0 in F2. cbn [app map fst] in F2. inversion F2 as [|? ? X _]. apply X. apply in_map_iff in I as ([u e] & EU & I). cbn [fst] in EU. subst u. apply in_map_iff.
    destruct (lookup n (g_vars g)) as [a|] eqn:LU; [|contradiction]. exists (n, (d_dims e, if d_tr e then transpose (length (g_y g')) a else a)). split; [reflexivity|]. apply in_flat_map. exists (n, e). split. { apply filter_In. split; [exact I|]. cbn [fst]. destruct (Nat.eqb_spec n m); [congruence|reflexivity]. } unfold line. cbn [fst snd]. rewrite LV. destruct (Nat.eqb_spec m n); [contradiction|]. rewrite LU. left. rewrite (proj1 (H n e I)). reflexivity.
Qed.
Print Assumptions C132_new_name_refuted.

(** A case: a grid with a variable 1, and a variable 0 of the other grid, with a transposed
    file. *)
Definition case_grid := Gridset [0%Q; 1%Q] [10%Q; 11%Q; 12%Q] [5; 6] [(1, [[Some 1%Q]])] [(1, Desc 1 [5; 6] false)].
Definition case_other := [(0, Desc 0 [6; 5] true)].
Definition case_interp (x y : Q) : option Q := if Qle_bool y 11 then Some (x + y)%Q else None.
Example C132_case : sound case_grid /\ ~ present case_grid 0 /\ incl [6; 5] (g_dims case_grid) /\
  regrid case_interp case_grid case_other 0 None <> None /\ regrid case_interp case_grid case_other 0 (Some 7) <> None.
Proof. split; [split; [repeat constructor; intros []|intros v d [E|[]]; inversion E; subst; split; [reflexivity|intros x I; exact I]]|]. split; [intros H; apply H; reflexivity|]. split; [intros x I; cbn in *; tauto|]. split; discriminate. Qed.
