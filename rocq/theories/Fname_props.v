(** Property C131: name and format of the files. *)
From Coq Require Import List Arith Bool Ascii String Lia.
Import ListNotations.
From Verif Require Import Base Fname_model.

(** ** Specification *)
Definition ends (l e : text) : Prop := exists p, l = p ++ e.
Definition contains (l e : text) : Prop := exists p q, l = p ++ e ++ q.
Fixpoint join (s : text) (ps : list text) : text :=
  match ps with [] => [] | [p] => p | p :: r => p ++ s ++ join s r end.
(** [t] is [s] where every [e] is changed to [f]. *)
Definition changed (e f s t : text) : Prop := exists ps, ps <> [] /\ (forall p, In p ps -> ~ contains p e) /\ s = join e ps /\ t = join f ps.
(** A model of name: its pieces, as it is written and what it stands for. *)
Inductive piece := Lit (t : text) | Path | Sign | Prod | Percent.
Definition written (p : piece) : text := match p with Lit t => t | Path => chars "%(path)s" | Sign => chars "%(sign_type)s" | Prod => chars "%(prod_time)s" | Percent => chars "%%" end.
Definition meant (path sign prod : text) (p : piece) : text := match p with Lit t => t | Path => path | Sign => sign | Prod => prod | Percent => chars "%" end.
Definition plain (p : piece) : Prop := match p with Lit t => ~ In "%"%char t | _ => True end.

Lemma eqa_iff : forall a b, eqa a b = true <-> a = b.
Proof. intros. unfold eqa. destruct (ascii_dec a b); split; congruence. Qed.
Lemma eqa_refl : forall a, eqa a a = true.
Proof. intros. apply eqa_iff. reflexivity. Qed.
Lemma starts_iff : forall p l r, starts p l = Some r <-> l = p ++ r.
Proof.
  induction p as [|a p IH]; intros l r; cbn [starts app]; [split; congruence|]. destruct l as [|b l]; [split; discriminate|]. destruct (eqa a b) eqn:E.
  - apply eqa_iff in E. subst b. rewrite IH. split; intros H; [subst; reflexivity|inversion H; reflexivity].
  - split; [discriminate|]. intros H. inversion H; subst. rewrite eqa_refl in E. discriminate.
Qed.
Lemma endswith_iff : forall l e, endswith l e = true <-> ends l e.
Proof.
  intros l e. unfold endswith, ends. destruct (starts (rev e) (rev l)) as [r|] eqn:E.
  - split; [intros _|reflexivity]. apply starts_iff in E. exists (rev r). rewrite <- (rev_involutive l), E, rev_app_distr, rev_involutive. reflexivity.
  - split; [discriminate|]. intros [p H]. subst l. rewrite rev_app_distr in E. assert (X := proj2 (starts_iff (rev e) (rev e ++ rev p) (rev p)) eq_refl). congruence.
Qed.
Lemma ends_cons : forall a l e, ends (a :: l) e <-> a :: l = e \/ ends l e.
Proof. intros a l e. split; [intros [[|b p] H]; [left; exact H|right; inversion H; exists p; reflexivity]|]. intros [H|[p H]]; [exists []; exact H|exists (a :: p); subst; reflexivity]. Qed.
Lemma ends_nil : forall a e, ~ ends [] (a :: e).
Proof. intros a e [[|b p] H]; discriminate. Qed.

(** Unfolding of the replacement. *)
Definition nc := chars ".nc".
Definition zr := chars ".zarr".
Lemma replace_hit : forall q, replace (nc ++ q) = zr ++ replace q.
Proof. reflexivity. Qed.
Lemma replace_miss : forall a r, (forall q, a :: r <> nc ++ q) -> replace (a :: r) = a :: replace r.
Proof.
  intros a r H. cbn [replace]. destruct r as [|b [|c q]]; try reflexivity. destruct (eqa a "." && eqa b "n" && eqa c "c") eqn:E; [|reflexivity].
  apply andb_true_iff in E as [E E3]. apply andb_true_iff in E as [E1 E2]. apply eqa_iff in E1, E2, E3. subst. exfalso. apply (H q). reflexivity.
Qed.
Lemma hit_dec : forall l, (exists q, l = nc ++ q) \/ (forall q, l <> nc ++ q).
Proof. intros l. destruct (starts nc l) as [q|] eqn:E; [left; exists q; apply starts_iff, E|right; intros q H; apply starts_iff in H; congruence]. Qed.
Lemma text_ind : forall P : text -> Prop, P [] -> (forall q, P q -> P (nc ++ q)) -> (forall a r, P r -> (forall q, a :: r <> nc ++ q) -> P (a :: r)) -> forall l, P l.
Proof.
  intros P H0 H1 H2 l. remember (List.length l) as n eqn:N. revert l N. induction n as [n IH] using lt_wf_ind. intros [|a r] N; [exact H0|]. destruct (hit_dec (a :: r)) as [[q Q]|Q].
  - rewrite Q in *. apply H1. apply (IH (List.length q)); [|reflexivity]. rewrite N. cbn. lia.
  - apply H2; [|exact Q]. apply (IH (List.length r)); [rewrite N; cbn; lia|reflexivity].
Qed.
Lemma replace_nodot : forall l, ~ In "."%char (replace l) -> replace l = l.
Proof.
  apply (text_ind (fun l => ~ In "."%char (replace l) -> replace l = l)).
  - reflexivity.
  - intros q _ H. exfalso. apply H. left. reflexivity.
  - intros a r IH Q H. rewrite (replace_miss a r Q) in *. f_equal. apply IH. intros I. apply H. right. exact I.
Qed.
Lemma replace_nil : forall l, replace l = [] -> l = [].
Proof. intros l H. rewrite <- (replace_nodot l); [exact H|]. rewrite H. intros []. Qed.

Lemma ends_replace : forall l, ends (replace l) zr <-> ends l nc \/ ends l zr.
Proof.
  apply (text_ind (fun l => ends (replace l) zr <-> ends l nc \/ ends l zr)).
  - cbn [replace]. split; [intros H; right; exact H|]. intros [H|H]; [destruct (ends_nil _ _ H)|exact H].
  - intros q IH. rewrite replace_hit. unfold zr at 1, nc at 1 3. cbn [chars list_ascii_of_string app]. rewrite !ends_cons. fold nc. rewrite IH. split.
    + intros [H|[H|[H|[H|[H|H]]]]]; try discriminate; [|tauto]. assert (E : replace q = []) by (inversion H; (reflexivity || assumption)). apply replace_nil in E. subst q. left. left. reflexivity.
    + intros [[H|[H|[H|H]]]|[H|[H|[H|H]]]]; try discriminate; try tauto. left. assert (E : q = []) by (inversion H; (reflexivity || assumption)). subst q. reflexivity.
  - intros a r IH Q. rewrite (replace_miss a r Q), !ends_cons, IH. split.
    + intros [H|H]; [|tauto]. right. left. assert (E : replace r = chars "zarr") by (inversion H; (reflexivity || assumption)). rewrite <- H. f_equal. symmetry. apply replace_nodot. rewrite E. intros I. cbn in I. repeat (destruct I as [I|I]; [discriminate|]). exact I.
    + intros [[H|H]|[H|H]]; try tauto. { exfalso. apply (Q []). rewrite app_nil_r. exact H. } left. rewrite <- H. f_equal. assert (E : r = chars "zarr") by (inversion H; (reflexivity || assumption)). subst r. reflexivity.
Qed.

Lemma contains_cons : forall a p e, ~ contains p e -> (forall q, a :: p <> e ++ q) -> ~ contains (a :: p) e.
Proof. intros a p e H1 H2 (u & v & E). destruct u as [|b u]; [exact (H2 v E)|]. inversion E. subst. apply H1. exists u, v. reflexivity. Qed.
Lemma replace_changed : forall l, changed nc zr l (replace l).
Proof.
  apply (text_ind (fun l => changed nc zr l (replace l))).
  - exists [[]]. split; [discriminate|]. split; [|split; reflexivity]. intros p [<-|[]] (u & v & E). destruct u; discriminate.
  - intros q (ps & NE & H & E1 & E2). exists ([] :: ps). rewrite replace_hit. split; [discriminate|]. split; [|split]. + intros p [<-|I]; [|apply H, I]. intros (u & v & E). destruct u; discriminate. + destruct ps; [congruence|]. rewrite E1. reflexivity. + destruct ps; [congruence|]. rewrite E2. reflexivity.
  - intros a r (ps & NE & H & E1 & E2) Q. rewrite (replace_miss a r Q). destruct ps as [|p ps]; [congruence|]. exists ((a :: p) :: ps). split; [discriminate|]. split; [|split].
    + intros p' [<-|I]; [|apply H; right; exact I]. apply contains_cons; [apply H; left; reflexivity|]. intros q X. apply (Q (match ps with [] => q | _ => q ++ nc ++ join nc ps end)). rewrite E1. destruct ps as [|p2 ps]; [cbn [join]; exact X|]. change (join nc (p :: p2 :: ps)) with (p ++ nc ++ join nc (p2 :: ps)). rewrite app_comm_cons, X, <- app_assoc. reflexivity.
    + rewrite E1. destruct ps; reflexivity.
    + rewrite E2. destruct ps; reflexivity.
Qed.

(** Formatting. *)
Section format.
Variables path sign prod : text.
Let values := [(chars "path", path); (chars "sign_type", sign); (chars "prod_time", prod)].
Lemma percent_lit : forall t fuel r m, ~ In "%"%char t -> (forall f, List.length r <= f -> percent f values r = Some m) -> List.length (t ++ r) <= fuel -> percent fuel values (t ++ r) = Some (t ++ m).
Proof.
  induction t as [|a t IH]; intros fuel r m N H L; [apply H, L|]. destruct fuel; [cbn in L; lia|]. cbn [app percent]. destruct (eqa a "%") eqn:E; [apply eqa_iff in E; subst; exfalso; apply N; left; reflexivity|]. rewrite (IH fuel r m); [reflexivity|intros I; apply N; right; exact I|exact H|cbn in L; lia].
Qed.
Lemma percent_pieces : forall ps fuel, (forall p, In p ps -> plain p) -> List.length (List.concat (map written ps)) <= fuel -> percent fuel values (List.concat (map written ps)) = Some (List.concat (map (meant path sign prod) ps)).
Proof.
  induction ps as [|p ps IH]; intros fuel H L; [destruct fuel; reflexivity|]. cbn [map List.concat] in *. assert (IH' : forall f, List.length (List.concat (map written ps)) <= f -> percent f values (List.concat (map written ps)) = Some (List.concat (map (meant path sign prod) ps))) by (intros f; apply IH; intros q I; apply H; right; exact I).
  destruct p as [t| | | |].
  - apply percent_lit; [exact (H (Lit t) (or_introl eq_refl))|exact IH'|exact L].
  - destruct fuel as [|fuel]; [cbn in L; lia|]. set (rest := List.concat (map written ps)) in *. cbn [written chars list_ascii_of_string app percent]. change (eqa "%" "%") with true. change (eqa "(" "%") with false. cbn iota. assert (K : key values (chars "(path)s" ++ rest) = Some (path, rest)) by reflexivity. cbn [chars list_ascii_of_string app] in K. rewrite K. cbn [bind snd fst]. rewrite IH' by (cbn in L; lia). reflexivity.
  - destruct fuel as [|fuel]; [cbn in L; lia|]. set (rest := List.concat (map written ps)) in *. cbn [written chars list_ascii_of_string app percent]. change (eqa "%" "%") with true. change (eqa "(" "%") with false. cbn iota. assert (K : key values (chars "(sign_type)s" ++ rest) = Some (sign, rest)) by reflexivity. cbn [chars list_ascii_of_string app] in K. rewrite K. cbn [bind snd fst]. rewrite IH' by (cbn in L; lia). reflexivity.
  - destruct fuel as [|fuel]; [cbn in L; lia|]. set (rest := List.concat (map written ps)) in *. cbn [written chars list_ascii_of_string app percent]. change (eqa "%" "%") with true. change (eqa "(" "%") with false. cbn iota. assert (K : key values (chars "(prod_time)s" ++ rest) = Some (prod, rest)) by reflexivity. cbn [chars list_ascii_of_string app] in K. rewrite K. cbn [bind snd fst]. rewrite IH' by (cbn in L; lia). reflexivity.
  - destruct fuel as [|fuel]; [cbn in L; lia|]. cbn [written chars list_ascii_of_string app percent]. change (eqa "%" "%") with true. cbn iota. rewrite IH' by (cbn in L; lia). reflexivity.
Qed.
End format.

(** ** Property C131 *)
(** The name: the pieces of the model with their values; with the option, every ".nc" becomes
    ".zarr". The format: zarr with the option or for a name which ends with ".zarr". *)
Theorem C131_written : forall ps path sign prod flag, (forall p, In p ps -> plain p) ->
  let asked := List.concat (map (meant path sign prod) ps) in
  exists name f, write_file path sign prod (List.concat (map written ps)) flag = Some (name, f) /\
    (if flag then changed (chars ".nc") (chars ".zarr") asked name else name = asked) /\
    (f = Zarr <-> flag = true \/ ends asked (chars ".zarr")).
Proof.
  intros ps path sign prod flag H asked. unfold write_file. rewrite (percent_pieces path sign prod ps _ H) by lia. cbn [bind]. fold asked. do 2 eexists. split; [reflexivity|]. destruct flag.
  - split; [apply replace_changed|]. destruct (endswith (replace asked) (chars ".zarr")); split; auto.
  - split; [reflexivity|]. rewrite <- endswith_iff. destruct (endswith asked (chars ".zarr")); split; auto. + discriminate. + intros [X|X]; discriminate.
Qed.
Print Assumptions C131_written.

(** The file is read in the format in which it was written exactly when the option is not
    used or the name ends with ".nc" or ".zarr". *)
Theorem C131_read_back : forall ps path sign prod flag name f, (forall p, In p ps -> plain p) ->
  write_file path sign prod (List.concat (map written ps)) flag = Some (name, f) ->
  let asked := List.concat (map (meant path sign prod) ps) in
  (load_file name = f <-> flag = false \/ ends asked (chars ".nc") \/ ends asked (chars ".zarr")).
Proof.
  intros ps path sign prod flag name f H E asked. unfold write_file in E. rewrite (percent_pieces path sign prod ps _ H) in E by lia. cbn [bind] in E. fold asked in E. apply Some_inj in E. apply pair_equal_spec in E as [<- <-]. unfold load_file. fold zr. fold nc. destruct flag.
  - rewrite <- (ends_replace asked), <- endswith_iff. destruct (endswith (replace asked) zr); split; auto; [discriminate|intros [X|X]; discriminate].
  - destruct (endswith asked zr); split; auto.
Qed.
Print Assumptions C131_read_back.

(** With the option and a name of another extension, the file of zarr is later read as netcdf;
    a directory with ".nc" in its name is changed too. *)
Theorem C131_zarr_refuted :
  (forall t, ~ In "%"%char t -> ~ ends t (chars ".nc") -> ~ ends t (chars ".zarr") -> exists name, write_file [] [] [] t true = Some (name, Zarr) /\ load_file name = Netcdf) /\
  write_file (chars "/data.ncei") (chars "Cyclonic") [] (chars "%(path)s/%(sign_type)s.nc") true = Some (chars "/data.zarrei/Cyclonic.zarr", Zarr).
Proof.
  split; [|reflexivity]. intros t N H1 H2. assert (P : forall p, In p [Lit t] -> plain p) by (intros p [<-|[]]; exact N). destruct (C131_written [Lit t] [] [] [] true P) as (name & f & E & _ & F). pose proof (C131_read_back [Lit t] [] [] [] true name f P E) as B. cbn [map List.concat written meant] in E, F, B. rewrite app_nil_r in E, F, B. assert (f = Zarr) by (apply F; left; reflexivity). subst f. exists name. split; [exact E|]. destruct (load_file name) eqn:L; [|reflexivity]. exfalso. destruct (proj1 B eq_refl) as [X|[X|X]]; [discriminate|auto|auto].
Qed.
Print Assumptions C131_zarr_refuted.

(** The default model. *)
Theorem C131_default : forall path sign prod, write_file path sign prod (chars "%(path)s/%(sign_type)s.nc") false = Some (path ++ chars "/" ++ sign ++ chars ".nc", Netcdf).
Proof.
  intros. assert (P : forall p, In p [Path; Lit (chars "/"); Sign; Lit nc] -> plain p). { intros p I. repeat (destruct I as [<-|I]; [cbn; intuition discriminate|]). destruct I. }
  destruct (C131_written _ path sign prod false P) as (name & f & E & N & F). cbn [map List.concat written meant] in E, N, F. rewrite app_nil_r in N, F. change (List.concat _) with (chars "%(path)s/%(sign_type)s.nc") in E || idtac. change (chars "%(path)s/%(sign_type)s.nc") with (chars "%(path)s" ++ chars "/" ++ chars "%(sign_type)s" ++ nc ++ []). rewrite E, N. f_equal. f_equal. destruct f; [|reflexivity]. exfalso. destruct (proj1 F eq_refl) as [X|X]; [discriminate|]. destruct X as [u X]. assert (Y := f_equal (@rev ascii) X). rewrite !rev_app_distr in Y. discriminate.
Qed.
Print Assumptions C131_default.

(** Cases of the hypotheses. *)
Example C131_case : (forall p, In p [Path; Lit (chars "/"); Sign; Lit (chars "_50"); Percent; Lit (chars ".nc")] -> plain p) /\
  write_file (chars "out") (chars "Anticyclonic") (chars "20200101") (List.concat (map written [Path; Lit (chars "/"); Sign; Lit (chars "_50"); Percent; Lit (chars ".nc")])) true = Some (chars "out/Anticyclonic_50%.zarr", Zarr).
Proof. split; [|reflexivity]. intros p I. repeat (destruct I as [<-|I]; [cbn; intuition discriminate|]). destruct I. Qed.
