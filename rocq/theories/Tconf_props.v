(** * C149: the configuration of the tracking command *)
From Coq Require Import List Arith Bool ZArith QArith String Lia.
From Verif Require Import Base Corr_model Corr_more Corr_props Tconf_model.
Import ListNotations.
Local Close Scope Q_scope.
Local Open Scope nat_scope.
Notation length := List.length.

(** ** Settings *)
(** The value of a name in a section: [None] when it is not there. *)
Definition given (d : mapping) (k : string) (v : option yaml) : Prop :=
  match v with
  | None => forall w, ~ In (k, w) d
  | Some w => exists d1 d2, d = d1 ++ (k, w) :: d2 /\ forall w', ~ In (k, w') d1
  end.
Lemma get_given : forall d k, given d k (get d k).
Proof.
  induction d as [|[k' w] d IH]; intros k; [intros v []|]. unfold get. cbn [find fst]. destruct (String.eqb_spec k' k) as [->|N].
  - cbn. exists [], d. split; [reflexivity|intros w' []].
  - fold (get d k). specialize (IH k). destruct (get d k) as [v|]; cbn in *.
    + destruct IH as (d1 & d2 & -> & H). exists ((k', w) :: d1), d2. split; [reflexivity|]. intros w' [E|I0]; [congruence|exact (H w' I0)].
    + intros v [E|I0]; [congruence|exact (IH v I0)].
Qed.
Lemma given_unique : forall d k v, given d k v -> get d k = v.
Proof.
  intros d k v G. pose proof (get_given d k) as H. destruct v as [v|], (get d k) as [w|]; cbn in *.
  - destruct G as (d1 & d2 & -> & G), H as (e1 & e2 & E & H). revert e1 E H. induction d1 as [|a d1 IH]; intros [|b e1] E H; cbn in E.
    + congruence.
    + injection E as <- _. exfalso. apply (H v). left. reflexivity.
    + injection E as -> _. exfalso. apply (G w). left. reflexivity.
    + injection E as <- E. apply (IH (fun w' I0 => G w' (or_intror I0)) e1 E). intros w' I0. apply (H w'). right. exact I0.
  - destruct G as (d1 & d2 & -> & _). exfalso. apply (H v). apply in_or_app. right. left. reflexivity.
  - destruct H as (d1 & d2 & -> & _). exfalso. apply (G w). apply in_or_app. right. left. reflexivity.
  - reflexivity.
Qed.
(** A whole number given in the configuration. *)
Inductive whole (parse_int : string -> option Z) : yaml -> Z -> Prop :=
| whole_int : forall z, whole parse_int (YInt z) z
| whole_text : forall s z, parse_int s = Some z -> whole parse_int (YStr s) z
| whole_bool : forall b : bool, whole parse_int (YBool b) (if b then 1 else 0)%Z
| whole_down : forall q z, (0 <= q)%Q -> (inject_Z z <= q)%Q -> (q < inject_Z z + 1)%Q -> whole parse_int (YFloat q) z
| whole_up : forall q z, (q <= 0)%Q -> (q <= inject_Z z)%Q -> (inject_Z z - 1 < q)%Q -> whole parse_int (YFloat q) z.
Lemma to_int_whole : forall parse_int v z, to_int parse_int v = Some z <-> whole parse_int v z.
Proof.
  intros parse_int v z. split.
  - destruct v as [|b|n|[n d]|s|l]; cbn; intros E; try discriminate.
    + injection E as <-. constructor.
    + injection E as <-. constructor.
    + injection E as <-. pose proof (Z.quot_rem n (Zpos d) ltac:(lia)) as Q1. destruct (Z.le_ge_cases 0 n) as [P|P].
      * pose proof (Z.rem_bound_pos n (Zpos d) P ltac:(lia)). apply whole_down; unfold Qle, Qlt, Qplus, inject_Z; cbn; nia.
      * pose proof (Z.rem_bound_pos_neg n (Zpos d) ltac:(lia) P). apply whole_up; unfold Qle, Qlt, Qminus, Qopp, Qplus, inject_Z; cbn; nia.
    + constructor. exact E.
  - intros W. destruct W as [z|s z E|b|[n d] z P A B|[n d] z P A B]; cbn; auto; f_equal; unfold Qle, Qlt, Qminus, Qopp, Qplus, inject_Z in *; cbn in *.
    + symmetry. apply Z.quot_unique with (r := (n - Zpos d * z)%Z); nia.
    + pose proof (Z.quot_rem n (Zpos d) ltac:(lia)) as Q1. pose proof (Z.rem_bound_pos_neg n (Zpos d) ltac:(lia) ltac:(lia)). set (q := Z.quot n (Zpos d)) in *. set (r := Z.rem n (Zpos d)) in *. nia.
Qed.

(** Each setting is what it should be: the command line before the section PATHS for
    the two files of correspondences; a null name of output is kept as it is; 0
    virtual eddies and 10 dates when they are not given. *)
Definition or_else (arg : option string) (v : option yaml) (default r : yaml) : Prop :=
  match arg, v with Some s, _ => r = YStr s | None, Some w => r = w | None, None => r = default end.
Definition number (parse_int : string -> option Z) (v : option yaml) (default z : Z) : Prop :=
  match v with Some w => whole parse_int w z | None => z = default end.
Definition class_given (known : string * string -> bool) (c : config) (cl : option (string * string)) (kw : mapping) : Prop :=
  match y_section c with
  | None => cl = None /\ kw = []
  | Some s => exists m n, y_module s = Some m /\ y_class s = Some n /\ known (m, n) = true /\ cl = Some (m, n) /\ (y_options s = Some kw \/ y_options s = None /\ kw = [])
  end.
Theorem C149_settings : forall parse_int known parent dirs a c dirs' t,
  configure parse_int known parent dirs a c = (dirs', Some t) <->
  exists paths d vin vout vvirt vmin, y_paths c = Some paths /\ class_given known c (t_class t) (t_kw t) /\
    given paths "CORRESPONDANCES_IN" vin /\ or_else (a_in a) vin YNull (t_in t) /\
    given paths "CORRESPONDANCES_OUT" vout /\ or_else (a_out a) vout (YStr "{path}/{sign_type}_correspondances.nc") (t_out t) /\
    given paths "FILES_PATTERN" (Some (t_pattern t)) /\
    given (y_top c) "VIRTUAL_LENGTH_MAX" vvirt /\ number parse_int vvirt 0 (t_virtual t) /\
    given (y_top c) "TRACK_DURATION_MIN" vmin /\ number parse_int vmin 10 (t_min t) /\
    given paths "SAVE_DIR" d /\
    match t_dir t with
    | None => (d = None \/ d = Some YNull) /\ dirs' = dirs
    | Some p => d = Some (YStr p) /\ (In p dirs /\ dirs' = dirs \/ ~ In p dirs /\ In (parent p) dirs /\ dirs' = p :: dirs)
    end /\
    (t_memory t, t_only t, t_zarr t, t_blank t) = (a_memory a, a_only a, a_zarr a, a_blank a) /\ (t_raw t = true <-> a_unraw a = false).
Proof.
  intros parse_int known parent dirs a c dirs' t.
  assert (IN : forall p l, existsb (String.eqb p) l = true <-> In p l). { intros p l. rewrite existsb_exists. split; [intros (x & I0 & E); apply String.eqb_eq in E; congruence|intros I0; exists p; split; [exact I0|apply String.eqb_refl]]. }
  assert (CL : forall cl kw, class_of known c = Some (cl, kw) <-> class_given known c cl kw).
  { intros cl kw. unfold class_of, class_given. destruct (y_section c) as [s|].
    - destruct (y_class s) as [n|]; cbn [bind]; [|split; [discriminate|intros (m & n & _ & E & _); discriminate]]. destruct (y_module s) as [m|]; cbn [bind]; [|split; [discriminate|intros (m & n' & E & _); discriminate]].
      destruct (known (m, n)) eqn:K.
      + split.
        * intros E. injection E as <- <-. exists m, n. repeat split; auto. destruct (y_options s); auto.
        * intros (m' & n' & E1 & E2 & _ & -> & E3). injection E1 as <-. injection E2 as <-. destruct E3 as [-> | [-> ->]]; reflexivity.
      + split; [discriminate|]. intros (m' & n' & E1 & E2 & E3 & _). congruence.
    - split; [intros E; injection E as <- <-; auto|intros [-> ->]; reflexivity]. }
  assert (OE : forall arg d k v def r, given d k v -> (or_else arg v def r <-> r = match arg with Some s => YStr s | None => get_or d k def end)).
  { intros arg d k v def r G. apply given_unique in G. unfold or_else, get_or. rewrite G. destruct arg, v; reflexivity. }
  assert (NB : forall d k v n z, given d k v -> (number parse_int v n z <-> to_int parse_int (get_or d k (YInt n)) = Some z)).
  { intros d k v n z G. apply given_unique in G. unfold number, get_or. rewrite G. destruct v as [v|]; [symmetry; apply to_int_whole|]. cbn. split; [intros ->; reflexivity|intros E; congruence]. }
  unfold configure. split.
  - destruct (class_of known c) as [[cl kw]|] eqn:EC; [|discriminate]. destruct (y_paths c) as [paths|] eqn:EP; [|discriminate].
    destruct (make_dir parent dirs (get_or paths "SAVE_DIR" YNull)) as [[ds save_dir]|] eqn:EM; [|discriminate].
    destruct (get paths "FILES_PATTERN") as [pat|] eqn:EF; cbn [bind]; [|discriminate]. destruct (to_int parse_int (get_or (y_top c) "VIRTUAL_LENGTH_MAX" (YInt 0))) as [nv|] eqn:EV; cbn [bind]; [|discriminate].
    destruct (to_int parse_int (get_or (y_top c) "TRACK_DURATION_MIN" (YInt 10))) as [nm|] eqn:EN; cbn [bind]; [|discriminate]. intros E. injection E as <- <-. cbn [t_class t_kw t_in t_out t_pattern t_virtual t_min t_dir t_memory t_only t_zarr t_blank t_raw].
    exists paths, (get paths "SAVE_DIR"), (get paths "CORRESPONDANCES_IN"), (get paths "CORRESPONDANCES_OUT"), (get (y_top c) "VIRTUAL_LENGTH_MAX"), (get (y_top c) "TRACK_DURATION_MIN").
    split; [reflexivity|]. split; [apply CL; reflexivity|]. split; [apply get_given|]. split; [apply (OE _ paths "CORRESPONDANCES_IN"%string); [apply get_given|reflexivity]|]. split; [apply get_given|]. split; [apply (OE _ paths "CORRESPONDANCES_OUT"%string); [apply get_given|reflexivity]|].
    split; [rewrite <- EF; apply get_given|]. split; [apply get_given|]. split; [apply (NB (y_top c) "VIRTUAL_LENGTH_MAX"%string); [apply get_given|exact EV]|]. split; [apply get_given|]. split; [apply (NB (y_top c) "TRACK_DURATION_MIN"%string); [apply get_given|exact EN]|]. split; [apply get_given|].
    split; [|split; [reflexivity|destruct (a_unraw a); cbn; split; congruence]].
    unfold get_or in EM. destruct (get paths "SAVE_DIR") as [[|b|z|q|p|l]|]; cbn in EM; try discriminate; [injection EM as <- <-; auto| |injection EM as <- <-; auto].
    destruct (existsb (String.eqb p) dirs) eqn:E1; [injection EM as <- <-; split; [reflexivity|left; split; [apply IN; exact E1|reflexivity]]|]. destruct (existsb (String.eqb (parent p)) dirs) eqn:E2; [|discriminate]. injection EM as <- <-. split; [reflexivity|right]. split; [intros X; apply IN in X; congruence|]. split; [apply IN; exact E2|reflexivity].
  - intros (paths & d & vin & vout & vvirt & vmin & EP & G1 & G2 & G3 & G4 & G5 & G6 & G7 & G8 & G9 & G10 & G11 & G12 & G13 & G14).
    apply CL in G1. rewrite G1, EP. apply (OE _ _ _ _ _ _ G2) in G3. apply (OE _ _ _ _ _ _ G4) in G5. apply given_unique in G6. apply (NB _ _ _ _ _ G7) in G8. apply (NB _ _ _ _ _ G9) in G10. apply given_unique in G11.
    assert (EM : make_dir parent dirs (get_or paths "SAVE_DIR" YNull) = Some (dirs', t_dir t)).
    { unfold get_or. rewrite G11. destruct (t_dir t) as [p|].
      - destruct G12 as (-> & [[X ->]|(X & Y & ->)]); cbn; [apply IN in X; rewrite X; reflexivity|]. destruct (existsb (String.eqb p) dirs) eqn:E1; [apply IN in E1; contradiction|]. apply IN in Y. rewrite Y. reflexivity.
      - destruct G12 as ([-> | ->] & ->); reflexivity. }
    rewrite EM, G6, G8, G10. cbn [bind]. f_equal. f_equal. destruct t as [x1 x2 x3 x4 x5 x6 x7 x8 x9 x10 x11 x12 x13]. cbn in *. injection G13 as -> -> -> ->. rewrite <- G3, <- G5. f_equal. destruct x10, (a_unraw a); cbn; try reflexivity; destruct G14 as [U1 U2]; [discriminate U1; reflexivity|symmetry; apply U2; reflexivity].
Qed.
Print Assumptions C149_settings.

(** The directory of the outputs may be made by a command which fails afterwards, and it
    is the only one. *)
Theorem C149_directory : forall parse_int known parent dirs a c dirs' r,
  configure parse_int known parent dirs a c = (dirs', r) ->
  dirs' = dirs \/ exists p paths, dirs' = p :: dirs /\ ~ In p dirs /\ In (parent p) dirs /\ y_paths c = Some paths /\ given paths "SAVE_DIR" (Some (YStr p)).
Proof.
  intros parse_int known parent dirs a c dirs' r. unfold configure. destruct (class_of known c) as [[cl kw]|]; [|intros E; injection E as <- _; auto]. destruct (y_paths c) as [paths|]; [|intros E; injection E as <- _; auto].
  pose proof (get_given paths "SAVE_DIR") as G. change (get_or paths "SAVE_DIR" YNull) with (match get paths "SAVE_DIR" with Some v => v | None => YNull end). destruct (get paths "SAVE_DIR") as [[|b|z|q|p|l]|]; cbn [make_dir]; try (intros E; injection E as <- _; auto; fail).
  destruct (existsb (String.eqb p) dirs) eqn:E1; [intros E; injection E as <- _; auto|]. destruct (existsb (String.eqb (parent p)) dirs) eqn:E2; [|intros E; injection E as <- _; auto]. intros E. injection E as <- _. right. exists p, paths. split; [reflexivity|]. split.
  - intros I0. assert (X : existsb (String.eqb p) dirs = true) by (apply existsb_exists; exists p; split; [exact I0|apply String.eqb_refl]). congruence.
  - split; [|auto]. apply existsb_exists in E2 as (x & I0 & E). apply String.eqb_eq in E. subst x. exact I0.
Qed.
Print Assumptions C149_directory.

(** ** Continuation of a file *)
Lemma nth_error_skipn : forall {A} (l : list A) k m, nth_error (skipn k l) m = nth_error l (k + m).
Proof. induction l as [|a l IH]; intros [|k] m; cbn; auto. destruct m; reflexivity. Qed.
Section Cont.
  Context {Obs V : Type} (as_obs : V -> Obs) (extrapolate : Obs -> Obs -> V) (prolong : V -> V) (associate : list Obs -> list Obs -> option (list (nat * nat * Q))) (nbv : nat).
  Lemma recense_links : forall st st', recense extrapolate prolong nbv st = Some st' -> s_links st' = s_links st.
  Proof.
    intros st st'. unfold recense. destruct (s_links st) as [|l [|b r]] eqn:L; try discriminate. destruct (negb (virtual nbv)); [intros E; injection E as <-; exact L|].
    destruct (match s_virt st with None => _ | Some _ => _ end); [|discriminate]. cbn [bind]. destruct (index (map c_id b) _); [|discriminate]. cbn [bind]. destruct (gather b _); [|discriminate]. cbn [bind]. destruct (s_prev2 st); [|discriminate]. cbn [bind]. destruct (s_prev st); [|discriminate]. cbn [bind]. destruct (gather _ (map c_in _)); [|discriminate]. cbn [bind]. destruct (gather _ (map c_out _)); [|discriminate]. cbn [bind]. intros E. injection E as <-. reflexivity.
  Qed.
  Lemma step_links : forall st d st', step as_obs extrapolate prolong associate nbv st d = Some st' -> exists c, s_links st' = c :: s_links st.
  Proof.
    intros st d st'. unfold step, swap. cbn [s_prev s_flg s_virt s_links s_id s_prev2 s_cur s_pvirt]. destruct (s_cur st) as [real|]; [|discriminate]. cbn [bind]. destruct (if s_flg st then _ else _) as [prev|]; [|discriminate]. cbn [bind]. destruct (associate prev d); [|discriminate]. cbn [bind].
    destruct (store_correspondance nbv _ _ _) as [[[cs cur] first]|]; [|discriminate]. cbn [bind]. exists cs. destruct first; [injection H as <-; reflexivity|]. destruct (recense _ _ _ _) as [st3|] eqn:R; [|discriminate]. cbn [bind] in H. injection H as <-. cbn. apply recense_links in R. rewrite R. reflexivity.
  Qed.
  Lemma steps_links : forall ds st st', steps as_obs extrapolate prolong associate nbv st ds = Some st' -> exists news, s_links st' = news ++ s_links st /\ length news = length ds.
  Proof.
    induction ds as [|d ds IH]; intros st st' H; cbn [steps] in H; [injection H as <-; exists []; auto|]. destruct (step _ _ _ _ _ st d) as [s1|] eqn:E; [|discriminate]. cbn [bind] in H. destruct (step_links _ _ _ E) as [c C]. destruct (IH _ _ H) as (news & N1 & N2). exists (news ++ [c]). rewrite N1, C, <- app_assoc. split; [reflexivity|]. rewrite app_length. cbn. lia.
  Qed.
  Lemma resume_links : forall f ds st, resume as_obs extrapolate prolong associate nbv f ds = Some st -> exists news, rev (s_links st) = f_links f ++ news /\ length (f_links f) + length news + 1 = length ds /\ f_links f <> [].
  Proof.
    intros f ds st. unfold resume. destruct (length (f_links f) =? 0) eqn:L0; [discriminate|]. cbn [orb]. destruct (existsb _ _); [discriminate|]. destruct (nth_error ds (S (length (f_links f)) - 2)) as [cur0|]; [|discriminate]. cbn [bind]. destruct (nth_error ds (S (length (f_links f)) - 1)) as [d|] eqn:D; [|discriminate]. cbn [bind].
    assert (LD : length (f_links f) < length ds). { assert (S (length (f_links f)) - 1 < length ds) by (apply nth_error_Some; congruence). lia. }
    assert (NE : f_links f <> []) by (intros X; rewrite X in L0; discriminate).
    assert (G : forall s0, s_links s0 = rev (f_links f) -> steps as_obs extrapolate prolong associate nbv s0 (skipn (S (length (f_links f))) ds) = Some st -> exists news, rev (s_links st) = f_links f ++ news /\ length (f_links f) + length news + 1 = length ds /\ f_links f <> []).
    { intros s0 S0 H. destruct (steps_links _ _ _ H) as (news & N1 & N2). exists (rev news). rewrite N1, rev_app_distr, S0, rev_involutive, rev_length, N2, skipn_length. split; [reflexivity|]. split; [lia|exact NE]. }
    destruct (virtual nbv).
    - destruct (f_virt f) as [v|]; [|discriminate]. cbn [bind]. destruct (f_pvirt f) as [p|]; [|discriminate]. cbn [bind]. apply G. reflexivity.
    - apply G. reflexivity.
  Qed.
  Lemma resume_suffix : forall f ds ds', length ds = length ds' -> skipn (length (f_links f) - 1) ds = skipn (length (f_links f) - 1) ds' ->
    resume as_obs extrapolate prolong associate nbv f ds = resume as_obs extrapolate prolong associate nbv f ds'.
  Proof.
    intros f ds ds' L E. unfold resume. destruct (length (f_links f) =? 0) eqn:L0; [reflexivity|]. apply Nat.eqb_neq in L0. cbn [orb]. destruct (existsb _ _); [reflexivity|]. set (n := length (f_links f)) in *.
    assert (N : forall i, n - 1 <= i -> nth_error ds i = nth_error ds' i). { intros i Hi. replace i with (n - 1 + (i - (n - 1))) by lia. rewrite <- !nth_error_skipn. rewrite E. reflexivity. }
    assert (SK : skipn (S n) ds = skipn (S n) ds'). { apply nth_error_ext. intros i. rewrite !nth_error_skipn. apply N. lia. }
    rewrite !N by lia. rewrite SK. reflexivity.
  Qed.
End Cont.

(** A name of file which is there, with what was written last. *)
Definition in_store {V} (s : @store V) (name : string) (p : @stored V) : Prop :=
  exists s1 s2, s = s1 ++ (name, p) :: s2 /\ forall q, ~ In (name, q) s1.
Lemma lookup_spec : forall {V} (s : @store V) name p, lookup s name = Some p <-> in_store s name p.
Proof.
  intros V s name p. unfold lookup, in_store. induction s as [|[k w] s IH]; cbn [find fst].
  - split; [discriminate|]. intros ([|x s1] & s2 & E & _); discriminate.
  - destruct (String.eqb_spec k name) as [->|N].
    + cbn. split; [intros E; injection E as <-; exists [], s; split; [reflexivity|intros q []]|]. intros ([|x s1] & s2 & E & H); cbn in E; [injection E as <- _; reflexivity|]. injection E as <- _. exfalso. apply (H w). left. reflexivity.
    + rewrite IH. split; intros (s1 & s2 & E & H).
      * exists ((k, w) :: s1), s2. split; [rewrite E; reflexivity|]. intros q [X|X]; [congruence|exact (H q X)].
      * destruct s1 as [|x s1]; cbn in E; [congruence|]. injection E as <- E. exists s1, s2. split; [exact E|]. intros q X. apply (H q). right. exact X.
Qed.
Lemma same_class_eq : forall a b, same_class a b = true <-> a = b.
Proof. intros [a1 a2] [b1 b2]. unfold same_class. cbn. rewrite andb_true_iff, !String.eqb_eq. split; [intros [-> ->]; reflexivity|intros E; injection E as -> ->; auto]. Qed.
Lemma no_empty : forall {A} (l : list (list A)), existsb (fun c => length c =? 0) l = false <-> ~ In [] l.
Proof.
  intros A l. split.
  - intros E I0. assert (X : existsb (fun c => length c =? 0) l = true) by (apply existsb_exists; exists []; auto). congruence.
  - intros N. destruct (existsb _ l) eqn:E; [|reflexivity]. apply existsb_exists in E as (c & I0 & E). destruct c; [contradiction|discriminate].
Qed.

(** A file to continue is taken exactly when it is there, has links at each step, and
    was made with the same count of virtual eddies and the same class.  Neither the
    options of the class nor the names of the files are looked at. *)
Theorem C149_compatible : forall {V} (s : @store V) t name, t_in t = YStr name ->
  (forall p, load_compatible s t = Some (Some p) <->
     in_store s name p /\ ~ In [] (f_links (z_run p)) /\ z_virtual p = t_virtual t /\ z_class p = match t_class t with Some c => c | None => usual_class end) /\
  load_compatible s t <> Some None.
Proof.
  intros V s t name E. unfold load_compatible. rewrite E. split.
  - intros p. rewrite <- lookup_spec. destruct (lookup s name) as [q|]; cbn [bind]; [|split; [discriminate|intros (X & _); discriminate]].
    destruct (existsb _ (f_links (z_run q))) eqn:E1; [split; [discriminate|]; intros (X & Y & _); injection X as <-; apply no_empty in Y; congruence|].
    destruct (Z.eqb_spec (t_virtual t) (z_virtual q)) as [E2|E2]; cbn [negb]; [|split; [discriminate|]; intros (X & _ & Y & _); injection X as <-; congruence].
    fold (class_used t). destruct (same_class (class_used t) (z_class q)) eqn:E3; cbn [negb].
    + split; [intros X; injection X as <-; split; [reflexivity|]; split; [apply no_empty; exact E1|]; split; [congruence|apply same_class_eq in E3; congruence]|]. intros (X & _). congruence.
    + split; [discriminate|]. intros (X & _ & _ & Y). injection X as <-. rewrite Y in E3. assert (same_class (class_used t) (class_used t) = true) by (apply same_class_eq; reflexivity). congruence.
  - destruct (lookup s name) as [q|]; cbn [bind]; [|discriminate]. destruct (existsb _ _); [discriminate|]. destruct (negb _); [discriminate|]. destruct (negb _); discriminate.
Qed.
Print Assumptions C149_compatible.

Section Main.
  Context {F Obs V : Type} (load_file : string * string -> mapping -> F -> list Obs) (as_obs : V -> Obs) (extrapolate : Obs -> Obs -> V) (prolong : V -> V)
    (associate : string * string -> list Obs -> list Obs -> option (list (nat * nat * Q))) (complete : option string -> string -> option string).
  Let run := @tracking F Obs V load_file as_obs extrapolate prolong associate complete.

  (** A command which fails writes no file; one which succeeds writes one, the file named
      for the output, where the links can be read; the others are as before. *)
  Lemma tracking_written : forall s t files,
    (snd (run s t files) = None -> fst (run s t files) = s) /\
    (forall links, snd (run s t files) = Some links ->
       (t_min t <= Z.of_nat (length files))%Z /\
       exists n name p, t_out t = YStr n /\ complete (t_dir t) n = Some name /\ in_store (fst (run s t files)) name p /\
         f_links (z_run p) = links /\ z_kw p = t_kw t /\ z_virtual p = t_virtual t /\ z_class p = class_used t /\
         forall other q, other <> name -> in_store (fst (run s t files)) other q <-> in_store s other q).
  Proof.
    intros s t files. unfold run, tracking. set (outcome := if (Z.of_nat (length files) <? t_min t)%Z then None else _).
    destruct outcome as [[[name f] links]|] eqn:E; cbn [fst snd]; (split; [try discriminate; reflexivity|]); [|discriminate].
    intros l X. injection X as <-. unfold outcome in E. destruct (Z.ltb_spec (Z.of_nat (length files)) (t_min t)) as [LT|GE]; [discriminate|]. split; [exact GE|].
    destruct (load_compatible s t) as [prev|]; [|discriminate]. cbn [bind] in E. destruct (match prev with None => _ | Some _ => _ end) as [c|]; [|discriminate]. cbn [bind] in E. destruct (t_out t) as [|b|z|q|n|l0]; try discriminate. destruct (complete (t_dir t) n) as [nm|] eqn:CN; [|discriminate]. cbn [bind] in E. destruct (save c) as [f0|] eqn:SV; [|discriminate]. cbn [bind] in E. clear outcome. injection E as E1 E2 E3. subst nm f0 links.
    exists n, name. eexists. split; [reflexivity|]. split; [exact CN|]. split; [exists [], s; split; [reflexivity|intros q []]|]. cbn [z_run z_kw z_virtual z_class]. split; [|split; [reflexivity|]; split; [reflexivity|]; split; [reflexivity|]].
    - unfold save in SV. destruct (s_virt c), (s_pvirt c); try discriminate; injection SV as <-; reflexivity.
    - intros other q NE. rewrite <- !lookup_spec. unfold lookup. cbn [find fst]. destruct (String.eqb_spec name other); [congruence|]. reflexivity.
  Qed.
  (** Continuing a file: its links come first and are kept as they are, one step is added
      for each file of the list from the number of files the file was made with; fewer
      files are an error; and what is in the files before the last two of those numbers
      does not matter. *)
  Lemma tracking_kept : forall s t files name p, t_in t = YStr name -> in_store s name p ->
    (forall links, snd (run s t files) = Some links -> exists news, links = f_links (z_run p) ++ news /\ length (f_links (z_run p)) + length news + 1 = length files) /\
    (forall files', length files' = length files -> skipn (length (f_links (z_run p)) - 1) files' = skipn (length (f_links (z_run p)) - 1) files -> run s t files' = run s t files).
  Proof.
    intros s t files name p TI IS. destruct (C149_compatible s t name TI) as [LC1 LC2].
    assert (LC : load_compatible s t = None \/ load_compatible s t = Some (Some p)).
    { destruct (load_compatible s t) as [[q|]|] eqn:E; [|congruence|auto]. right. destruct (LC1 q) as [H _]. destruct (H eq_refl) as (IQ & _). apply lookup_spec in IQ. apply lookup_spec in IS. congruence. }
    split.
    - intros links. unfold run, tracking. destruct (_ <? _)%Z; [discriminate|]. destruct LC as [-> | ->]; [discriminate|]. cbn [bind]. destruct (resume _ _ _ _ _ _ _) as [c|] eqn:R; [|discriminate]. cbn [bind]. destruct (match t_out t with YStr n => _ | _ => _ end); [|discriminate]. cbn [bind]. destruct (save c); [|discriminate]. cbn [bind snd]. intros E. injection E as <-.
      destruct (resume_links _ _ _ _ _ _ _ _ R) as (news & N1 & N2 & _). rewrite map_length in N2. exists news. auto.
    - intros files' L E. unfold run, tracking. rewrite L. destruct (_ <? _)%Z; [reflexivity|]. destruct LC as [-> | ->]; [reflexivity|]. cbn [bind]. rewrite (resume_suffix as_obs extrapolate prolong _ _ (z_run p) (map (load_file (class_used t) (t_kw t)) files') (map (load_file (class_used t) (t_kw t)) files)); [reflexivity|rewrite !map_length; exact L|]. rewrite !skipn_map, E. reflexivity.
  Qed.
  (** A run on the first files, then the same command continued with more files, gives
      the links of the command on all the files. *)
  Lemma tracking_continued : forall s s0 t t2 t1 files1 files2 links1 n name,
    t_in t1 = YNull -> t_in t = YNull -> t_in t2 = YStr name -> t_out t1 = YStr n -> complete (t_dir t1) n = Some name ->
    class_used t1 = class_used t -> class_used t2 = class_used t -> t_kw t1 = t_kw t -> t_kw t2 = t_kw t -> t_virtual t1 = t_virtual t -> t_virtual t2 = t_virtual t ->
    t_min t2 = t_min t -> (exists m out, t_out t2 = YStr m /\ complete (t_dir t2) m = Some out) -> (exists m out, t_out t = YStr m /\ complete (t_dir t) m = Some out) ->
    snd (run s t1 files1) = Some links1 -> links1 <> [] -> ((0 < t_virtual t)%Z -> 3 <= length links1) -> ~ In [] links1 ->
    snd (run (fst (run s t1 files1)) t2 (files1 ++ files2)) = snd (run s0 t (files1 ++ files2)).
  Proof.
    intros s s0 t t2 t1 files1 files2 links1 n name I1 I0 I2 O1 CN C1 C2 K1 K2 V1 V2 M2 (m2 & o2 & O2 & P2) (m0 & o0 & O0 & P0) H1 NE L3 ES.
    destruct (tracking_written s t1 files1) as [_ W]. destruct (W links1 H1) as (_ & n' & name' & p & O1' & CN' & IS & _). rewrite O1 in O1'. injection O1' as <-. rewrite CN in CN'. injection CN' as <-.
    clear W IS. unfold run, tracking in H1. destruct (Z.of_nat (length files1) <? t_min t1)%Z eqn:LM; [discriminate|]. unfold load_compatible in H1. rewrite I1 in H1. cbn [bind] in H1.
    destruct (track _ _ _ _ _ _) as [st|] eqn:T; [|discriminate]. cbn [bind] in H1. rewrite O1, CN in H1. cbn [bind] in H1. destruct (save st) as [f|] eqn:SV; [|discriminate]. cbn [bind snd] in H1. injection H1 as <-.
    assert (ST : fst (run s t1 files1) = (name, {| z_class := class_used t1; z_kw := t_kw t1; z_virtual := t_virtual t1; z_run := f |}) :: s).
    { unfold run, tracking. rewrite LM. unfold load_compatible. rewrite I1. cbn [bind]. rewrite T. cbn [bind]. rewrite O1, CN. cbn [bind]. rewrite SV. reflexivity. }
    rewrite ST. set (q := {| z_class := class_used t1; z_kw := t_kw t1; z_virtual := t_virtual t1; z_run := f |}).
    assert (FL : f_links f = rev (s_links st)) by (unfold save in SV; destruct (s_virt st), (s_pvirt st); try discriminate; injection SV as <-; reflexivity).
    assert (LC : load_compatible ((name, q) :: s) t2 = Some (Some q)).
    { apply (proj1 (C149_compatible _ t2 name I2) q). split; [exists [], s; split; [reflexivity|intros x []]|]. subst q. cbn. rewrite FL. split; [exact ES|]. split; [congruence|]. unfold class_used in *. congruence. }
    unfold run, tracking. rewrite LC. rewrite M2. clear LM ST. destruct (Z.of_nat (length (files1 ++ files2)) <? t_min t)%Z; [reflexivity|]. cbn [bind]. unfold load_compatible at 1. rewrite I0. cbn [bind]. rewrite O2, P2, O0, P0. cbn [bind]. rewrite C2, K2, V2. subst q. cbn [z_run].
    rewrite map_app. rewrite C1, K1, V1 in T.
    destruct (C09_resume_equals_full_run as_obs extrapolate prolong (associate (class_used t)) (Z.to_nat (t_virtual t)) (map (load_file (class_used t) (t_kw t)) files1) (map (load_file (class_used t) (t_kw t)) files2) st T) as (f2 & G1 & G2).
    { destruct (s_links st); [exfalso; apply NE; reflexivity|cbn; lia]. }
    { intros P. rewrite <- rev_length. apply L3. lia. }
    { intros x X ->. apply ES. apply in_rev in X. exact X. }
    rewrite SV in G1. injection G1 as <-.
    destruct (resume _ _ _ _ _ f _) as [c2|], (track _ _ _ _ _ (_ ++ _)) as [c0|]; cbn in G2; try discriminate; [|reflexivity]. injection G2 as E1 E2 E3 E4 E5 E6 E7. cbn [bind].
    unfold save. rewrite E5, E6, E1. destruct (s_virt c0), (s_pvirt c0); reflexivity.
  Qed.
End Main.

Theorem C149_written : forall {F Obs V} load_file as_obs extrapolate prolong associate complete s t files,
  let r := @tracking F Obs V load_file as_obs extrapolate prolong associate complete s t files in
  (snd r = None -> fst r = s) /\
  (forall links, snd r = Some links ->
     (t_min t <= Z.of_nat (length files))%Z /\
     exists n name p, t_out t = YStr n /\ complete (t_dir t) n = Some name /\ in_store (fst r) name p /\
       f_links (z_run p) = links /\ z_kw p = t_kw t /\ z_virtual p = t_virtual t /\ z_class p = match t_class t with Some c => c | None => usual_class end /\
       forall other q, other <> name -> in_store (fst r) other q <-> in_store s other q).
Proof. intros. apply tracking_written. Qed.
Print Assumptions C149_written.
Theorem C149_kept : forall {F Obs V} load_file as_obs extrapolate prolong associate complete s t files name p,
  let run := @tracking F Obs V load_file as_obs extrapolate prolong associate complete s t in
  t_in t = YStr name -> in_store s name p ->
  (forall links, snd (run files) = Some links -> exists news, links = f_links (z_run p) ++ news /\ length (f_links (z_run p)) + length news + 1 = length files) /\
  (forall files', length files' = length files -> skipn (length (f_links (z_run p)) - 1) files' = skipn (length (f_links (z_run p)) - 1) files -> run files' = run files).
Proof. intros. eapply tracking_kept; eauto. Qed.
Print Assumptions C149_kept.
Theorem C149_continued : forall {F Obs V} load_file as_obs extrapolate prolong associate complete s s0 t t2 t1 files1 files2 links1 n name,
  let run := @tracking F Obs V load_file as_obs extrapolate prolong associate complete in
  t_in t1 = YNull -> t_in t = YNull -> t_in t2 = YStr name -> t_out t1 = YStr n -> complete (t_dir t1) n = Some name ->
  class_used t1 = class_used t -> class_used t2 = class_used t -> t_kw t1 = t_kw t -> t_kw t2 = t_kw t -> t_virtual t1 = t_virtual t -> t_virtual t2 = t_virtual t ->
  t_min t2 = t_min t -> (exists m out, t_out t2 = YStr m /\ complete (t_dir t2) m = Some out) -> (exists m out, t_out t = YStr m /\ complete (t_dir t) m = Some out) ->
  snd (run s t1 files1) = Some links1 -> links1 <> [] -> ((0 < t_virtual t)%Z -> 3 <= length links1) -> ~ In [] links1 ->
  snd (run (fst (run s t1 files1)) t2 (files1 ++ files2)) = snd (run s0 t (files1 ++ files2)).
Proof. intros. eapply tracking_continued; eauto. Qed.
Print Assumptions C149_continued.

(** ** What is not checked *)
Definition line_settings (kw : mapping) (input : option string) : settings :=
  {| t_pattern := YStr "*.nc"; t_dir := None; t_out := YStr "out.nc"; t_class := None; t_kw := kw; t_virtual := 0; t_in := of_arg input YNull;
     t_memory := false; t_only := true; t_raw := true; t_zarr := false; t_min := 2; t_blank := 0 |}.
(** Eddies on a line; an option keeps those above a limit. *)
Definition line_load (_ : string * string) (kw : mapping) (f : list Q) : list Q :=
  match get kw "limit" with Some (YFloat q) => filter (Qle_bool q) f | _ => f end.
Definition line_run (s : @store (Q * Q)) (t : settings) (files : list (list Q)) : @store (Q * Q) * option (list (list corr)) :=
  tracking line_load (fun v => fst v) (fun a b => (b + (b - a), b - a)%Q) (fun v => (fst v + snd v, snd v)%Q) (fun _ => solver_associate near) (fun _ n => Some n) s t files.
Definition some_files : list (list Q) := [[0; 10]; [10; 1]; [2; 10; 20]; [10; 20; 3]; [20; 4; 10; 1]; [5; 10; 20; 1]]%Q.
Definition ids (r : option (list (list corr))) := option_map (map (map (fun c => (c_in c, c_out c, c_id c)))) r.

(** With other options the file is taken, and the links are those of no options: the
    first steps were made without, and the next ones with the limit. *)
Theorem C149_options_refuted :
  let first := line_run [] (line_settings [] None) (firstn 4 some_files) in
  let limit := [("limit", YFloat 2)]%string in
  let continued := snd (line_run (fst first) (line_settings limit (Some "out.nc"%string)) some_files) in
  snd first <> None /\ continued <> None /\
  ids continued <> ids (snd (line_run [] (line_settings limit None) some_files)) /\
  ids continued <> ids (snd (line_run [] (line_settings [] None) some_files)).
Proof. vm_compute. repeat split; discriminate. Qed.
Print Assumptions C149_options_refuted.

(** When the first file has been removed from the disk since, the file is taken as well:
    the links from the fourth date to the fifth are never made, those from the fifth to
    the sixth stand at their place, and the eddy at 20 goes on the track of the one at 10. *)
Theorem C149_files_refuted :
  let first := line_run [] (line_settings [] None) (firstn 4 some_files) in
  let continued := snd (line_run (fst first) (line_settings [] (Some "out.nc"%string)) (tl some_files)) in
  ids (snd (line_run [] (line_settings [] None) some_files)) =
    Some [[(0, 1, 0); (1, 0, 1)]; [(0, 1, 1); (1, 0, 0)]; [(0, 2, 0); (1, 0, 1); (2, 1, 2)]; [(0, 2, 1); (1, 0, 2); (2, 1, 0)]; [(0, 2, 2); (1, 0, 0); (2, 1, 1); (3, 3, 3)]] /\
  ids continued = Some [[(0, 1, 0); (1, 0, 1)]; [(0, 1, 1); (1, 0, 0)]; [(0, 2, 0); (1, 0, 1); (2, 1, 2)]; [(0, 2, 1); (1, 0, 2); (2, 1, 0); (3, 3, 3)]].
Proof. vm_compute. split; reflexivity. Qed.
Print Assumptions C149_files_refuted.

(** Case of [C149_continued] and [C149_kept]: the same options and the same files. *)
Example C149_case :
  let first := line_run [] (line_settings [] None) (firstn 4 some_files) in
  exists links p, snd first = Some links /\ in_store (fst first) "out.nc" p /\ ~ In [] links /\ length links = 3 /\
  snd (line_run (fst first) (line_settings [] (Some "out.nc"%string)) some_files) = snd (line_run [] (line_settings [] None) some_files) /\
  snd (line_run (fst first) (line_settings [] (Some "out.nc"%string)) (firstn 3 some_files)) = None.
Proof.
  cbv zeta. let r := eval vm_compute in (snd (line_run [] (line_settings [] None) (firstn 4 some_files))) in match r with Some ?l => exists l end.
  eexists. split; [vm_compute; reflexivity|]. split; [apply lookup_spec; vm_compute; reflexivity|]. split; [cbn; intuition discriminate|]. split; [reflexivity|]. split; vm_compute; reflexivity.
Qed.
(** Case of [C149_settings]: a name on the command line wins, 3.9 virtual eddies are 3. *)
Example C149_settings_case :
  match configure (fun _ => None) (fun _ => true) (fun _ => "."%string) ["."]%string
    {| a_in := None; a_out := Some "b.nc"%string; a_only := false; a_zarr := false; a_unraw := true; a_memory := false; a_blank := 2 |}
    {| y_section := None; y_paths := Some [("FILES_PATTERN", YStr "*.nc"); ("SAVE_DIR", YStr "out"); ("CORRESPONDANCES_OUT", YStr "a.nc"); ("CORRESPONDANCES_IN", YStr "c.nc")]%string; y_top := [("VIRTUAL_LENGTH_MAX", YFloat (39 # 10))]%string |} with
  | (dirs, Some t) => dirs = ["out"; "."]%string /\ t_out t = YStr "b.nc" /\ t_in t = YStr "c.nc" /\ t_virtual t = 3%Z /\ t_min t = 10%Z /\ t_raw t = false
  | _ => False
  end.
Proof. vm_compute. auto 10. Qed.
