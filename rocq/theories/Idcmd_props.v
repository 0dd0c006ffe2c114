(** * C147: the command of identification *)
From Coq Require Import List Arith Bool ZArith QArith String Ascii Lia.
From Verif Require Import Base Idcmd_model.
Import ListNotations.
Local Close Scope Q_scope.
Local Open Scope nat_scope.

(** ** Specification *)
Section Spec.
  Context {field : Type} (convolve : Z -> Q -> Q -> field -> field) (minus : field -> field -> field).
  (** The part of the height above the first wavelength, then below the second one. *)
  Definition band (order : Z) (lat_max w_inf w_sup : Q) (f : field) : field :=
    let f1 := if Qeq_dec w_inf 0 then f else convolve order lat_max w_inf f in
    if Qeq_dec w_sup 0 then f1 else minus f1 (convolve order lat_max w_sup f1).
  (** The variable of the file at the indices asked. *)
  Definition in_file (s : @source field) (d : dict) (name : string) (f : field) : Prop :=
    exists dims ps, s_dims s name = Some dims /\ f = s_read s name ps /\ List.length ps = List.length dims /\
      forall i dim, nth_error dims i = Some dim ->
        (forall n, dict_get d dim = Some n -> nth_error ps i = Some (At n)) /\
        (dict_get d dim = None -> In dim (s_coordinates s) -> nth_error ps i = Some Whole) /\
        (dict_get d dim = None -> ~ In dim (s_coordinates s) -> nth_error ps i = Some (At 0)).
End Spec.

(** ** Lemmas *)
Section Lemmas.
  Context {field eddies : Type} (convolve : Z -> Q -> Q -> field -> field) (minus : field -> field -> field) (grad_u grad_v : field -> field) (detect : field -> field -> field -> eddies).
  Definition raw (g : @grid field) (name : string) : option field :=
    option_map (fun dims => s_read (g_source g) name (slices (s_coordinates (g_source g)) (g_indexs g) dims)) (s_dims (g_source g) name).
  (** The value of a name: what [get] gives. *)
  Definition value (g : @grid field) (name : string) : option field := match cached g name with Some f => Some f | None => raw g name end.
  Lemma get_value : forall g name, option_map fst (get g name) = value g name.
  Proof. intros g name. unfold get, value, raw. destruct (cached g name); [reflexivity|]. destruct (s_dims _ _); reflexivity. Qed.
  Lemma cached_set : forall (g : @grid field) name f other, cached (set_var g name f) other = if String.eqb name other then Some f else cached g other.
  Proof. intros g name f other. unfold cached, set_var. cbn [g_vars find fst]. destruct (String.eqb name other); reflexivity. Qed.
  Lemma value_set : forall (g : @grid field) name f other, value (set_var g name f) other = if String.eqb name other then Some f else value g other.
  Proof. intros g name f other. unfold value. rewrite cached_set. destruct (String.eqb name other); reflexivity. Qed.
  Lemma get_keeps : forall (g : @grid field) name f g', get g name = Some (f, g') -> value g name = Some f /\ (forall other, value g' other = value g other) /\ g_regular g' = g_regular g.
  Proof.
    intros g name f g' H. pose proof (get_value g name) as G. rewrite H in G. cbn in G. split; [congruence|]. unfold get in H. destruct (cached g name) eqn:C.
    - injection H as <- <-. auto.
    - destruct (s_dims (g_source g) name) eqn:D; [|discriminate]. cbn [bind] in H. injection H as <- <-. split; [|reflexivity]. intros other. rewrite value_set. destruct (String.eqb name other) eqn:E; [|reflexivity]. apply String.eqb_eq in E. subst other. symmetry. exact (eq_sym G).
  Qed.
  Lemma get_some : forall (g : @grid field) name f, value g name = Some f -> exists g', get g name = Some (f, g') /\ (forall other, value g' other = value g other) /\ g_regular g' = g_regular g.
  Proof.
    intros g name f V. pose proof (get_value g name) as G. destruct (get g name) as [[f' g']|] eqn:E; cbn in G; [|congruence]. exists g'. destruct (get_keeps _ _ _ _ E) as (A & B & C). split; [congruence|auto].
  Qed.
  Lemma get_none : forall (g : @grid field) name, value g name = None -> get g name = None.
  Proof. intros g name V. pose proof (get_value g name) as G. rewrite V in G. destruct (get g name); [discriminate|reflexivity]. Qed.
  Lemma identify_some : forall g h u v fh fu fv, value g h = Some fh -> value g u = Some fu -> value g v = Some fv -> eddy_identification detect g h u v = Some (detect fh fu fv).
  Proof.
    intros g h u v fh fu fv H U V. unfold eddy_identification. destruct (get_some g u fu U) as (g1 & E1 & K1 & _). rewrite E1. cbn [bind snd fst].
    destruct (get_some g1 v fv) as (g2 & E2 & K2 & _); [rewrite K1; exact V|]. rewrite E2. cbn [bind snd fst].
    destruct (get_some g2 h fh) as (g3 & E3 & _); [rewrite K2, K1; exact H|]. rewrite E3. reflexivity.
  Qed.
  Lemma identify_none : forall g h u v, value g u = None \/ value g v = None -> eddy_identification detect g h u v = None.
  Proof.
    intros g h u v H. unfold eddy_identification. destruct (get g u) as [[fu g1]|] eqn:E1; [|reflexivity]. cbn [bind snd fst]. destruct (get_keeps _ _ _ _ E1) as (A & B & _).
    destruct H as [H|H]; [congruence|]. rewrite get_none; [reflexivity|]. rewrite B. exact H.
  Qed.
  (** The two filters, for regular grids. *)
  Definition pass (g : @grid field) (h : string) (order : Z) (lat_max w_inf w_sup : Q) : option grid :=
    let! g := if negb (Qeq_bool w_inf 0) then bessel_low convolve g h w_inf order lat_max else Some g in
    if negb (Qeq_bool w_sup 0) then bessel_high convolve minus g h w_sup order lat_max else Some g.
  Lemma Qeq_bool_dec : forall w, Qeq_bool w 0 = if Qeq_dec w 0 then true else false.
  Proof. intros w. destruct (Qeq_dec w 0) as [E|E]; [apply Qeq_bool_iff; exact E|]. destruct (Qeq_bool w 0) eqn:X; [|reflexivity]. apply Qeq_bool_iff in X. contradiction. Qed.
  Lemma pass_ok : forall g h order lat_max w_inf w_sup fh, g_regular g = true -> value g h = Some fh ->
    exists g', pass g h order lat_max w_inf w_sup = Some g' /\ value g' h = Some (band convolve minus order lat_max w_inf w_sup fh) /\ forall other, other <> h -> value g' other = value g other.
  Proof.
    intros g h order lat_max w_inf w_sup fh RG H. unfold pass, band. rewrite !Qeq_bool_dec.
    assert (L : exists g1, (if negb (if Qeq_dec w_inf 0 then true else false) then bessel_low convolve g h w_inf order lat_max else Some g) = Some g1 /\ g_regular g1 = true /\
       value g1 h = Some (if Qeq_dec w_inf 0 then fh else convolve order lat_max w_inf fh) /\ forall other, other <> h -> value g1 other = value g other).
    { destruct (Qeq_dec w_inf 0); cbn [negb]; [exists g; auto|]. unfold bessel_low. rewrite RG. destruct (get_some g h fh H) as (g1 & E1 & K1 & R1). rewrite E1. cbn [bind fst snd]. eexists. split; [reflexivity|]. split; [cbn; congruence|]. split; [rewrite value_set, String.eqb_refl; reflexivity|]. intros other N. rewrite value_set, K1. destruct (String.eqb h other) eqn:X; [apply String.eqb_eq in X; congruence|reflexivity]. }
    destruct L as (g1 & E1 & R1 & V1 & K1). rewrite E1. cbn [bind]. set (f1 := if Qeq_dec w_inf 0 then fh else convolve order lat_max w_inf fh) in *. cbv zeta.
    destruct (Qeq_dec w_sup 0); cbn [negb]; [exists g1; auto|]. unfold bessel_high. rewrite R1. destruct (get_some g1 h f1 V1) as (g2 & E2 & K2 & R2). rewrite E2. cbn [bind fst snd]. eexists. split; [reflexivity|]. split; [rewrite value_set, String.eqb_refl; reflexivity|].
    intros other N. rewrite value_set, K2, K1 by exact N. destruct (String.eqb h other) eqn:X; [apply String.eqb_eq in X; congruence|reflexivity].
  Qed.
  Lemma raw_file : forall (s : @source field) d b name f, raw {| g_source := s; g_indexs := d; g_vars := []; g_regular := b |} name = Some f <-> in_file s d name f.
  Proof.
    intros s d b name f. unfold raw, in_file. cbn. destruct (s_dims s name) as [dims|]; cbn [option_map].
    - assert (N : forall i dim, nth_error dims i = Some dim -> nth_error (slices (s_coordinates s) d dims) i = Some (match dict_get d dim with Some n => At n | None => if existsb (String.eqb dim) (s_coordinates s) then Whole else At 0 end)).
      { intros i dim I. unfold slices. rewrite nth_error_map, I. reflexivity. }
      assert (EX : forall dim, existsb (String.eqb dim) (s_coordinates s) = true <-> In dim (s_coordinates s)).
      { intros dim. rewrite existsb_exists. split; [intros (x & X & Y); apply String.eqb_eq in Y; subst; exact X|intros X; exists dim; split; [exact X|apply String.eqb_refl]]. }
      split.
      + intros H. injection H as <-. exists dims, (slices (s_coordinates s) d dims). split; [reflexivity|]. split; [reflexivity|]. split; [apply map_length|]. intros i dim I. rewrite (N _ _ I). split; [intros n E; rewrite E; reflexivity|]. split; intros E C; rewrite E.
        * apply EX in C. rewrite C. reflexivity.
        * destruct (existsb _ _) eqn:X; [apply EX in X; contradiction|reflexivity].
      + intros (dims' & ps & E & -> & L & P). injection E as <-. do 2 f_equal. apply nth_error_ext. intros i. destruct (nth_error dims i) as [dim|] eqn:D; [|apply nth_error_None in D; transitivity (@None part); [|symmetry]; apply nth_error_None; [unfold slices; rewrite map_length; lia|lia]]. rewrite (N _ _ D). destruct (P i dim D) as (P1 & P2 & P3). destruct (dict_get d dim) as [n|]; [rewrite (P1 n eq_refl); reflexivity|]. destruct (existsb _ _) eqn:X; [rewrite P2; [reflexivity|reflexivity|apply EX; exact X]|rewrite P3; [reflexivity|reflexivity|]]. intros C. apply EX in C. congruence.
    - split; [discriminate|]. intros (dims & ps & E & _). discriminate.
  Qed.
End Lemmas.

(** ** The height and the speeds *)
Theorem C147_height : forall {field eddies} convolve minus grad_u grad_v (detect : field -> field -> field -> eddies) s h u v order lat_max w_inf w_sup d fh,
  in_file s d h fh ->
  (* speeds of the file *)
  (forall fu fv, u <> "None"%string \/ v <> "None"%string -> u <> h -> v <> h -> in_file s d u fu -> in_file s d v fv ->
     identification convolve minus grad_u grad_v detect s h u v false w_sup w_inf lat_max order (Some d) = Some (detect (band convolve minus order lat_max w_inf w_sup fh) fu fv)) /\
  (* speeds of the height, before the filters *)
  (u = "None"%string -> v = "None"%string -> h <> "u"%string -> h <> "v"%string ->
     identification convolve minus grad_u grad_v detect s h u v false w_sup w_inf lat_max order (Some d) = Some (detect (band convolve minus order lat_max w_inf w_sup fh) (grad_u fh) (grad_v fh))).
Proof.
  intros field eddies convolve minus grad_u grad_v detect s h u v order lat_max w_inf w_sup d fh H.
  assert (F : forall g h u v, (let! g0 := if negb (Qeq_bool w_inf 0) then bessel_low convolve g h w_inf order lat_max else Some g in let! g1 := if negb (Qeq_bool w_sup 0) then bessel_high convolve minus g0 h w_sup order lat_max else Some g0 in eddy_identification detect g1 h u v)
     = let! g1 := pass convolve minus g h order lat_max w_inf w_sup in eddy_identification detect g1 h u v).
  { intros g h' u' v'. unfold pass. destruct (if negb (Qeq_bool w_inf 0) then _ else _); reflexivity. }
  set (g0 := {| g_source := s; g_indexs := d; g_vars := []; g_regular := true |}).
  assert (V0 : forall name f, in_file s d name f -> value g0 name = Some f) by (intros name f X; apply (raw_file s d true) in X; exact X).
  split.
  - intros fu fv N NU NV U V. unfold identification. cbn [negb]. fold g0. replace (String.eqb u "None" && String.eqb v "None") with false by (symmetry; apply andb_false_iff; destruct N as [N|N]; [left|right]; apply String.eqb_neq; exact N).
    cbn [bind]. rewrite F. destruct (pass_ok convolve minus g0 h order lat_max w_inf w_sup fh eq_refl (V0 _ _ H)) as (g1 & E & VH & K). rewrite E. cbn [bind]. apply identify_some; [exact VH| |]; rewrite K by assumption; apply V0; assumption.
  - intros -> -> N1 N2. unfold identification. cbn [negb]. fold g0. rewrite !String.eqb_refl. cbn [andb]. unfold add_uv. destruct (get_some g0 h fh (V0 _ _ H)) as (g1 & E1 & K1 & R1). rewrite E1. cbn [g_regular g0 bind fst snd]. rewrite F.
    set (g2 := set_var (set_var g1 "v" (grad_v fh)) "u" (grad_u fh)).
    assert (HV : value g2 h = Some fh). { unfold g2. rewrite !value_set, K1. apply not_eq_sym, String.eqb_neq in N1, N2. rewrite N1, N2. apply V0. exact H. }
    destruct (pass_ok convolve minus g2 h order lat_max w_inf w_sup fh) as (g3 & E & VH & K); [unfold g2; cbn; rewrite R1; reflexivity|exact HV|]. rewrite E. cbn [bind]. apply identify_some; [exact VH| |]; rewrite K by (intros X; congruence); unfold g2; rewrite !value_set; reflexivity.
Qed.
Print Assumptions C147_height.

(** A height named as one of the speeds is lost when the speeds are asked of it. *)
Theorem C147_name_refuted : forall {field eddies} convolve minus grad_u grad_v (detect : field -> field -> field -> eddies) s order lat_max w_inf w_sup d fh,
  let b := band convolve minus order lat_max w_inf w_sup in
  (in_file s d "u" fh -> identification convolve minus grad_u grad_v detect s "u" "None" "None" false w_sup w_inf lat_max order (Some d) = Some (detect (b (grad_u fh)) (b (grad_u fh)) (grad_v fh))) /\
  (in_file s d "v" fh -> identification convolve minus grad_u grad_v detect s "v" "None" "None" false w_sup w_inf lat_max order (Some d) = Some (detect (b (grad_v fh)) (grad_u fh) (b (grad_v fh)))).
Proof.
  intros field eddies convolve minus grad_u grad_v detect s order lat_max w_inf w_sup d fh b.
  assert (F : forall g h u v, (let! g0 := if negb (Qeq_bool w_inf 0) then bessel_low convolve g h w_inf order lat_max else Some g in let! g1 := if negb (Qeq_bool w_sup 0) then bessel_high convolve minus g0 h w_sup order lat_max else Some g0 in eddy_identification detect g1 h u v)
     = let! g1 := pass convolve minus g h order lat_max w_inf w_sup in eddy_identification detect g1 h u v).
  { intros g h' u' v'. unfold pass. destruct (if negb (Qeq_bool w_inf 0) then _ else _); reflexivity. }
  set (g0 := {| g_source := s; g_indexs := d; g_vars := []; g_regular := true |}).
  assert (V0 : forall name f, in_file s d name f -> value g0 name = Some f) by (intros name f X; apply (raw_file s d true) in X; exact X).
  split; intros H; unfold identification; cbn [negb]; fold g0; rewrite !String.eqb_refl; cbn [andb]; unfold add_uv;
    (destruct (get_some g0 _ fh (V0 _ _ H)) as (g1 & E1 & K1 & R1)); rewrite E1; cbn [g_regular g0 bind fst snd]; rewrite F;
    set (g2 := set_var (set_var g1 "v" (grad_v fh)) "u" (grad_u fh)).
  - destruct (pass_ok convolve minus g2 "u" order lat_max w_inf w_sup (grad_u fh)) as (g3 & E & VH & K); [unfold g2; cbn; rewrite R1; reflexivity|unfold g2; rewrite !value_set; reflexivity|]. rewrite E. cbn [bind]. apply identify_some; [exact VH|exact VH|]. rewrite K by discriminate. unfold g2. rewrite !value_set. reflexivity.
  - destruct (pass_ok convolve minus g2 "v" order lat_max w_inf w_sup (grad_v fh)) as (g3 & E & VH & K); [unfold g2; cbn; rewrite R1; reflexivity|unfold g2; rewrite !value_set; reflexivity|]. rewrite E. cbn [bind]. apply identify_some; [exact VH| |exact VH]. rewrite K by discriminate. unfold g2. rewrite !value_set. reflexivity.
Qed.
Print Assumptions C147_name_refuted.

(** One speed only left to the height: a variable named "None" is looked for. *)
Theorem C147_one_speed : forall {field eddies} convolve minus grad_u grad_v (detect : field -> field -> field -> eddies) s h other w_sup w_inf lat_max order indexs unregular,
  other <> "None"%string -> h <> "None"%string -> s_dims s "None" = None ->
  identification convolve minus grad_u grad_v detect s h "None" other unregular w_sup w_inf lat_max order indexs = None /\
  identification convolve minus grad_u grad_v detect s h other "None" unregular w_sup w_inf lat_max order indexs = None.
Proof.
  intros field eddies convolve minus grad_u grad_v detect s h other w_sup w_inf lat_max order indexs unregular N HN D. unfold identification. apply String.eqb_neq in N. rewrite N. rewrite andb_false_r. cbn [andb bind]. change (String.eqb "None" "None") with true. cbn [andb bind].
  set (g0 := {| g_source := s; g_indexs := _; g_vars := []; g_regular := negb unregular |}).
  assert (V0 : value g0 "None" = None) by (unfold value, raw, g0; cbn; rewrite D; reflexivity).
  assert (B : forall g g1, value g "None" = None -> (bessel_low convolve g h w_inf order lat_max = Some g1 \/ bessel_high convolve minus g h w_sup order lat_max = Some g1) -> value g1 "None" = None).
  { intros g g1 X Y. unfold bessel_low, bessel_high in Y. destruct (g_regular g); [|destruct Y; discriminate]. destruct (get g h) as [[f g']|] eqn:E; [|destruct Y; discriminate]. cbn [bind fst snd] in Y. destruct (get_keeps _ _ _ _ E) as (_ & K & _). destruct Y as [Y|Y]; injection Y as <-; rewrite value_set, K; apply String.eqb_neq in HN; rewrite HN; exact X. }
  assert (W : forall u v, u = "None"%string \/ v = "None"%string -> (let! g0 := if negb (Qeq_bool w_inf 0) then bessel_low convolve g0 h w_inf order lat_max else Some g0 in let! g1 := if negb (Qeq_bool w_sup 0) then bessel_high convolve minus g0 h w_sup order lat_max else Some g0 in eddy_identification detect g1 h u v) = None).
  { intros u v UV. destruct (if negb (Qeq_bool w_inf 0) then _ else _) as [g1|] eqn:E1; [|reflexivity]. cbn [bind].
    assert (V1 : value g1 "None" = None). { destruct (negb (Qeq_bool w_inf 0)); [eapply B; [exact V0|left; exact E1]|injection E1 as <-; exact V0]. }
    destruct (if negb (Qeq_bool w_sup 0) then _ else _) as [g2|] eqn:E2; [|reflexivity]. cbn [bind].
    assert (V2 : value g2 "None" = None). { destruct (negb (Qeq_bool w_sup 0)); [eapply B; [exact V1|right; exact E2]|injection E2 as <-; exact V1]. }
    apply identify_none. destruct UV as [->| ->]; auto. }
  split; apply W; auto.
Qed.
Print Assumptions C147_one_speed.

(** With --unregular the command fails, unless each wavelength is 0 and the speeds
    are in the file. *)
Theorem C147_unregular : forall {field eddies} convolve minus grad_u grad_v (detect : field -> field -> field -> eddies) s h u v order lat_max w_inf w_sup d,
  (~ w_inf == 0 \/ ~ w_sup == 0 \/ (u = "None"%string /\ v = "None"%string) -> identification convolve minus grad_u grad_v detect s h u v true w_sup w_inf lat_max order (Some d) = None)%Q /\
  (forall fh fu fv, w_inf == 0 -> w_sup == 0 -> u <> "None"%string \/ v <> "None"%string -> in_file s d h fh -> in_file s d u fu -> in_file s d v fv ->
     identification convolve minus grad_u grad_v detect s h u v true w_sup w_inf lat_max order (Some d) = Some (detect fh fu fv))%Q.
Proof.
  intros field eddies convolve minus grad_u grad_v detect s h u v order lat_max w_inf w_sup d. unfold identification. rewrite !Qeq_bool_dec. cbn [negb]. split.
  - intros H. destruct (String.eqb u "None" && String.eqb v "None") eqn:UV; [reflexivity|]. cbn [bind].
    destruct (Qeq_dec w_inf 0) as [E1|E1]; cbn [negb]; [|reflexivity]. cbn [bind]. destruct (Qeq_dec w_sup 0) as [E2|E2]; cbn [negb]; [|reflexivity].
    destruct H as [H|[H|[-> ->]]]; [contradiction|contradiction|]. rewrite !String.eqb_refl in UV. discriminate.
  - intros fh fu fv E1 E2 N H U V. replace (String.eqb u "None" && String.eqb v "None") with false by (symmetry; apply andb_false_iff; destruct N as [N|N]; [left|right]; apply String.eqb_neq; exact N). cbn [bind].
    destruct (Qeq_dec w_inf 0); [|contradiction]. destruct (Qeq_dec w_sup 0); [|contradiction]. cbn [negb bind]. apply identify_some; apply (raw_file s d false); assumption.
Qed.
Print Assumptions C147_unregular.

(** ** The options *)
Theorem C147_options : forall {field eddies} convolve minus grad_u grad_v (detect : field -> field -> field -> eddies) parse_int s h u v unregular cut lat_max order pixels indexs,
  (List.length pixels <> 2 \/ cut = [] \/ 2 < List.length cut -> eddy_id convolve minus grad_u grad_v detect parse_int s h u v unregular cut lat_max order pixels indexs = None) /\
  (forall w, eddy_id convolve minus grad_u grad_v detect parse_int s h u v unregular [w] lat_max order pixels indexs = eddy_id convolve minus grad_u grad_v detect parse_int s h u v unregular [0%Q; w] lat_max order pixels indexs) /\
  (forall w1 w2 p1 p2, eddy_id convolve minus grad_u grad_v detect parse_int s h u v unregular [w1; w2] lat_max order [p1; p2] None = identification convolve minus grad_u grad_v detect s h u v unregular w2 w1 lat_max order (Some [])) /\
  (forall w1 w2 p1 p2 values d, dict_action parse_int values = Some (Some d) -> eddy_id convolve minus grad_u grad_v detect parse_int s h u v unregular [w1; w2] lat_max order [p1; p2] (Some values) = identification convolve minus grad_u grad_v detect s h u v unregular w2 w1 lat_max order (Some d)).
Proof.
  intros field eddies convolve minus grad_u grad_v detect parse_int s h u v unregular cut lat_max order pixels indexs. repeat split.
  - intros H. unfold eddy_id. destruct (match indexs with Some values => _ | None => _ end) as [d|]; [|reflexivity]. cbn [bind]. destruct (List.length pixels =? 2) eqn:P; [|reflexivity]. cbn [negb]. apply Nat.eqb_eq in P.
    destruct cut as [|w1 [|w2 [|w3 cut]]]; [reflexivity| | |reflexivity]; exfalso; cbn in H; destruct H as [H|[H|H]]; (discriminate || lia).
  - intros w1 w2 p1 p2 values d E. unfold eddy_id. rewrite E. reflexivity.
Qed.
Print Assumptions C147_options.

(** A name in front of a sign and a number behind it; the last number of a name is
    kept; a word with no sign or with two signs is refused. *)
Fixpoint signs (s : string) : nat := match s with EmptyString => 0 | String c r => (if Ascii.eqb c "=" then 1 else 0) + signs r end.
Lemma split_length : forall s, List.length (split_eq s) = S (signs s).
Proof. induction s as [|c s IH]; [reflexivity|]. cbn. destruct (Ascii.eqb c "="); cbn; [rewrite IH; reflexivity|]. destruct (split_eq s); [discriminate|exact IH]. Qed.
Lemma split_none : forall s, signs s = 0 -> split_eq s = [s].
Proof. induction s as [|c s IH]; intros H; [reflexivity|]. cbn in *. destruct (Ascii.eqb c "="); [discriminate|]. rewrite IH by exact H. reflexivity. Qed.
Lemma split_one : forall k v, signs k = 0 -> signs v = 0 -> split_eq (k ++ String "=" v) = [k; v].
Proof. induction k as [|c k IH]; intros v H V; [cbn; rewrite split_none by exact V; reflexivity|]. cbn in *. destruct (Ascii.eqb c "="); [discriminate|]. rewrite IH by assumption. reflexivity. Qed.
Lemma read_spec : forall parse_int kvs d, (forall k v n, In ((k, v), n) kvs -> signs k = 0 /\ signs v = 0 /\ parse_int v = Some n) ->
  read_indexs parse_int (map (fun t => (fst (fst t) ++ String "=" (snd (fst t)))%string) kvs) d = Some (rev (map (fun t => (fst (fst t), snd t)) kvs) ++ d).
Proof.
  intros parse_int. induction kvs as [|[[k v] n] kvs IH]; intros d H; [reflexivity|]. cbn [map fst snd read_indexs]. destruct (H k v n (or_introl eq_refl)) as (A & B & C). rewrite split_one by assumption. rewrite C. cbn [bind].
  rewrite IH by (intros; apply H; right; assumption). cbn [rev]. rewrite <- app_assoc. reflexivity.
Qed.
Lemma get_app : forall a b k, dict_get (a ++ b) k = match dict_get a k with Some n => Some n | None => dict_get b k end.
Proof. induction a as [|[x n] a IH]; intros b k; [reflexivity|]. unfold dict_get in *. cbn [app find fst]. destruct (String.eqb x k); [reflexivity|apply IH]. Qed.
Lemma get_absent : forall (d : dict) k, ~ In k (map fst d) -> dict_get d k = None.
Proof. induction d as [|[x n] d IH]; intros k H; [reflexivity|]. unfold dict_get in *. cbn [find fst]. destruct (String.eqb x k) eqn:E; [exfalso; apply H; left; apply String.eqb_eq; exact E|]. apply IH. intros X. apply H. right. exact X. Qed.
Theorem C147_indexs : forall parse_int,
  (forall kvs, kvs <> [] -> (forall k v n, In ((k, v), n) kvs -> signs k = 0 /\ signs v = 0 /\ parse_int v = Some n) ->
     exists d, dict_action parse_int (map (fun t => (fst (fst t) ++ String "=" (snd (fst t)))%string) kvs) = Some (Some d) /\
       (forall before k v n after, kvs = before ++ ((k, v), n) :: after -> (forall v' n', ~ In ((k, v'), n') after) -> dict_get d k = Some n) /\
       (forall k, (forall v n, ~ In ((k, v), n) kvs) -> dict_get d k = None)) /\
  (forall values w, In w values -> signs w <> 1 -> dict_action parse_int values = None) /\ dict_action parse_int [] = Some None.
Proof.
  intros parse_int. split; [|split; [|reflexivity]].
  - intros kvs NE H. exists (rev (map (fun t => (fst (fst t), snd t)) kvs)). split.
    { unfold dict_action. destruct (map _ kvs) eqn:M; [destruct kvs; [congruence|discriminate]|]. rewrite <- M, read_spec by exact H. rewrite app_nil_r. reflexivity. }
    assert (AB : forall l k, (forall v n, ~ In ((k, v), n) l) -> dict_get (rev (map (fun t : string * string * Z => (fst (fst t), snd t)) l)) k = None).
    { intros l k X. apply get_absent. rewrite map_rev, <- in_rev, map_map, in_map_iff. intros ([[k' v'] n'] & E & I). cbn in E. subst k'. exact (X _ _ I). }
    split; [|intros k X; apply AB; exact X]. intros before k v n after E X. subst kvs. rewrite map_app, rev_app_distr. cbn [map rev fst snd]. rewrite <- app_assoc, get_app, AB by exact X. unfold dict_get. cbn [app find fst]. rewrite String.eqb_refl. reflexivity.
  - intros values w I N. unfold dict_action. destruct values as [|x values]; [destruct I|].
    assert (R0 : forall l d, In w l -> read_indexs parse_int l d = None).
    { induction l as [|y l IH]; intros d J; [destruct J|]. cbn [read_indexs]. pose proof (split_length y) as SL. destruct (split_eq y) as [|k [|v [|z r]]] eqn:SE; try reflexivity. destruct J as [->|J]; [exfalso; apply N; cbn in SL; lia|]. destruct (parse_int v); [cbn [bind]; apply IH; exact J|reflexivity]. }
    rewrite R0 by exact I. reflexivity.
Qed.
Print Assumptions C147_indexs.

(** ** Case: a height of two steps, filtered at 700 and 200, with speeds of the height.
    A field is a number; the filter takes the wavelength off. *)
Definition case_source : @source Q :=
  {| s_coordinates := ["x"; "y"]%string; s_dims := fun n => if String.eqb n "ssh" then Some ["time"; "y"; "x"]%string else None;
     s_read := fun _ ps => match ps with [At 1; Whole; Whole] => 1000 | [At 0; Whole; Whole] => 2000 | _ => 0 end |}%Q.
Definition case_parse (s : string) : option Z := if String.eqb s "1" then Some 1%Z else None.
Example C147_case : in_file case_source [("time"%string, 1%Z)] "ssh" 1000%Q /\
  option_map (map Qred) (eddy_id (fun _ _ w f => f - w)%Q Qminus (fun f => f + 1)%Q (fun f => f + 2)%Q (fun h u v => [h; u; v]) case_parse case_source "ssh" "None" "None" false [200; 700]%Q 85 3 [5; 2000]%Z (Some ["time=1"%string])) = Some [700; 1001; 1002]%Q /\
  (* a dimension which the variable has not is not looked at: the first step is read *)
  option_map (map Qred) (eddy_id (fun _ _ w f => f - w)%Q Qminus (fun f => f + 1)%Q (fun f => f + 2)%Q (fun h u v => [h; u; v]) case_parse case_source "ssh" "None" "None" false [200; 700]%Q 85 3 [5; 2000]%Z (Some ["times=1"%string])) = Some [700; 2001; 2002]%Q /\
  eddy_id (fun _ _ w f => f - w)%Q Qminus (fun f => f + 1)%Q (fun f => f + 2)%Q (fun h u v => [h; u; v]) case_parse case_source "ssh" "None" "None" true [500]%Q 85 3 [5; 2000]%Z None = None.
Proof.
  split; [|split; [|split]; reflexivity]. apply (raw_file case_source [("time"%string, 1%Z)] true). reflexivity.
Qed.
