From Coq Require Import List Arith ZArith QArith Qround Qabs Bool Lia Lqa.
From Verif Require Import Base Qaux Grid_model TrackObs_more Adv_model Adv_spec.
Import ListNotations.
Local Close Scope Q_scope.
Local Open Scope nat_scope.

Section Run.
Context {P W : Type}.
Variables (f : frame) (read : Z -> Z -> option (bool * option P)) (vel : W -> Q -> Q -> P -> Q * Q) (s : Z) (vals : Z -> Z -> outcome P).
Hypothesis NX : (0 < f_nx f)%Z.
Hypothesis S0 : (s < 0)%Z.
Definition conv (o : outcome P) : option (bool * option P) :=
  match o with At q => Some (false, Some q) | Lost => Some (true, None) | Broken => None end.
Hypothesis READ : forall i j, f_circ f = true \/ (0 <= i <= f_nx f)%Z -> read (col f i) j = conv (vals i j).
Hypothesis OUT : forall i j, f_circ f = false -> (i < 0 \/ f_nx f < i)%Z -> vals i j = Lost.
Hypothesis WRAP : forall i j, vals (col f i) j = vals i j.

Definition entry (st : cache P) : Prop :=
  match vals (c_i st) (c_j st) with
  | At q => c_masked st = false /\ c_val st = Some q
  | Lost => c_masked st = true
  | Broken => False
  end.
Definition good (st : cache P) : Prop := (c_i st = s /\ c_j st = s) \/ entry st.
Lemma wrap_col : forall i, (if (wrap_size f =? 0)%Z then i else i mod wrap_size f)%Z = col f i.
Proof.
  intros i. unfold wrap_size, col. destruct (f_circ f); [|reflexivity]. destruct (Z.eqb_spec (f_nx f) 0); [lia|reflexivity].
Qed.
Lemma lookup_spec : forall st w p, good st -> sample f s vals vel w p <> Broken ->
  exists ch st', lookup f read st p = Some (ch, st', (place_x f p, place_y f p)) /\ good st' /\ (ch = false -> st' = st)
    /\ match vals (cell_x f p) (cell_y f p) with At q => c_masked st' = false /\ c_val st' = Some q | Lost => c_masked st' = true | Broken => False end.
Proof.
  intros st w p G B. unfold sample in B. unfold lookup, get_grid_indices. rewrite wrap_col.
  change (Qfloor ((fst p - f_x0 f) / f_xs f)) with (cell_x f p). change (Qfloor ((snd p - f_y0 f) / f_ys f)) with (cell_y f p).
  fold (place_x f p). fold (place_y f p). set (i := cell_x f p) in *. set (j := cell_y f p) in *.
  assert (NS : ~ (col f i = s /\ j = s)).
  { intros [Ei Ej]. unfold col in Ei. destruct (f_circ f) eqn:C.
    - pose proof (Z.mod_pos_bound i (f_nx f) NX). lia.
    - rewrite Ei, Ej, Z.eqb_refl in B. cbn in B. congruence. }
  assert (V : vals i j <> Broken). { intros E. rewrite E in B. destruct (_ && _); [congruence|]. cbn in B. congruence. }
  assert (EN : forall m v, entry {| c_i := col f i; c_j := j; c_masked := m; c_val := v |} <->
    match vals i j with At q => m = false /\ v = Some q | Lost => m = true | Broken => False end).
  { intros m v. unfold entry. cbn. rewrite WRAP. tauto. }
  destruct (Z.eqb_spec (col f i) (c_i st)) as [Ei|Ei], (Z.eqb_spec j (c_j st)) as [Ej|Ej]; cbn [negb orb].
  { exists false, st. split; [reflexivity|]. split; [exact G|]. split; [reflexivity|]. destruct G as [[G1 G2]|G]; [exfalso; apply NS; split; congruence|].
    unfold entry in G. rewrite <- Ei, <- Ej, WRAP in G. exact G. }
  all: destruct (negb (f_circ f) && ((col f i <? 0) || (f_nx f <? col f i))%Z) eqn:O.
  all: try (apply andb_true_iff in O; destruct O as [O1 O2]; apply negb_true_iff in O1; assert (VL : vals i j = Lost) by (apply OUT; [exact O1|]; unfold col in O2; rewrite O1 in O2; apply orb_true_iff in O2; destruct O2 as [O2|O2]; apply Z.ltb_lt in O2; lia);
    exists true; eexists; split; [reflexivity|]; split; [right; apply EN; rewrite VL; reflexivity|]; split; [discriminate|]; rewrite VL; reflexivity).
  all: rewrite READ by (apply andb_false_iff in O; destruct O as [O|O]; [left; apply negb_false_iff in O; exact O|destruct (f_circ f) eqn:CC; [left; reflexivity|right; unfold col in O; rewrite CC in O; apply orb_false_iff in O; destruct O as [O1 O2]; apply Z.ltb_ge in O1, O2; lia]]);
    destruct (vals i j) as [q| |] eqn:EV; [| |congruence]; cbn [conv bind fst snd]; exists true; eexists;
    (split; [reflexivity|]; split; [right; apply EN; auto|]; split; [discriminate|]; auto).
Qed.
Lemma slope_spec : forall always w st p, good st -> (always = false -> c_masked st = false) -> sample f s vals vel w p <> Broken ->
  exists st' o, slope f read vel always w st p = Some (st', o) /\ good st'
    /\ sample f s vals vel w p = match o with Some d => At d | None => Lost end /\ (o <> None -> c_masked st' = false).
Proof.
  intros always w st p G A B. destruct (lookup_spec st w p G B) as (ch & st' & L & G' & SAME & V). unfold slope. rewrite L. cbn [bind fst snd].
  assert (SM : sample f s vals vel w p = obind (vals (cell_x f p) (cell_y f p)) (fun q => At (vel w (place_x f p) (place_y f p) q))).
  { unfold sample in *. destruct (_ && _); [congruence|reflexivity]. }
  rewrite SM. destruct (vals (cell_x f p) (cell_y f p)) as [q| |]; [| |contradiction].
  - destruct V as [V1 V2]. rewrite V1, andb_false_r, V2. cbn [bind obind]. exists st'. eexists. split; [reflexivity|]. split; [exact G'|]. split; [reflexivity|]. auto.
  - assert (always || ch = true).
    { destruct always; [reflexivity|]. cbn. destruct ch; [reflexivity|]. specialize (SAME eq_refl). specialize (A eq_refl). congruence. }
    rewrite H, V. cbn [andb obind]. exists st', None. split; [reflexivity|]. split; [exact G'|]. split; [reflexivity|]. congruence.
Qed.
Definition step_ok (step : W -> cache P -> Q * Q -> option (cache P * option (Q * Q))) (pure : W -> Q * Q -> outcome (Q * Q)) : Prop :=
  forall w st p, good st -> pure w p <> Broken ->
  exists st' o, step w st p = Some (st', o) /\ good st' /\ pure w p = match o with Some d => At d | None => Lost end.
Lemma euler_ok : step_ok (euler_step f read vel) (euler f s vals vel).
Proof.
  intros w st p G B. unfold euler in *. destruct (slope_spec true w st p G) as (st' & o & E & G' & SM & _); [discriminate|intros F; rewrite F in B; apply B; reflexivity|].
  unfold euler_step. rewrite E. cbn [bind]. rewrite SM. destruct o as [d|]; cbn [obind]; eexists; eexists; (split; [reflexivity|]; split; [exact G'|reflexivity]).
Qed.
Lemma rk4_ok : forall half, step_ok (rk4_step f read vel half) (rk4 f s vals vel half).
Proof.
  intros half w st [x y] G B. unfold rk4 in *. unfold rk4_step. cbn [fst snd] in *.
  destruct (slope_spec true w st (x, y) G) as (st1 & o1 & E1 & G1 & S1 & M1); [discriminate|intros F; rewrite F in B; apply B; reflexivity|].
  rewrite E1. cbn [bind]. rewrite S1 in B |- *. destruct o1 as [[u1 v1]|]; cbn [obind fst snd] in B |- *; [|eexists; eexists; (split; [reflexivity|]; split; [exact G1|reflexivity])].
  destruct (slope_spec false (half w) st1 (x + u1 * (1 # 2), y + v1 * (1 # 2))%Q G1) as (st2 & o2 & E2 & G2 & S2 & M2); [intros _; apply M1; discriminate|intros F; rewrite F in B; apply B; reflexivity|].
  rewrite E2. cbn [bind]. rewrite S2 in B |- *. destruct o2 as [[u2 v2]|]; cbn [obind fst snd] in B |- *; [|eexists; eexists; (split; [reflexivity|]; split; [exact G2|reflexivity])].
  destruct (slope_spec false (half w) st2 (x + u2 * (1 # 2), y + v2 * (1 # 2))%Q G2) as (st3 & o3 & E3 & G3 & S3 & M3); [intros _; apply M2; discriminate|intros F; rewrite F in B; apply B; reflexivity|].
  rewrite E3. cbn [bind]. rewrite S3 in B |- *. destruct o3 as [[u3 v3]|]; cbn [obind fst snd] in B |- *; [|eexists; eexists; (split; [reflexivity|]; split; [exact G3|reflexivity])].
  destruct (slope_spec false (half (half w)) st3 (x + u3, y + v3)%Q G3) as (st4 & o4 & E4 & G4 & S4 & M4); [intros _; apply M3; discriminate|intros F; rewrite F in B; apply B; reflexivity|].
  rewrite E4. cbn [bind]. rewrite S4 in B |- *. destruct o4 as [[u4 v4]|]; cbn [obind fst snd] in B |- *; eexists; eexists; (split; [reflexivity|]; split; [exact G4|reflexivity]).
Qed.
Section Steps.
Variables (step : W -> cache P -> Q * Q -> option (cache P * option (Q * Q))) (pure : W -> Q * Q -> outcome (Q * Q)).
Hypothesis OK : step_ok step pure.
Lemma run_steps_spec : forall ws st p, good st -> journey pure ws p <> Broken ->
  exists st' o, run_steps step ws st p = Some (st', o) /\ good st' /\ journey pure ws p = match o with Some d => At d | None => Lost end.
Proof.
  intros ws. induction ws as [|w ws IH]; intros st p G B; cbn [run_steps journey] in *.
  - exists st, (Some p). auto.
  - destruct (OK w st p G) as (st' & o & E & G' & S'); [intros F; rewrite F in B; apply B; reflexivity|]. rewrite E. cbn [bind]. rewrite S' in B |- *. destruct o as [p'|]; cbn [obind] in *.
    + apply IH; auto.
    + exists st', None. auto.
Qed.
Lemma run_particles_spec : forall ws ps st r, good st -> Forall2 (fun a b => fate pure ws a = Some b) ps r -> run_particles step ws st ps = Some r.
Proof.
  intros ws ps st r G F. revert st G. induction F as [|[pos m] b ps r E F IH]; intros st G; [reflexivity|]. cbn [run_particles].
  destruct m.
  - rewrite (IH st G). cbn [bind]. destruct pos; cbn in E; congruence.
  - cbn [fate] in E. destruct pos as [p|]; [|discriminate]. cbn [bind].
    destruct (run_steps_spec ws st p G) as (st' & o & E' & G' & J). { intros X. rewrite X in E. discriminate. }
    rewrite E'. cbn [bind fst snd]. rewrite (IH st' G'). cbn [bind]. rewrite J in E. destruct o; congruence.
Qed.
End Steps.
End Run.

(** ** The fields *)
Lemma pyget_at : forall {A} (l : list A) (z : Z) d, (- Z.of_nat (length l) <= z < Z.of_nat (length l))%Z ->
  pyget l z = Some (nth (Z.to_nat (if (z <? 0)%Z then z + Z.of_nat (length l) else z)%Z) l d).
Proof.
  intros A l z d H. unfold pyget, pyidx. destruct (Z.leb_spec 0 z), (Z.ltb_spec z 0); try lia.
  - destruct (Z.ltb_spec z (Z.of_nat (length l))); [|lia]. cbn [bind]. apply nth_error_nth'. lia.
  - destruct (Z.leb_spec (- Z.of_nat (length l)) z); [|lia]. cbn [bind]. apply nth_error_nth'. lia.
Qed.
Lemma pyget_out : forall {A} (l : list A) (z : Z), (z < - Z.of_nat (length l))%Z -> pyget l z = None.
Proof.
  intros A l z H. unfold pyget, pyidx. destruct (Z.leb_spec 0 z); [lia|]. destruct (Z.leb_spec (- Z.of_nat (length l)) z); [lia|reflexivity].
Qed.
Section Fields.
Variable f : frame.
Lemma matrix_row : forall {A} (g : list (list A)) i, matrix g (f_nx f) (f_ny f) -> (0 <= i < f_nx f)%Z ->
  Z.of_nat (length (nth (Z.to_nat i) g [])) = f_ny f.
Proof.
  intros A g i [L R] I. rewrite Forall_forall in R. apply R. apply nth_In. lia.
Qed.
Lemma get2_node : forall {A} (g : list (list A)) i j d, matrix g (f_nx f) (f_ny f) -> (0 <= i < f_nx f)%Z -> (- f_ny f <= j < f_ny f)%Z ->
  get2 g i j = Some (node d g i (row f j)).
Proof.
  intros A g i j d M I J. unfold get2. destruct M as [L R].
  rewrite (pyget_at g i []) by lia. destruct (Z.ltb_spec i 0); [lia|]. cbn [bind].
  pose proof (matrix_row g i (conj L R) I) as E. rewrite (pyget_at _ j d) by lia. unfold node, row. rewrite E. reflexivity.
Qed.
Lemma get2_south : forall {A} (g : list (list A)) i j, matrix g (f_nx f) (f_ny f) -> (0 <= i < f_nx f)%Z -> (j < - f_ny f)%Z -> get2 g i j = None.
Proof.
  intros A g i j M I J. unfold get2. destruct M as [L R]. rewrite (pyget_at g i []) by lia. destruct (Z.ltb_spec i 0); [lia|]. cbn [bind].
  apply pyget_out. pose proof (matrix_row g i (conj L R) I). lia.
Qed.
Lemma col_range : forall i, (0 < f_nx f)%Z -> f_circ f = true \/ (0 <= i < f_nx f)%Z -> (0 <= col f i < f_nx f)%Z.
Proof. intros i N H. unfold col. destruct (f_circ f); [apply Z.mod_pos_bound; exact N|destruct H; [discriminate|lia]]. Qed.
Lemma corners_four : forall {A} (g : list (list A)) i j d, matrix g (f_nx f) (f_ny f) -> (0 < f_nx f)%Z ->
  f_circ f = true \/ (0 <= i /\ i + 1 < f_nx f)%Z -> (- f_ny f <= j /\ j + 1 < f_ny f)%Z ->
  corners g (col f i) j (col f (i + 1)) (j + 1) = Some (four f d g i j).
Proof.
  intros A g i j d M N I J. assert (0 <= col f i < f_nx f)%Z by (apply col_range; [exact N|destruct I; [left; auto|right; lia]]).
  assert (0 <= col f (i + 1) < f_nx f)%Z by (apply col_range; [exact N|destruct I; [left; auto|right; lia]]).
  unfold corners. rewrite !(get2_node g _ _ d) by (auto; lia). reflexivity.
Qed.
Lemma corners_south : forall {A} (g : list (list A)) i j i1 j1, matrix g (f_nx f) (f_ny f) -> (0 < f_nx f)%Z ->
  f_circ f = true \/ (0 <= i < f_nx f)%Z -> (j < - f_ny f)%Z -> corners g (col f i) j i1 j1 = None.
Proof. intros A g i j i1 j1 M N I J. unfold corners. rewrite get2_south; auto. apply col_range; auto. Qed.
Lemma shape_matrix : forall {A} (g : list (list A)), matrix g (f_nx f) (f_ny f) -> (0 < f_nx f)%Z -> shape2 g = (f_nx f, f_ny f).
Proof.
  intros A [|r g] [L R] N; cbn in L; [lia|]. unfold shape2. inversion R; subst. f_equal; [cbn; lia|congruence].
Qed.
Lemma read1_spec : forall g i j, fits f g -> f_circ f = true \/ (0 <= i <= f_nx f)%Z -> read1 f g (col f i) j = conv (cell_value f g i j).
Proof.
  intros [[u v] m] i j (U & V & M & N & NY) I. unfold read1, get_uv_quad, cell_value. rewrite (shape_matrix m M N).
  assert (C1 : (if (wrap_size f =? 0)%Z then col f i + 1 else (col f i + 1) mod wrap_size f)%Z = col f (i + 1)).
  { unfold wrap_size, col. destruct (f_circ f); [|reflexivity]. destruct (Z.eqb_spec (f_nx f) 0); [lia|]. apply Z.add_mod_idemp_l. lia. }
  cbv zeta. rewrite C1.
  assert (X : (f_nx f <=? col f (i + 1))%Z = negb (f_circ f) && ((i <? 0) || (f_nx f <=? i + 1))%Z).
  { unfold col. destruct (f_circ f); cbn [negb andb]; [apply Z.leb_gt, Z.mod_pos_bound; exact N|]. destruct I as [I|I]; [discriminate|]. destruct (Z.ltb_spec i 0); [lia|]. reflexivity. }
  rewrite X. destruct (negb (f_circ f) && ((i <? 0) || (f_nx f <=? i + 1))%Z) eqn:O; cbn [orb]; [reflexivity|].
  destruct (Z.leb_spec (f_ny f) (j + 1)); [reflexivity|].
  assert (I' : f_circ f = true \/ (0 <= i /\ i + 1 < f_nx f)%Z).
  { apply andb_false_iff in O. destruct O as [O|O]; [left; apply negb_false_iff; exact O|right]. apply orb_false_iff in O. destruct O as [O1 O2]. apply Z.ltb_ge in O1. apply Z.leb_gt in O2. lia. }
  destruct (Z.ltb_spec j (- f_ny f)).
  - rewrite corners_south; auto. destruct I'; [left; auto|right; lia].
  - rewrite (corners_four m i j true) by (auto; lia). cbn [bind]. destruct (four f true m i j) as [[[a b] c] d].
    destruct (a || b || c || d); [reflexivity|]. rewrite (corners_four u i j 0%Q), (corners_four v i j 0%Q) by (auto; lia). reflexivity.
Qed.
Lemma col_col : forall i, (0 < f_nx f)%Z -> col f (col f i) = col f i.
Proof. intros i N. unfold col. destruct (f_circ f); [apply Z.mod_mod; lia|reflexivity]. Qed.
Lemma col_succ : forall i, (0 < f_nx f)%Z -> col f (col f i + 1) = col f (i + 1).
Proof. intros i N. unfold col. destruct (f_circ f); [apply Z.add_mod_idemp_l; lia|reflexivity]. Qed.
Lemma cell_value_wrap : forall g i j, fits f g -> cell_value f g (col f i) j = cell_value f g i j.
Proof.
  intros [[u v] m] i j (U & V & M & N & NY). unfold cell_value, four. rewrite !col_col, !col_succ by exact N.
  replace (negb (f_circ f) && ((col f i <? 0) || (f_nx f <=? col f i + 1))%Z) with (negb (f_circ f) && ((i <? 0) || (f_nx f <=? i + 1))%Z); [reflexivity|].
  unfold col. destruct (f_circ f); reflexivity.
Qed.
Lemma cell_value_out : forall g i j, f_circ f = false -> (i < 0 \/ f_nx f < i)%Z -> cell_value f g i j = Lost.
Proof.
  intros [[u v] m] i j C O. unfold cell_value. rewrite C. cbn [negb andb]. destruct (Z.ltb_spec i 0); [reflexivity|]. destruct (Z.leb_spec (f_nx f) (i + 1)); [reflexivity|lia].
Qed.
Lemma read2_spec : forall g0 g1 i j, fits f g0 -> fits f g1 -> f_circ f = true \/ (0 <= i <= f_nx f)%Z -> read2 f g0 g1 (col f i) j = conv (cell_values f g0 g1 i j).
Proof.
  intros g0 g1 i j F0 F1 I. unfold read2, cell_values. rewrite !read1_spec by auto. destruct (cell_value f g0 i j), (cell_value f g1 i j); reflexivity.
Qed.
End Fields.
Lemma pyget_one : forall {A} (l : list A) a, pyget l 1 = Some a -> 2 <= length l.
Proof. intros A l a E. change 1%Z with (Z.of_nat 1) in E. rewrite pyget_of_nat in E. apply nth_error_Some_lt in E. lia. Qed.
Lemma frame_sizes : forall x y f, frame_of x y = Some f -> f_nx f = Z.of_nat (length x) /\ f_ny f = Z.of_nat (length y) /\ 2 <= length x /\ 2 <= length y.
Proof.
  intros x y f E. unfold frame_of in E.
  destruct (pyget x 0) eqn:E1; [|discriminate]. cbn [bind] in E. destruct (pyget x 1) eqn:E2; [|discriminate]. cbn [bind] in E.
  destruct (pyget y 0) eqn:E3; [|discriminate]. cbn [bind] in E. destruct (pyget y 1) eqn:E4; [|discriminate]. cbn [bind] in E.
  destruct (is_circular x); [|discriminate]. cbn [bind] in E. apply Some_inj in E. subst f. cbn [f_nx f_ny].
  split; [reflexivity|]. split; [reflexivity|]. split; eapply pyget_one; eassumption.
Qed.
Lemma particles_spec : forall {P W} (f : frame) read (vel : W -> Q -> Q -> P -> Q * Q) s vals step pure ws ps r v,
  (0 < f_nx f)%Z -> (s < 0)%Z ->
  (forall i j, f_circ f = true \/ (0 <= i <= f_nx f)%Z -> read (col f i) j = conv (vals i j)) ->
  (forall i j, f_circ f = false -> (i < 0 \/ f_nx f < i)%Z -> vals i j = Lost) ->
  (forall i j, vals (col f i) j = vals i j) ->
  (step = euler_step f read vel /\ pure = euler f s vals vel \/ exists half, step = rk4_step f read vel half /\ pure = rk4 f s vals vel half) ->
  Forall2 (fun a b => fate pure ws a = Some b) ps r ->
  run_particles step ws {| c_i := s; c_j := s; c_masked := false; c_val := v |} ps = Some r.
Proof.
  intros P W f read vel s vals step pure ws ps r v N S0 R O WR K F.
  apply (run_particles_spec s vals step pure); [|left; auto|exact F].
  destruct K as [[-> ->]|(half & -> & ->)]; [apply (euler_ok f read vel s vals N S0 R O WR)|apply (rk4_ok f read vel s vals N S0 R O WR)].
Qed.
Section Four.
Variables (x_g y_g : list Q) (f : frame) (g0 g1 : fields).
Hypothesis FR : frame_of x_g y_g = Some f.
Hypothesis F0 : fits f g0.
Hypothesis F1 : fits f g1.
Lemma nx_pos : (0 < f_nx f)%Z.
Proof. destruct (frame_sizes _ _ _ FR) as (A & _ & B & _). lia. Qed.
Lemma cell_values_wrap : forall i j, cell_values f g0 g1 (col f i) j = cell_values f g0 g1 i j.
Proof. intros. unfold cell_values. rewrite !cell_value_wrap by auto. reflexivity. Qed.
Lemma cell_values_out : forall i j, f_circ f = false -> (i < 0 \/ f_nx f < i)%Z -> cell_values f g0 g1 i j = Lost.
Proof. intros. unfold cell_values. rewrite !cell_value_out by auto. reflexivity. Qed.
Lemma advect_spec : forall ps n r, Forall2 (fun a b => fate_euler f g0 n a = Some b) ps r -> advect x_g y_g g0 ps n = Some r.
Proof.
  intros ps n r F. unfold advect. rewrite FR. cbn [bind]. unfold start1.
  eapply (particles_spec f (read1 f g0) velocity1); [exact nx_pos|reflexivity|intros; apply read1_spec; auto|intros; apply cell_value_out; auto|intros; apply cell_value_wrap; auto|left; split; reflexivity|exact F].
Qed.
Lemma advect_rk4_spec : forall ps n r, Forall2 (fun a b => fate_rk4 f g0 n a = Some b) ps r -> advect_rk4 x_g y_g g0 ps n = Some r.
Proof.
  intros ps n r F. unfold advect_rk4. rewrite FR. cbn [bind]. unfold start1.
  eapply (particles_spec f (read1 f g0) velocity1); [exact nx_pos|reflexivity|intros; apply read1_spec; auto|intros; apply cell_value_out; auto|intros; apply cell_value_wrap; auto|right; eexists; split; reflexivity|exact F].
Qed.
Lemma advect_t_spec : forall ps ws r, Forall2 (fun a b => fate_t f g0 g1 ws a = Some b) ps r -> advect_t x_g y_g g0 g1 ps ws = Some r.
Proof.
  intros ps n r F. unfold advect_t. rewrite FR. cbn [bind]. unfold start2.
  eapply (particles_spec f (read2 f g0 g1) velocity2); [exact nx_pos|reflexivity|intros; apply read2_spec; auto|intros; apply cell_values_out; auto|intros; apply cell_values_wrap; auto|left; split; reflexivity|exact F].
Qed.
Lemma advect_t_rk4_spec : forall ps ws hw r, Forall2 (fun a b => fate_t_rk4 f g0 g1 hw ws a = Some b) ps r -> advect_t_rk4 x_g y_g g0 g1 ps ws hw = Some r.
Proof.
  intros ps n hw r F. unfold advect_t_rk4. rewrite FR. cbn [bind]. unfold start2.
  eapply (particles_spec f (read2 f g0 g1) velocity2); [exact nx_pos|reflexivity|intros; apply read2_spec; auto|intros; apply cell_values_out; auto|intros; apply cell_values_wrap; auto|right; eexists; split; reflexivity|exact F].
Qed.
End Four.
