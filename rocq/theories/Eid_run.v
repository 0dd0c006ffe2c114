From Coq Require Import List Arith ZArith QArith Qabs Qround Bool Lia Lqa.
From Verif Require Import Base Qaux Spec Obs_model Pix_model Poly_wind Eid_model Eid_spec Eid_proofs.
Import ListNotations.
Local Close Scope Q_scope.
Local Open Scope nat_scope.

Section Run.
Context {path : Type} (G : setting path).

Lemma path_at_is : forall k c, path_at G k = Some c <-> is_path G k c.
Proof. intros [i j] c. unfold path_at, is_path. cbn [fst snd]. apply nth2_value. Qed.

(** ** Profile *)
Section Profile.
Variables (c : path) (lon lat : Q) (k0 : nat * nat) (L : list nat).
Hypothesis K0 : is_path G k0 c.
Definition inner_at (l k : nat) : Prop := exists c', is_path G (l, k) c' /\ g_nearest G l lon lat = Some k /\ g_contain G c c' = true.
Definition elig (s : profile) (i : nat) : Prop := i = 0 \/ exists k c', nth_error (p_contours s) i = Some k /\ is_path G k c' /\ g_pixel_min G < length (g_pixels_of G c').
Record upto (i : nat) (s : profile) : Prop := {
  u_len : length (p_contours s) = S i;
  u_first : nth_error (p_contours s) 0 = Some k0;
  u_next : forall j l k, nth_error (p_contours s) (S j) = Some (l, k) -> nth_error L j = Some l /\ inner_at l k;
  u_lens : length (p_speeds s) = S i;
  u_speed : forall j k, nth_error (p_contours s) j = Some k -> exists c', is_path G k c' /\ nth_error (p_speeds s) j = Some (g_speed_of G c');
  u_inner : nth_error (p_contours s) i = Some (p_inner s) /\ p_i_inner s = (Z.of_nat i - 1)%Z;
  u_max : exists m, p_i_max s = (Z.of_nat m - 1)%Z /\ elig s m /\ nth_error (p_contours s) m = Some (p_selected s) /\ nth_error (p_speeds s) m = Some (p_max s) /\
    forall j v, elig s j -> nth_error (p_speeds s) j = Some v -> (v <= p_max s)%Q /\ (m < j -> (v < p_max s)%Q) }.
Lemma upto_start : upto 0 {| p_max := g_speed_of G c; p_speeds := [g_speed_of G c]; p_contours := [k0]; p_inner := k0; p_selected := k0; p_i_inner := -1; p_i_max := -1 |}.
Proof.
  constructor; cbn [p_max p_speeds p_contours p_inner p_selected p_i_inner p_i_max]; try reflexivity.
  - intros j l k H. destruct j; discriminate H.
  - intros j k H. destruct j as [|j]; [|destruct j; discriminate H]. cbn in H. apply Some_inj in H. subst k. exists c. split; [exact K0|reflexivity].
  - split; reflexivity.
  - exists 0. split; [reflexivity|]. split; [left; reflexivity|]. split; [reflexivity|]. split; [reflexivity|]. intros j v _ H. destruct j as [|j]; [|destruct j; discriminate H]. cbn in H. apply Some_inj in H. subst v. split; [lra|lia].
Qed.
Lemma nth_app_last : forall {A} (l : list A) x i y, nth_error (l ++ [x]) i = Some y -> nth_error l i = Some y \/ (i = length l /\ y = x).
Proof.
  intros A l x i y H. destruct (Nat.ltb_spec i (length l)); [rewrite nth_error_app1 in H by lia; left; exact H|]. rewrite nth_error_app2 in H by lia. destruct (i - length l) as [|d] eqn:E; [cbn in H; apply Some_inj in H; right; split; [lia|congruence]|destruct d; discriminate H].
Qed.
Lemma upto_step : forall i s l k c', upto i s -> nth_error L i = Some l -> g_nearest G l lon lat = Some k -> is_path G (l, k) c' -> g_contain G c c' = true ->
  let v := g_speed_of G c' in let better := (g_pixel_min G <? length (g_pixels_of G c')) && Qle_bool (p_max s) v in
  upto (S i) {| p_max := if better then v else p_max s; p_speeds := p_speeds s ++ [v]; p_contours := p_contours s ++ [(l, k)];
                 p_inner := (l, k); p_selected := if better then (l, k) else p_selected s;
                 p_i_inner := Z.of_nat i; p_i_max := if better then Z.of_nat i else p_i_max s |}.
Proof.
  intros i s l k c' [U1 U2 U3 U4 U5 [U6 U7] (m & U8 & U9 & U10 & U11 & U12)] EL N P C v better.
  set (s' := {| p_max := _ |}). assert (EC : p_contours s' = p_contours s ++ [(l, k)]) by reflexivity. assert (ES : p_speeds s' = p_speeds s ++ [v]) by reflexivity.
  assert (LASTC : nth_error (p_contours s') (S i) = Some (l, k)) by (rewrite EC, nth_error_app2 by lia; replace (S i - length (p_contours s)) with 0 by lia; reflexivity).
  assert (LASTS : nth_error (p_speeds s') (S i) = Some v) by (rewrite ES, nth_error_app2 by lia; replace (S i - length (p_speeds s)) with 0 by lia; reflexivity).
  assert (OLDE : forall j, j <= i -> elig s' j -> elig s j).
  { intros j J [->|(k' & c2 & E & P2 & X)]; [left; reflexivity|]. right. exists k', c2. rewrite EC, nth_error_app1 in E by lia. split; [exact E|split; assumption]. }
  assert (NEWE : forall j, elig s j -> elig s' j).
  { intros j [->|(k' & c2 & E & P2 & X)]; [left; reflexivity|]. right. exists k', c2. rewrite EC, nth_error_app1 by (apply nth_error_Some_lt in E; exact E). split; [exact E|split; assumption]. }
  constructor.
  - rewrite EC, app_length. cbn [length]. lia.
  - rewrite EC, nth_error_app1 by lia. exact U2.
  - intros j l' k' H. rewrite EC in H. apply nth_app_last in H as [H|[E X]]; [exact (U3 _ _ _ H)|]. injection X as -> ->. assert (j = i) by lia. subst j. split; [exact EL|]. exists c'. split; [exact P|split; assumption].
  - rewrite ES, app_length. cbn [length]. lia.
  - intros j k' H. rewrite EC in H. rewrite ES. apply nth_app_last in H as [H|[E X]].
    + destruct (U5 j k' H) as (c2 & P2 & S2). exists c2. split; [exact P2|]. rewrite nth_error_app1 by (apply nth_error_Some_lt in S2; exact S2). exact S2.
    + subst k'. exists c'. split; [exact P|]. rewrite E, U1, <- U4, nth_error_app2 by lia. rewrite Nat.sub_diag. reflexivity.
  - split; [exact LASTC|]. cbn [s' p_i_inner]. lia.
  - subst s'. cbn [p_i_max p_selected p_max] in *. destruct better eqn:B.
    + unfold better in B. apply andb_true_iff in B as [B1 B2]. apply Nat.ltb_lt in B1. apply Qle_bool_iff in B2. exists (S i). split; [lia|]. split; [right; exists (l, k), c'; split; [exact LASTC|split; assumption]|]. split; [exact LASTC|]. split; [exact LASTS|].
      intros j w E H. cbn [p_speeds] in H. apply nth_app_last in H as [H|[-> ->]].
      * assert (JI : j <= i) by (apply nth_error_Some_lt in H; lia). destruct (U12 j w (OLDE j JI E) H) as [X _]. split; [lra|lia].
      * split; [lra|lia].
    + exists m. assert (MI : m <= i) by (apply nth_error_Some_lt in U11; lia). split; [exact U8|]. split; [exact (NEWE m U9)|]. split; [cbn [p_contours]; rewrite nth_error_app1 by lia; exact U10|]. split; [cbn [p_speeds]; rewrite nth_error_app1 by lia; exact U11|].
      intros j w E H. cbn [p_speeds] in H. apply nth_app_last in H as [H|[-> ->]].
      * assert (JI : j <= i) by (apply nth_error_Some_lt in H; lia). exact (U12 j w (OLDE j JI E) H).
      * destruct E as [E|(k' & c2 & E & P2 & X)]; [lia|]. cbn [p_contours] in E. rewrite U4, <- U1, nth_error_app2, Nat.sub_diag in E by lia. cbn in E. apply Some_inj in E. subst k'. assert (c2 = c') by (eapply value_fun; [exact P2|exact P]). subst c2.
        unfold better in B. apply andb_false_iff in B as [B|B]; [apply Nat.ltb_ge in B; lia|]. apply Qle_bool_false in B. fold v. split; [lra|intros _; exact B].
Qed.
Lemma uavg_loop_spec : forall ls i s r, (forall j, nth_error ls j = nth_error L (i + j)) -> upto i s -> uavg_loop G c lon lat (Z.of_nat i) ls s = Some r ->
  exists n, upto n r /\ forall l k, nth_error L n = Some l -> ~ inner_at l k.
Proof.
  intros ls. induction ls as [|l ls IH]; intros i s r HL U H; cbn [uavg_loop] in H.
  - apply Some_inj in H. subst r. exists i. split; [exact U|]. intros l k E. specialize (HL 0). rewrite Nat.add_0_r, E in HL. discriminate HL.
  - assert (EL : nth_error L i = Some l) by (specialize (HL 0); rewrite Nat.add_0_r in HL; rewrite <- HL; reflexivity).
    destruct (g_nearest G l lon lat) as [k|] eqn:N.
    + destruct (path_at G (l, k)) as [c'|] eqn:P; [|discriminate H]. cbn [bind] in H. apply path_at_is in P. destruct (g_contain G c c') eqn:C.
      * replace (Z.of_nat i + 1)%Z with (Z.of_nat (S i)) in H by lia. cbv zeta in H. refine (IH (S i) _ r _ _ H).
        -- intros j. specialize (HL (S j)). cbn [nth_error] in HL. rewrite HL. f_equal. lia.
        -- exact (upto_step i s l k c' U EL N P C).
      * apply Some_inj in H. subst r. exists i. split; [exact U|]. intros l' k' E (c2 & P2 & N2 & C2). rewrite EL in E. apply Some_inj in E. subst l'. rewrite N in N2. apply Some_inj in N2. subst k'. assert (c2 = c') by (eapply value_fun; [exact P2|exact P]). subst c2. congruence.
    + apply Some_inj in H. subst r. exists i. split; [exact U|]. intros l' k' E (c2 & P2 & N2 & C2). rewrite EL in E. apply Some_inj in E. subst l'. congruence.
Qed.
End Profile.

(** ** One contour *)
Variables (nx ny : nat) (sea0 : list (list bool)).
Hypothesis RD : rect nx ny (g_data G).
Hypothesis RZ : rect nx ny sea0.
Hypothesis LC : length (g_cvalues G) = length (g_paths G).
Hypothesis LL : length (g_levels G) = length (g_paths G).
Record inv (s : state) (found : list eddy) : Prop := {
  i_mask : mask_after G nx ny sea0 found (sea s);
  i_used : forall k, value_at (used s) k true <-> exists e, In e found /\ In k (e_contours e);
  i_disjoint : forall a b e e', a < b -> nth_error found a = Some e -> nth_error found b = Some e' ->
    (forall cell, covers G nx ny e cell -> ~ covers G nx ny e' cell) /\ ~ In (contour_of e') (e_contours e);
  i_free : forall e cell, In e found -> covers G nx ny e cell -> value_at sea0 cell false }.
Lemma existsb_id : forall l : list bool, existsb (fun b => b) l = true <-> In true l.
Proof. intros l. rewrite existsb_exists. split; [intros (b & I & E); cbn in E; subst; exact I|intros I; exists true; split; [exact I|reflexivity]]. Qed.
Lemma inv_same : forall s s' found, sea s' = sea s -> used s' = used s -> inv s found -> inv s' found.
Proof. intros s s' found E1 E2 [A B C D]. constructor; [rewrite E1; exact A|rewrite E2; exact B|exact C|exact D]. Qed.
Definition outcome (anticyclonic : bool) (l : nat) (height level : Q) (rank : nat) (found : list eddy) (s' : state) (r : option eddy) : Prop :=
  match r with
  | None => inv s' found /\ forall c, is_path G (l, rank) c -> refused G nx ny sea0 anticyclonic found (l, rank) c height level
  | Some e => inv s' (found ++ [e]) /\ contour_of e = (l, rank) /\ accepted G nx ny sea0 anticyclonic found e /\ good_profile G anticyclonic e
  end.
Lemma examine_spec : forall anti l height level rank s found s' r, l < length (g_paths G) ->
  nth_error (g_cvalues G) l = Some height -> nth_error (g_levels G) l = Some level -> inv s found ->
  examine G anti l (code_index (length (g_paths G)) anti l) height rank s = Some (s', r) ->
  outcome anti l height level rank found s' r.
Proof.
  intros anti l height level rank s found s' r LP EH EV I H. pose proof I as [[RM IM] IU ID IF]. unfold examine in H.
  destruct (nth2 (used s) l rank) as [u|] eqn:EU; [|discriminate H]. cbn [bind] in H. apply nth2_value in EU. destruct u.
  { apply Some_inj in H. injection H as <- <-. split; [exact I|]. intros c _. left. apply IU. exact EU. }
  destruct (path_at G (l, rank)) as [c|] eqn:EP; [|discriminate H]. cbn [bind] in H. apply path_at_is in EP.
  assert (UC : forall c', is_path G (l, rank) c' -> c' = c) by (intros c' P; eapply value_fun; [exact P|exact EP]).
  assert (REJ : forall n, rejected s (l, rank) n = Some (s', r) -> r = None /\ inv s' found).
  { intros n X. unfold rejected in X. destruct (set2 (reject s) (l, rank) n) as [rj|]; [|discriminate X]. cbn [bind] in X. apply Some_inj in X. injection X as <- <-. split; [reflexivity|]. refine (inv_same s _ found _ _ I); reflexivity. }
  assert (REF : forall n, rejected s (l, rank) n = Some (s', r) -> refused G nx ny sea0 anti found (l, rank) c height level -> outcome anti l height level rank found s' r).
  { intros n X F. destruct (REJ n X) as [-> I']. split; [exact I'|]. intros c' P. rewrite (UC c' P). exact F. }
  cbv zeta in H. destruct (negb _) eqn:OK in H.
  { refine (REF 1 H _). right. left. intros (err & E1 & E2). rewrite E1 in OK. apply negb_true_iff in OK. apply andb_false_iff in OK as [OK|OK]; apply negb_false_iff in OK; apply Qlt_bool_iff in OK; lra. }
  apply negb_false_iff in OK. assert (GS : good_shape G c).
  { destruct (g_shape_error_of G c) as [err|] eqn:E1; [|discriminate OK]. exists err. split; [exact E1|]. apply andb_true_iff in OK as [O1 O2]. apply negb_true_iff in O1, O2. apply Qlt_bool_false in O1. apply Qlt_bool_false in O2. split; assumption. }
  destruct (get_all (sea s) (g_pixels_of G c)) as [masked|] eqn:EM; [|discriminate H]. cbn [bind] in H. destruct (get_all_In _ _ _ EM) as (_ & M1 & M2).
  destruct (existsb (fun b : bool => b) masked) eqn:XM.
  { assert (F : refused G nx ny sea0 anti found (l, rank) c height level).
    { right. right. left. apply existsb_id in XM. destruct (M1 true XM) as (p & IP & V). exists p. split; [exact IP|]. apply IM. apply (get2_cell nx ny) in V as [V _]; [exact V|exact RM]. }
    destruct (nth2 (reject s) l rank) as [rj|]; [|discriminate H]. cbn [bind] in H. destruct (rj =? 0).
    - exact (REF 2 H F).
    - apply Some_inj in H. injection H as <- <-. split; [exact I|]. intros c' P. rewrite (UC c' P). exact F. }
  assert (FREE : forall p, In p (g_pixels_of G c) -> ~ blocked G nx ny sea0 found (cell_of nx ny p) /\ value_at (sea s) (cell_of nx ny p) false).
  { intros p IP. destruct (M2 p IP) as (b & IB & V). apply (get2_cell nx ny) in V as [V _]; [|exact RM]. destruct b.
    - assert (existsb (fun b : bool => b) masked = true) by (apply existsb_id; exact IB). congruence.
    - split; [|exact V]. intros B. apply IM in B. pose proof (value_fun _ _ _ _ V B). discriminate. }
  destruct (get_all (g_data G) (g_pixels_of G c)) as [values|] eqn:ED; [|discriminate H]. cbn [bind] in H. destruct (get_all_In _ _ _ ED) as (_ & D1 & D2).
  destruct (existsb _ values) eqn:XV in H.
  { apply Some_inj in H. injection H as <- <-. split; [exact I|]. intros c' P. rewrite (UC c' P). right. right. right. left. intros GD. apply existsb_exists in XV as (v & IV & X). destruct (D1 v IV) as (p & IP & V). apply (get2_cell nx ny) in V as [V _]; [|exact RD]. specialize (GD p v IP V). destruct anti; apply Qlt_bool_iff in X; lra. }
  assert (GD : good_side G nx ny anti c height).
  { intros p v IP V. destruct (D2 p IP) as (w & IW & V'). apply (get2_cell nx ny) in V' as [V' _]; [|exact RD]. assert (v = w) by (eapply value_fun; [exact V|exact V']). subst w.
    destruct anti.
    - destruct (Qlt_le_dec v height) as [X|X]; [|exact X]. exfalso. assert (existsb (fun v => Qlt_bool v height) values = true) by (apply existsb_exists; exists v; split; [exact IW|apply Qlt_bool_iff; exact X]). congruence.
    - destruct (Qlt_le_dec height v) as [X|X]; [|exact X]. exfalso. assert (existsb (fun v => Qlt_bool height v) values = true) by (apply existsb_exists; exists v; split; [exact IW|apply Qlt_bool_iff; exact X]). congruence. }
  destruct ((length (g_pixels_of G c) <? g_pixel_min G) || (g_pixel_max G <? length (g_pixels_of G c))) eqn:SZ.
  { refine (REF 3 H _). right. right. right. right. left. intros [S1 S2]. apply orb_true_iff in SZ as [SZ|SZ]; apply Nat.ltb_lt in SZ; lia. }
  apply orb_false_iff in SZ as [SZ1 SZ2]. apply Nat.ltb_ge in SZ1, SZ2. assert (GZ : good_size G c) by (split; assumption).
  assert (PL : pyget (g_levels G) (code_index (length (g_paths G)) anti l) = Some level).
  { rewrite <- EV. pose proof (pyget_code (g_levels G) anti l 0) as X. rewrite LL in X. specialize (X LP). rewrite Nat.add_0_r, Nat.sub_0_r, Z.mul_0_r, Z.add_0_r in X. replace (if anti then l else l) with l in X by (destruct anti; reflexivity). apply X. destruct anti; lia. }
  rewrite PL in H. cbn [bind] in H.
  destruct (all_pixels _ _ _ _ _ _ _ _ _) as [amp|] eqn:EA in H; [|discriminate H]. cbn [bind] in H.
  destruct amp as [[centre a]|].
  2:{ refine (REF 4 H _). right. right. right. right. right. exists (sea s). split; [split; assumption|]. intros a centre (X & _). rewrite EA in X. discriminate X. }
  destruct (negb (Qle_bool (g_step G * g_nb_step_min G) a) || Qeq_bool a 0) eqn:XA.
  { refine (REF 4 H _). right. right. right. right. right. exists (sea s). split; [split; assumption|]. intros a' centre' (X & Y & Z). rewrite EA in X. apply Some_inj in X. injection X as <- <-. apply orb_true_iff in XA as [XA|XA]; [apply negb_true_iff in XA; apply Qle_bool_iff in Y; congruence|]. apply Qeq_bool_iff in XA. contradiction. }
  apply orb_false_iff in XA as [XA1 XA2]. apply negb_false_iff in XA1. apply Qle_bool_iff in XA1. apply Qeq_bool_neq in XA2.
  destruct (pyget (g_xs G) _) as [lon|] eqn:ELON in H; [|discriminate H]. cbn [bind] in H. destruct (pyget (g_ys G) (snd centre)) as [lat|] eqn:ELAT in H; [|discriminate H]. cbn [bind] in H.
  destruct (get_uavg _ _ _ _ _ _) as [[[p i_speed] i_inner]|] eqn:EG in H; [|discriminate H]. cbn [bind] in H.
  destruct (set_all (used s) (p_contours p) true) as [us|] eqn:ES; [|discriminate H]. cbn [bind] in H.
  destruct (pyget (g_cvalues G) i_speed) as [h_s|] eqn:EHS; [|discriminate H]. cbn [bind] in H. destruct (pyget (g_cvalues G) i_inner) as [h_i|] eqn:EHI; [|discriminate H]. cbn [bind] in H.
  destruct (put_all (sea s) (g_pixels_of G c) true) as [sea'|] eqn:ESEA; [|discriminate H]. cbn [bind] in H. apply Some_inj in H. injection H as <- <-.
  set (e := {| e_level := l |}). assert (CE : contour_of e = (l, rank)) by reflexivity.
  (** profile *)
  unfold get_uavg in EG. rewrite (proj2 (path_at_is _ _) EP) in EG. cbn [bind] in EG. cbv zeta in EG.
  set (L := iter_levels _ _ _) in EG. destruct (uavg_loop G c lon lat 0 L _) as [p'|] eqn:EW in EG; [|discriminate EG]. cbn [bind] in EG. apply Some_inj in EG. injection EG as -> ESP EIN.
  destruct (uavg_loop_spec c lon lat (l, rank) L L 0 _ p (fun j => eq_refl) (upto_start c lon lat (l, rank) L EP) EW) as (n & [U1 U2 U3 U4 U5 [U6 U7] (m & U8 & U9 & U10 & U11 & U12)] & STOP).
  assert (NL : forall i, nth_error L i = if anti then (if S l + i <? length (g_paths G) then Some (S l + i) else None) else (if i <? l then Some (l - S i) else None)) by (exact (iter_next (length (g_paths G)) anti l LP)).
  assert (NXT : forall i l', nth_error L i = Some l' <-> next_level G anti l (S i) l').
  { intros i l'. rewrite NL. unfold next_level. destruct anti.
    - destruct (Nat.ltb_spec (S l + i) (length (g_paths G))); split; intros X; [apply Some_inj in X; lia|f_equal; lia|discriminate X|lia].
    - destruct (Nat.ltb_spec i l); split; intros X; [apply Some_inj in X; lia|f_equal; lia|discriminate X|lia]. }
  assert (CC : e_contours e = p_contours p) by reflexivity.
  assert (INN : forall l' k, inner_of G e l' k <-> inner_at c lon lat l' k).
  { intros l' k. split; [intros (c1 & c2 & P1 & P2 & N2 & C2); assert (c1 = c) by (eapply value_fun; [exact P1|exact EP]); subst c1; exists c2; split; [exact P2|split; assumption]|intros (c2 & P2 & N2 & C2); exists c, c2; split; [exact EP|split; [exact P2|split; assumption]]]. }
  assert (LEV : forall j k, nth_error (p_contours p) j = Some k -> nth_error (g_cvalues G) (fst k) = pyget (g_cvalues G) (code_index (length (g_paths G)) anti l + (if anti then 1 else -1) * Z.of_nat j)%Z).
  { intros j k E. assert (NJ : if anti then fst k = l + j /\ fst k < length (g_paths G) else l = fst k + j).
    { destruct j as [|j]; [rewrite U2 in E; apply Some_inj in E; subst k; cbn [fst]; destruct anti; lia|]. destruct k as [l' k']. apply U3 in E as [E _]. apply NXT in E. exact E. }
    rewrite <- LC. rewrite pyget_code; [f_equal; destruct anti; lia|lia|destruct anti; lia]. }
  split; [|split; [exact CE|split]].
  - (* invariant *) constructor.
    + destruct (put_all_spec nx ny _ _ _ _ RM ESEA) as [RS SS]. split; [exact RS|]. intros cell. cbn [sea]. rewrite SS. rewrite IM. unfold blocked. split.
      * intros [[IC _]|[NC [B|(e' & IE & CV)]]]; [|left; exact B|right; exists e'; split; [apply in_or_app; left; exact IE|exact CV]].
        right. exists e. split; [apply in_or_app; right; left; reflexivity|]. apply in_map_iff in IC as (q & Q1 & Q2). exists c, q. split; [exact EP|split; assumption].
      * destruct (in_dec pair_eq_dec cell (map (cell_of nx ny) (g_pixels_of G c))) as [IC|IC]; [intros _; left; split; [exact IC|reflexivity]|]. intros B. right. split; [exact IC|]. destruct B as [B|(e' & IE & CV)]; [left; exact B|]. right. apply in_app_or in IE as [IE|[<-|[]]]; [exists e'; split; assumption|]. exfalso. destruct CV as (c1 & q & P1 & Q1 & Q2). assert (c1 = c) by (eapply value_fun; [exact P1|exact EP]). subst c1. apply IC. apply in_map_iff. exists q. split; assumption.
    + intros k. cbn [used]. rewrite (set_all_spec _ _ _ _ ES). rewrite IU. split.
      * intros [[IC _]|[_ (e' & IE & CV)]]; [exists e; split; [apply in_or_app; right; left; reflexivity|exact IC]|exists e'; split; [apply in_or_app; left; exact IE|exact CV]].
      * intros (e' & IE & CV). destruct (in_dec pair_eq_dec k (p_contours p)) as [IC|IC]; [left; split; [exact IC|reflexivity]|]. right. split; [exact IC|]. apply in_app_or in IE as [IE|[<-|[]]]; [exists e'; split; assumption|]. contradiction.
    + intros a1 b1 e1 e2 AB N1 N2. apply nth_app_last in N2 as [N2|[-> ->]].
      * rewrite nth_error_app1 in N1 by (apply nth_error_Some_lt in N2; lia). exact (ID a1 b1 e1 e2 AB N1 N2).
      * rewrite nth_error_app1 in N1 by lia. apply nth_error_In in N1. split.
        -- intros cell C1 (c1 & q & P1 & Q1 & Q2). assert (c1 = c) by (eapply value_fun; [exact P1|exact EP]). subst c1. destruct (FREE q Q1) as [NB _]. apply NB. right. exists e1. split; [exact N1|]. rewrite Q2. exact C1.
        -- rewrite CE. intros X. assert (value_at (used s) (l, rank) true) by (apply IU; exists e1; split; assumption). pose proof (value_fun _ _ _ _ EU H). discriminate.
    + intros e1 cell IE C1. apply in_app_or in IE as [IE|[<-|[]]]; [exact (IF e1 cell IE C1)|]. destruct C1 as (c1 & q & P1 & Q1 & Q2). assert (c1 = c) by (eapply value_fun; [exact P1|exact EP]). subst c1. destruct (FREE q Q1) as [NB V].
      subst cell. apply (value_range nx ny) in V as V'; [|exact RM]. assert (RS0 : exists b, value_at sea0 (cell_of nx ny q) b) by (apply (rect_value nx ny); [exact RZ|apply V'|apply V']). destruct RS0 as ([|] & B); [exfalso; apply NB; left; exact B|exact B].
  - (* criteria *) exists c, (sea s), centre, level. split; [exact EP|]. split; [exact GS|]. split; [exact GD|]. split; [exact GZ|]. split; [exact EH|]. split; [exact EV|]. split; [split; assumption|]. split; [exact EA|split; [exact XA1|exact XA2]].
  - (* profile *) split; [exact U2|]. split; [|split; [|split; [|split; [|split; [|split; [|split]]]]]].
    + intros i l' k E. rewrite CC in E. apply U3 in E as [E1 E2]. split; [apply NXT; exact E1|apply INN; exact E2].
    + intros l' k E X. rewrite CC, U1 in E. apply NXT in E. apply INN in X. exact (STOP l' k E X).
    + rewrite CC, U1. exact U4.
    + intros i k E. rewrite CC in E. exact (U5 i k E).
    + exists n. rewrite CC. split; [symmetry; exact U1|exact U6].
    + rewrite (LEV n _ U6 : nth_error (g_cvalues G) (fst (e_inner_contour e)) = _). cbn [e e_height_inner]. rewrite <- EHI. f_equal. rewrite <- EIN, U7. destruct anti; lia.
    + rewrite (LEV m _ U10 : nth_error (g_cvalues G) (fst (e_speed_contour e)) = _). cbn [e e_height_speed]. rewrite <- EHS. f_equal. rewrite <- ESP, U8. destruct anti; lia.
    + exists m. split; [exact U9|]. split; [exact U10|]. split; [exact U11|]. exact U12.
Qed.

(** ** All contours *)
Notation N := (length (g_paths G)).
Lemma forall_snoc : forall {A} (P : A -> Prop) l x, Forall P l -> P x -> Forall P (l ++ [x]).
Proof. intros A P l x F X. apply Forall_app. split; [exact F|constructor; [exact X|constructor]]. Qed.
(** What a search has done from [base] on the contours [ks]: it found [r]. *)
Definition done (anti : bool) (base : list eddy) (ks : list (nat * nat)) (s' : state) (r : list eddy) : Prop :=
  inv s' (base ++ r) /\
  (forall r1 e r2, r = r1 ++ e :: r2 -> In (contour_of e) ks /\ accepted G nx ny sea0 anti (base ++ r1) e /\ good_profile G anti e) /\
  (forall k c, In k ks -> is_path G k c -> (exists e, In e r /\ contour_of e = k) \/
    exists r1 r2 height level, r = r1 ++ r2 /\ nth_error (g_cvalues G) (fst k) = Some height /\ nth_error (g_levels G) (fst k) = Some level /\ refused G nx ny sea0 anti (base ++ r1) k c height level).
Lemma snoc_split : forall {A} (r : list A) x r1 e r2, r ++ [x] = r1 ++ e :: r2 -> (r2 = [] /\ r1 = r /\ e = x) \/ exists r3, r2 = r3 ++ [x] /\ r = r1 ++ e :: r3.
Proof.
  intros A r x r1 e r2 H. destruct r2 as [|y r2] using rev_ind.
  - apply app_inj_tail in H as [-> ->]. left. repeat split.
  - right. clear IHr2. rewrite app_comm_cons, app_assoc in H. apply app_inj_tail in H as [-> ->]. exists r2. split; reflexivity.
Qed.
Lemma done_step : forall anti base ks s r l height level rank s' x, l < N -> nth_error (g_cvalues G) l = Some height -> nth_error (g_levels G) l = Some level ->
  done anti base ks s r -> examine G anti l (code_index N anti l) height rank s = Some (s', x) ->
  done anti base (ks ++ [(l, rank)]) s' (match x with None => r | Some e => r ++ [e] end).
Proof.
  intros anti base ks s r l height level rank s' x LN EH EV (D1 & D2 & D3) E. pose proof (examine_spec anti l height level rank s (base ++ r) s' x LN EH EV D1 E) as O. destruct x as [e|]; cbn [outcome] in O.
  - destruct O as (I & CE & AC & PR). rewrite <- app_assoc in I. split; [exact I|]. split.
    + intros r1 e' r2 S. apply snoc_split in S as [(-> & -> & ->)|(r3 & -> & S)].
      * split; [apply in_or_app; right; left; symmetry; exact CE|]. split; assumption.
      * destruct (D2 r1 e' r3 S) as (A1 & A2 & A3). split; [apply in_or_app; left; exact A1|]. split; assumption.
    + intros k c IK P. apply in_app_or in IK as [IK|[<-|[]]].
      * destruct (D3 k c IK P) as [(e' & I1 & I2)|(r1 & r2 & h & v & -> & X)]; [left; exists e'; split; [apply in_or_app; left; exact I1|exact I2]|right]. exists r1, (r2 ++ [e]), h, v. split; [rewrite app_assoc; reflexivity|exact X].
      * left. exists e. split; [apply in_or_app; right; left; reflexivity|exact CE].
  - destruct O as (I & RF). split; [exact I|]. split.
    + intros r1 e' r2 S. destruct (D2 r1 e' r2 S) as (A1 & A2 & A3). split; [apply in_or_app; left; exact A1|]. split; assumption.
    + intros k c IK P. apply in_app_or in IK as [IK|[<-|[]]]; [exact (D3 k c IK P)|]. right. exists r, [], height, level. split; [rewrite app_nil_r; reflexivity|]. split; [exact EH|]. split; [exact EV|]. exact (RF c P).
Qed.
Lemma examine_all_spec : forall anti base l height level ranks ks s r s' r', l < N -> nth_error (g_cvalues G) l = Some height -> nth_error (g_levels G) l = Some level ->
  done anti base ks s r -> examine_all G anti l (code_index N anti l) height ranks s r = Some (s', r') -> done anti base (ks ++ map (pair l) ranks) s' r'.
Proof.
  intros anti base l height level ranks. induction ranks as [|rank ranks IH]; intros ks s r s' r' LN EH EV D E; cbn [examine_all] in E.
  - apply Some_inj in E. injection E as <- <-. rewrite app_nil_r. exact D.
  - destruct (examine G anti l (code_index N anti l) height rank s) as [[s1 x]|] eqn:EX; [|discriminate E]. cbn [bind fst snd] in E. cbn [map]. change ((l, rank) :: map (pair l) ranks) with ([(l, rank)] ++ map (pair l) ranks). rewrite app_assoc. refine (IH _ _ _ _ _ LN EH EV _ E). exact (done_step anti base ks s r l height level rank s1 x LN EH EV D EX).
Qed.
Lemma search_spec : forall (anti : bool) base ls ind ks s r s' r', (forall i l, nth_error ls i = Some l -> ind + i < N /\ l = if anti then ind + i else N - 1 - (ind + i)) ->
  done anti base ks s r -> search G anti ind ls s r = Some (s', r') -> exists ks', done anti base (ks ++ ks') s' r' /\ (forall l k c, In l ls -> is_path G (l, k) c -> In (l, k) ks').
Proof.
  intros anti base ls. induction ls as [|l ls IH]; intros ind ks s r s' r' HL D E; cbn [search] in E.
  - apply Some_inj in E. injection E as <- <-. exists []. rewrite app_nil_r. split; [exact D|]. intros l k c [].
  - destruct (HL 0 l eq_refl) as [LI EI]. assert (LN : l < N) by (rewrite EI; destruct anti; lia). destruct (nth_error (g_paths G) l) as [ps|] eqn:EP; [|discriminate E]. cbn [bind] in E.
    assert (HL' : forall i l', nth_error ls i = Some l' -> S ind + i < N /\ l' = if anti then S ind + i else N - 1 - (S ind + i)) by (intros i l' X; destruct (HL (S i) l' X) as [A1 A2]; split; [lia|]; rewrite A2; destruct anti; lia).
    assert (CI : (if anti then Z.of_nat ind else (- Z.of_nat ind - 1)%Z) = code_index N anti l) by (unfold code_index; destruct anti; lia).
    assert (PSC : forall k c, is_path G (l, k) c -> k < length ps) by (intros k c (r0 & X & Y); cbn [fst snd] in X, Y; rewrite EP in X; apply Some_inj in X; subst r0; apply nth_error_Some_lt in Y; exact Y).
    destruct ps as [|p0 ps].
    + destruct (IH (S ind) ks s r s' r' HL' D E) as (ks' & D' & C'). exists ks'. split; [exact D'|]. intros l' k c [<-|I] P; [apply PSC in P; cbn in P; lia|exact (C' l' k c I P)].
    + cbv zeta in E. rewrite CI in E. assert (EH : pyget (g_cvalues G) (code_index N anti l) = nth_error (g_cvalues G) l).
      { pose proof (pyget_code (g_cvalues G) anti l 0) as X. rewrite LC in X. specialize (X LN). rewrite Nat.add_0_r, Nat.sub_0_r, Z.mul_0_r, Z.add_0_r in X. replace (if anti then l else l) with l in X by (destruct anti; reflexivity). apply X. destruct anti; lia. }
      rewrite EH in E. destruct (nth_error (g_cvalues G) l) as [cv|] eqn:ECV; [|discriminate E]. cbn [bind] in E.
      destruct (nth_error_lt_Some (g_levels G) l ltac:(lia)) as [lv ELV].
      destruct (examine_all G anti l (code_index N anti l) cv (seq 0 (length (p0 :: ps))) s r) as [[s1 r1]|] eqn:EX; [|discriminate E]. cbn [bind fst snd] in E.
      pose proof (examine_all_spec anti base l cv lv _ ks s r s1 r1 LN ECV ELV D EX) as D1.
      destruct (IH (S ind) _ s1 r1 s' r' HL' D1 E) as (ks' & D' & C'). exists (map (pair l) (seq 0 (length (p0 :: ps))) ++ ks'). rewrite app_assoc. split; [exact D'|].
      intros l' k c [<-|I] P; apply in_or_app; [left; apply in_map, in_seq; apply PSC in P; lia|right; exact (C' l' k c I P)].
Qed.
Lemma value_map : forall {A B} (f : A -> B) g c v, value_at (map (map f) g) c v <-> exists u, value_at g c u /\ v = f u.
Proof.
  intros A B f g c v. unfold value_at. rewrite nth_error_map. destruct (nth_error g (fst c)) as [r|]; cbn [option_map].
  - split.
    + intros (r' & X & Y). apply Some_inj in X. subst r'. rewrite nth_error_map in Y. destruct (nth_error r (snd c)) as [u|] eqn:E; [|discriminate Y]. cbn in Y. apply Some_inj in Y. exists u. split; [exists r; split; [reflexivity|exact E]|congruence].
    + intros (u & (r' & X & Y) & ->). apply Some_inj in X. subst r'. eexists. split; [reflexivity|]. rewrite nth_error_map, Y. reflexivity.
  - split; [intros (r' & X & _); discriminate X|intros (u & (r' & X & _) & _); discriminate X].
Qed.
Theorem identification_spec : forall A C, identification G sea0 = Some (A, C) ->
  exists sA sC ksA ksC, done true [] ksA sA A /\ done false A ksC sC C /\ (forall k c, is_path G k c -> In k ksA /\ In k ksC).
Proof.
  intros A C H. unfold identification in H. cbv zeta in H. rewrite iter_all_up, iter_all_down in H. set (s0 := {| used := _ |}) in H.
  destruct (search G true 0 (seq 0 N) s0 []) as [[sA rA]|] eqn:EA; [|discriminate H]. cbn [bind fst snd] in H.
  destruct (search G false 0 (rev (seq 0 N)) sA []) as [[sC rC]|] eqn:EC; [|discriminate H]. cbn [bind fst snd] in H. apply Some_inj in H. injection H as <- <-.
  assert (I0 : inv s0 []).
  { constructor.
    - split; [exact RZ|]. intros cell. split; [intros X; left; exact X|intros [X|(e & [] & _)]; exact X].
    - intros k. cbn [s0 used]. rewrite value_map. split; [intros (u & _ & X); discriminate X|intros (e & [] & _)].
    - intros a b e e' _ X. destruct a; discriminate X.
    - intros e cell []. }
  assert (D0 : forall anti base s, inv s base -> done anti base [] s []).
  { intros anti base s I. split; [rewrite app_nil_r; exact I|]. split; [intros r1 e r2 X; destruct r1; discriminate X|intros k c []]. }
  destruct (search_spec true [] (seq 0 N) 0 [] s0 [] sA rA) as (ksA & DA & CA).
  { intros i l E. rewrite nth_error_seq in E. destruct (Nat.ltb_spec i N); [|discriminate E]. apply Some_inj in E. subst l. split; lia. }
  { exact (D0 _ _ _ I0). }
  { exact EA. }
  destruct (search_spec false rA (rev (seq 0 N)) 0 [] sA [] sC rC) as (ksC & DC & CC).
  { intros i l E. rewrite nth_rev_seq in E. destruct (Nat.ltb_spec i N); [|discriminate E]. apply Some_inj in E. subst l. split; lia. }
  { apply D0. destruct DA as [I _]. exact I. }
  { exact EC. }
  exists sA, sC, ksA, ksC. split; [exact DA|]. split; [exact DC|]. intros [l k] c P. assert (LN : l < N) by (destruct P as (r & X & _); apply nth_error_Some_lt in X; exact X).
  split; [apply (CA l k c); [apply in_seq; lia|exact P]|apply (CC l k c); [rewrite <- in_rev; apply in_seq; lia|exact P]].
Qed.
End Run.
