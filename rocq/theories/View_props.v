(** * C141: the interactive viewer shows the eddies of its date. *)
From Coq Require Import List Arith Bool ZArith QArith Lia Lqa Permutation.
From Verif Require Import Base Qaux Generic_model Generic_props TrackObs_model TrackObs_spec TrackObs_proofs TrackObs_props Split_model View_model.
From Verif Require Iter_props Ident_proofs Generic_proofs.
Import ListNotations.
Local Close Scope Q_scope.
Local Open Scope nat_scope.

(** ** Specification *)
(** Strictly inside the box. *)
Definition inside (b : box) (r : row) : Prop := (x0 b < px r /\ px r < x1 b /\ y0 b < py r /\ py r < y1 b)%Q.
(** A dataset of tracks: not empty, the rows of a track together, contours of
    the declared numbers of points. *)
Definition good (d : dataset) : Prop :=
  rows d <> [] /\ grouped (map track (rows d)) /\ Forall (fun r => length (speed r) = nb_s d /\ length (eff r) = nb_e d) (rows d).
(** The rows of [d] of the same tracks as the rows [l], kept by [P]. *)
Definition of_tracks (l : list row) (P : row -> bool) (d : dataset) : list row :=
  filter (fun r => existsb (fun s => track s =? track r) l && P r) (rows d).
(** [c] is the line through the rows [l], cut where the track changes. *)
Definition line_of (l : list row) (c : list (cell (Q * Q))) : Prop :=
  match l with [] => c = [] | _ => split_line (map (fun r => (px r, py r)) l) (map (fun r => Z.of_nat (track r)) l) = Some c end.
(** [c] holds the contours [l], of [n] points, cut between two contours. *)
Definition contours_of (has : bool) (n : nat) (l : list (list (Q * Q))) (c : list (cell (Q * Q))) : Prop :=
  if has then match l with [] => c = [] | _ => c = ob_cells (flatten_line_matrix n l) end else c = [].
(** [v] shows the rows of [d] which are in the box at the date [t]. *)
Definition shows (b : box) (t : Q) (d : dataset) (v : view) : Prop :=
  incr (d_indexs v) /\
  (forall i, In i (d_indexs v) <-> exists r, nth_error (rows d) i = Some r /\ inside b r /\ (time r == t)%Q) /\
  exists l, gather (rows d) (d_indexs v) = Some l /\
    contours_of (has_s d) (nb_s d) (map speed l) (contour_s v) /\
    contours_of (has_e d) (nb_e d) (map eff l) (contour_e v) /\
    line_of (of_tracks l (fun r => Qle_bool (time r) t) d) (path_previous v) /\
    line_of (of_tracks l (fun r => Qle_bool t (time r)) d) (path_future v).
(** The events which change the date. *)
Definition dates (st : state) (e : event) : bool :=
  match e with Key _ => true | Scroll onmap _ => onmap | Release => press st | _ => false end.

(** ** Lemmas *)
Lemma on_map_spec : forall b t r, on_map b t r = true <-> inside b r /\ (time r == t)%Q.
Proof.
  intros b t r. unfold on_map, inside. rewrite !andb_true_iff, !Qlt_bool_iff, Qeq_bool_iff. split; intros H; intuition lra.
Qed.
Lemma indexs_spec : forall b t d, incr (indexs b t d) /\ forall i, In i (indexs b t d) <-> exists r, nth_error (rows d) i = Some r /\ inside b r /\ (time r == t)%Q.
Proof.
  intros b t d. split; [apply incr_where|]. intros i. unfold indexs. rewrite In_where, nth_error_map. split.
  - destruct (nth_error (rows d) i) as [r|]; cbn; [|discriminate]. intros H. apply Some_inj in H. apply on_map_spec in H. eauto.
  - intros (r & -> & H). cbn. f_equal. apply on_map_spec, H.
Qed.
Lemma filter_filter : forall {A} (P P' : A -> bool) l, filter P' (filter P l) = filter (fun x => P x && P' x) l.
Proof. induction l as [|a l IH]; [reflexivity|]. cbn. destruct (P a); cbn; [destruct (P' a); cbn|]; rewrite IH; reflexivity. Qed.
Lemma path_spec : forall l, exists c, path l = Some c /\ line_of l c.
Proof.
  intros [|r l]; [exists []; split; reflexivity|].
  destruct (C17_split_line_exact _ (map (fun r => (px r, py r)) (r :: l)) (map (fun r => Z.of_nat (track r)) (r :: l))) as (c & _ & H & _); [now rewrite !map_length|].
  exists c. split; exact H.
Qed.
Definition empty_if (d : dataset) (v : view) : Prop := (has_s d = false -> contour_s v = []) /\ (has_e d = false -> contour_e v = []).
Lemma update_one_spec : forall b t d old, good d -> empty_if d old -> exists v l, update_one b t d old = Some (v, of_tracks l (fun r => Qeq_bool (time r) t) d) /\
  shows b t d v /\ gather (rows d) (d_indexs v) = Some l.
Proof.
  intros b t d old (NE & G & F) (OS & OE). unfold update_one. destruct (indexs_spec b t d) as (I1 & I2).
  destruct (gather_total (rows d) (indexs b t d)) as (l & L); [intros i H; apply I2 in H as (r & R & _); eapply nth_error_Some_lt; exact R|].
  rewrite L. cbn [bind].
  assert (IN : forall r, In r l -> In r (rows d)).
  { intros r H. apply gather_Some in L as (LL & LN). apply In_nth_error in H as (k & K). destruct (nth_error_lt_Some (indexs b t d) k) as (i & E); [rewrite <- LL; eapply nth_error_Some_lt; exact K|].
    destruct (LN k i E) as (a & A1 & A2). rewrite K in A2. apply Some_inj in A2. subst a. eapply nth_error_In; exact A1. }
  destruct (get_mask_spec (map track (rows d)) (map track l)) as (m & M & LM & MM).
  { intros E. apply map_eq_nil in E. contradiction. }
  { exact G. }
  { intros x H. left. apply in_map_iff in H as (r & <- & H). apply in_map, IN, H. }
  rewrite M. cbn [bind]. rewrite map_length in LM.
  assert (S : select m (rows d) = filter (fun r => existsb (fun s => track s =? track r) l) (rows d)).
  { apply Ident_proofs.select_filter; [exact LM|]. intros k x X. rewrite (MM k (track x)) by (rewrite nth_error_map, X; reflexivity).
    rewrite existsb_exists, in_map_iff. split; intros (r & A1 & A2); exists r; [split; [exact A2|now apply Nat.eqb_eq]|apply Nat.eqb_eq in A2; auto]. }
  rewrite S, !filter_filter.
  destruct (path_spec (of_tracks l (fun r => Qle_bool (time r) t) d)) as (c1 & P1 & Q1).
  destruct (path_spec (of_tracks l (fun r => Qle_bool t (time r)) d)) as (c2 & P2 & Q2).
  unfold of_tracks in P1, P2 |- *. rewrite P1. cbn [bind]. rewrite P2. cbn [bind].
  eexists. exists l. split; [reflexivity|]. split; [|exact L].
  split; [exact I1|]. split; [exact I2|]. exists l. split; [exact L|]. cbn [contour_s contour_e path_previous path_future].
  split; [|split; [|split; [exact Q1|exact Q2]]].
  - unfold contours_of. destruct (has_s d) eqn:H; destruct l; cbn; auto.
  - unfold contours_of. destruct (has_e d) eqn:H; destruct l; cbn; auto.
Qed.
Lemma shows_empty : forall b t d v, shows b t d v -> empty_if d v.
Proof.
  intros b t d v (_ & _ & l & _ & S & E & _). unfold contours_of in S, E. split; intros H.
  - destruct (has_s d); [discriminate|exact S].
  - destruct (has_e d); [discriminate|exact E].
Qed.

(** The rows with a text before the choice of lines 243-248: rows at the date
    of the tracks drawn. *)
Definition candidates (t : Q) (ds : list dataset) (vs : list view) (ts : list row) : Prop :=
  exists ls, Forall2 (fun dv l => gather (rows (fst dv)) (d_indexs (snd dv)) = Some l) (combine ds vs) ls /\
    ts = concat (map (fun dl => of_tracks (snd dl) (fun r => Qeq_bool (time r) t) (fst dl)) (combine ds ls)).
Lemma update_all_spec : forall b t ds olds, Forall good ds -> Forall2 empty_if ds olds -> exists vs ts, update_all b t ds olds = Some (vs, ts) /\
  Forall2 (shows b t) ds vs /\ candidates t ds vs ts.
Proof.
  intros b t ds. induction ds as [|d ds IH]; intros olds G E.
  - exists [], []. cbn. split; [reflexivity|]. split; [constructor|]. exists []. split; [constructor|reflexivity].
  - inversion E as [|x y lx ly E1 E2]; subst. inversion G as [|x' l' G1 G2]; subst.
    destruct (update_one_spec b t d y G1 E1) as (v & l & U & S & L). destruct (IH ly G2 E2) as (vs & ts & U' & S' & ls & L1 & L2).
    cbn [update_all]. rewrite U. cbn [bind]. rewrite U'. cbn [bind fst snd]. eexists. eexists. split; [reflexivity|]. split; [now constructor|].
    exists (l :: ls). cbn [combine map concat fst snd]. split; [constructor; [exact L|exact L1]|]. now rewrite L2.
Qed.
Lemma update_spec : forall ds st, Forall good ds -> Forall2 empty_if ds (views st) -> exists st', update ds st = Some st' /\
  Forall2 (shows (bbox st) (now st)) ds (views st') /\ (exists ts, candidates (now st) ds (views st') ts /\ texts st' = texts_of ts) /\
  bbox st' = bbox st /\ now st' = now st /\ vline st' = now st /\ press st' = press st /\ visible st' = visible st /\ bg st' = bg st.
Proof.
  intros ds st G E. destruct (update_all_spec (bbox st) (now st) ds (views st) G E) as (vs & ts & U & S & C). unfold update. rewrite U. cbn [bind].
  eexists. split; [reflexivity|]. cbn. repeat (split; [try reflexivity; eauto|]). reflexivity.
Qed.

(** What holds at each moment: what is drawn is right for the date of the
    viewer and the box [b] of the map when it was drawn. *)
Definition right_at (ds : list dataset) (b : box) (st : state) : Prop :=
  Forall2 (shows b (now st)) ds (views st) /\ exists ts, candidates (now st) ds (views st) ts /\ texts st = texts_of ts.
Lemma right_empty : forall ds b st, right_at ds b st -> Forall2 empty_if ds (views st).
Proof.
  intros ds b st (H & _). induction H; constructor; [eapply shows_empty; eassumption|assumption].
Qed.
Lemma step_right : forall ds p b st e st', Forall good ds -> right_at ds b st -> step ds p st e = Some st' ->
  if dates st e then right_at ds (bbox st') st' /\ bbox st' = bbox st /\ vline st' = now st' else right_at ds b st' /\ now st' = now st /\ views st' = views st /\ texts st' = texts st.
Proof.
  intros ds p b st e st' G R H. pose proof (right_empty _ _ _ R) as E. unfold right_at in *.
  assert (UPD : forall t s, now s = t -> bbox s = bbox st -> views s = views st -> update ds s = Some st' ->
    (Forall2 (shows (bbox st') (now st')) ds (views st') /\ exists ts, candidates (now st') ds (views st') ts /\ texts st' = texts_of ts) /\ bbox st' = bbox st /\ vline st' = now st').
  { intros t s N B V U. rewrite <- V in E. destruct (update_spec ds s G E) as (s' & U' & S1 & S2 & S3 & S4 & S5 & _).
    rewrite U in U'. apply Some_inj in U'. subst s'. rewrite S3, S4. split; [split; [exact S1|exact S2]|]. split; congruence. }
  destruct e as [k| |onmap up|online|x|inds| |r bx|r]; cbn [dates step] in *.
  - eapply UPD; [| | |exact H]; reflexivity.
  - apply Some_inj in H. subst st'. auto.
  - destruct onmap; [eapply UPD; [| | |exact H]; reflexivity|]. apply Some_inj in H. subst st'. auto.
  - apply Some_inj in H. subst st'. destruct online; auto.
  - apply Some_inj in H. subst st'. destruct (press st); auto.
  - unfold move_map in H. destruct inds as [|o inds]; [discriminate|]. revert H.
    match goal with |- context [if existsb ?f ?l then ?a else ?c] => destruct (if existsb f l then a else c) as (v, g) end.
    match goal with |- context [if ?f then (false, false) else _] => destruct f end; intros H; apply Some_inj in H; subst st'; auto.
  - destruct (press st) eqn:PR; [eapply UPD; [| | |exact H]; reflexivity|]. apply Some_inj in H. subst st'. auto.
  - destruct (end_pan r bx) as [b'|]; [|discriminate]. cbn [bind] in H. apply Some_inj in H. subst st'. auto.
  - destruct (end_pan r (bbox st)) as [b'|]; [|discriminate]. cbn [bind] in H. apply Some_inj in H. subst st'. auto.
Qed.
Lemma start_right : forall ds p b, Forall good ds -> exists st, start ds p b = Some st /\ right_at ds b st /\ bbox st = b /\ now st = snd p /\ vline st = now st /\ press st = false /\ visible st = false /\ bg st = false.
Proof.
  intros ds p b G. unfold start. match goal with |- context [update ds ?s] => destruct (update_spec ds s G) as (st & U & S1 & S2 & S3 & S4 & S5 & S6 & S7 & S8) end.
  { cbn. clear G. induction ds as [|d ds IH]; constructor; [split; reflexivity|exact IH]. }
  exists st. split; [exact U|]. unfold right_at. cbn in *. rewrite S4. split; [split; [exact S1|exact S2]|]. split; [exact S3|]. split; [reflexivity|]. split; [exact S5|]. auto.
Qed.
Lemma run_app : forall ds p l1 l2 st, run ds p st (l1 ++ l2) = bind (run ds p st l1) (fun s => run ds p s l2).
Proof. intros ds p l1. induction l1 as [|e l1 IH]; intros l2 st; cbn; [reflexivity|]. destruct (step ds p st e); cbn; [apply IH|reflexivity]. Qed.
Lemma run_right : forall ds p l b st st', Forall good ds -> right_at ds b st -> run ds p st l = Some st' -> exists b', right_at ds b' st'.
Proof.
  intros ds p l. induction l as [|e l IH]; intros b st st' G R H; cbn in H; [apply Some_inj in H; subst; eauto|].
  destruct (step ds p st e) as [s|] eqn:E; [|discriminate]. cbn in H. pose proof (step_right _ _ _ _ _ _ G R E) as X.
  destruct (dates st e); destruct X as (X & _); eapply IH; [exact G|exact X|exact H|exact G|exact X|exact H].
Qed.

(** ** The map *)
(** At the end of any history the map shows the rows of the date of the viewer
    in the box the map had at the last change of date, with the contours, the
    past and the future of their tracks. *)
Theorem C141_shown : forall ds p b st0 l st, Forall good ds -> start ds p b = Some st0 -> run ds p st0 l = Some st ->
  exists l1 l2 s, l = l1 ++ l2 /\ run ds p st0 l1 = Some s /\ run ds p s l2 = Some st /\
    (l1 = [] \/ exists l' e s', l1 = l' ++ [e] /\ run ds p st0 l' = Some s' /\ dates s' e = true) /\
    (forall l' e l'' s', l2 = l' ++ e :: l'' -> run ds p s l' = Some s' -> dates s' e = false) /\
    now st = now s /\ vline s = now s /\ Forall2 (shows (bbox s) (now st)) ds (views st).
Proof.
  intros ds p b st0 l. induction l as [|e l IH] using rev_ind; intros st G S0 H.
  - destruct (start_right ds p b G) as (st1 & S1 & (R & _) & B & N & V & _). rewrite S0 in S1. apply Some_inj in S1. subst st1.
    cbn in H. apply Some_inj in H. subst st. exists [], [], st0. split; [reflexivity|]. split; [reflexivity|]. split; [reflexivity|]. split; [now left|].
    split; [intros [|? ?]; discriminate|]. split; [reflexivity|]. split; [exact V|]. rewrite B. exact R.
  - rewrite run_app in H. destruct (run ds p st0 l) as [s1|] eqn:R1; [|discriminate]. cbn [bind run] in H.
    destruct (step ds p s1 e) as [s2|] eqn:E2; [|discriminate]. cbn in H. apply Some_inj in H. subst s2.
    destruct (start_right ds p b G) as (st1 & S1 & R0 & _). rewrite S0 in S1. apply Some_inj in S1. subst st1.
    destruct (run_right _ _ _ _ _ _ G R0 R1) as (b1 & RR). pose proof (step_right _ _ _ _ _ _ G RR E2) as X.
    destruct (dates s1 e) eqn:D.
    + destruct X as ((X1 & _) & X2 & X3). exists (l ++ [e]), [], st. rewrite app_nil_r. split; [reflexivity|]. split; [rewrite run_app, R1; cbn; rewrite E2; reflexivity|].
      split; [reflexivity|]. split; [right; exists l, e, s1; auto|]. split; [intros [|? ?]; discriminate|]. auto.
    + destruct X as (_ & X2 & X3 & _). destruct (IH s1 G S0 eq_refl) as (l1 & l2 & s & A1 & A2 & A3 & A4 & A5 & A6 & A7 & A8).
      exists l1, (l2 ++ [e]), s. subst l. rewrite app_assoc. split; [reflexivity|]. split; [exact A2|]. split; [rewrite run_app, A3; cbn; rewrite E2; reflexivity|].
      split; [exact A4|]. split; [|split; [congruence|split; [exact A7|rewrite X2, X3; exact A8]]].
      intros l' e' l'' s' EQ RN. destruct l'' as [|e'' l'' _] using rev_ind.
      * apply app_inj_tail in EQ as (EQ1 & EQ2). subst. rewrite A3 in RN. apply Some_inj in RN. subst s'. exact D.
      * rewrite app_comm_cons, app_assoc in EQ. apply app_inj_tail in EQ as (EQ1 & EQ2). eapply A5; [exact EQ1|exact RN].
Qed.
Print Assumptions C141_shown.

(** ** Pan and change of size *)
Definition proper (b : box) : Prop := (x0 b < x1 b /\ y0 b < y1 b)%Q.
(** The box after a pan has the ratio of the axes and the same centre, and
    holds the box before. *)
Theorem C141_pan : forall r b, (0 < r)%Q -> proper b -> exists b', end_pan r b = Some b' /\ proper b' /\
  (x1 b' - x0 b' == r * (y1 b' - y0 b') /\ x0 b' + x1 b' == x0 b + x1 b /\ y0 b' + y1 b' == y0 b + y1 b)%Q /\
  (x0 b' <= x0 b /\ x1 b <= x1 b' /\ y0 b' <= y0 b /\ y1 b <= y1 b')%Q /\
  ((x0 b' == x0 b /\ x1 b' == x1 b) \/ (y0 b' == y0 b /\ y1 b' == y1 b))%Q.
Proof.
  intros r b R (X & Y). unfold end_pan.
  set (dx := ((x1 b - x0 b) / 2)%Q). set (dy := ((y1 b - y0 b) / 2)%Q).
  assert (DX : (dx == (x1 b - x0 b) * (1 # 2))%Q) by (unfold dx; field). assert (DY : (dy == (y1 b - y0 b) * (1 # 2))%Q) by (unfold dy; field).
  assert (PX : (0 < dx)%Q) by lra. assert (PY : (0 < dy)%Q) by lra.
  destruct (Qeq_bool dy 0) eqn:E1; [apply Qeq_bool_iff in E1; lra|]. destruct (Qeq_bool r 0) eqn:E2; [apply Qeq_bool_iff in E2; lra|]. cbn [orb].
  assert (XC : ((x1 b + x0 b) / 2 == (x1 b + x0 b) * (1 # 2))%Q) by field. assert (YC : ((y1 b + y0 b) / 2 == (y1 b + y0 b) * (1 # 2))%Q) by field.
  destruct (Qlt_bool r (dx / dy)) eqn:C; eexists; (split; [reflexivity|]); unfold proper; cbn [x0 x1 y0 y1].
  - apply Qlt_bool_iff in C. assert (Q1 : (r * dy < dx)%Q) by (assert (Z0 : (dx == dx / dy * dy)%Q) by (field; lra); rewrite Z0; apply Qmult_lt_compat_r; assumption).
    assert (Z1 : (dx / r * r == dx)%Q) by (field; lra).
    assert (Q2 : (dy < dx / r)%Q) by (apply Qlt_shift_div_l; lra). set (q := (dx / r)%Q) in *. repeat split; lra.
  - apply Qlt_bool_false in C. assert (Q1 : (dx <= r * dy)%Q) by (assert (Z0 : (dx == dx / dy * dy)%Q) by (field; lra); rewrite Z0; apply Qmult_le_compat_r; lra).
    assert (W : (r * (y1 b - y0 b) == 2 * (dy * r))%Q) by (rewrite DY; ring). assert (W0 : (0 < dy * r)%Q) by (apply Qmult_lt_0_compat; assumption).
    repeat split; lra.
Qed.
Print Assumptions C141_pan.

(** ** Nothing fails *)
Definition fine (n : nat) (e : event) : Prop :=
  match e with Pan r b => (0 < r)%Q /\ proper b | Resize r => (0 < r)%Q | Move_map inds => length inds = n | _ => True end.
Theorem C141_total : forall ds p b, Forall good ds -> ds <> [] -> proper b -> exists st0, start ds p b = Some st0 /\
  forall l, Forall (fine (length ds)) l -> exists st, run ds p st0 l = Some st.
Proof.
  intros ds p b G NE PB. destruct (start_right ds p b G) as (st0 & S0 & R & B & _). exists st0. split; [exact S0|]. rewrite <- B in PB. clear S0 B.
  intros l. revert b st0 R PB. induction l as [|e l IH]; intros b st R PB F; [exists st; reflexivity|].
  inversion F as [|x y F1 F2]; subst. cbn [run].
  assert (S : exists st', step ds p st e = Some st' /\ proper (bbox st')).
  { pose proof (right_empty _ _ _ R) as E.
    assert (UPD : forall s, bbox s = bbox st -> views s = views st -> exists st', update ds s = Some st' /\ proper (bbox st')).
    { intros s BB VV. rewrite <- VV in E. destruct (update_spec ds s G E) as (s' & U & _ & _ & S3 & _). exists s'. split; [exact U|]. rewrite S3, BB. exact PB. }
    destruct e as [k| |onmap up|online|x|inds| |r bx|r]; cbn [fine step] in *.
    - apply UPD; reflexivity.
    - eauto.
    - destruct onmap; [apply UPD; reflexivity|eauto].
    - eexists. split; [reflexivity|]. destruct online; exact PB.
    - eexists. split; [reflexivity|]. destruct (press st); exact PB.
    - unfold move_map. destruct inds as [|o inds]; [destruct ds; [congruence|discriminate]|].
      match goal with |- context [if existsb ?f ?a then ?u else ?c] => destruct (if existsb f a then u else c) as (v, g) end.
      match goal with |- context [if ?f then (false, false) else _] => destruct f end; eexists; (split; [reflexivity|exact PB]).
    - destruct (press st); [apply UPD; reflexivity|eauto].
    - destruct F1 as (F1 & F3). destruct (C141_pan r bx F1 F3) as (b' & -> & P & _). cbn [bind]. eexists. split; [reflexivity|exact P].
    - destruct (C141_pan r (bbox st) F1 PB) as (b' & -> & P & _). cbn [bind]. eexists. split; [reflexivity|exact P]. }
  destruct S as (st' & S & P). rewrite S. cbn [bind]. pose proof (step_right _ _ _ _ _ _ G R S) as X. destruct (dates st e); destruct X as (X & _); eapply IH; eassumption.
Qed.
Print Assumptions C141_total.

(** ** The date *)
(** The first and the last date of the viewer bound all the dates, and each is
    a date of a row or a limit written in the code. *)
Lemma times_bounds_spec : forall l p, (fst p <= snd p)%Q -> let q := times_bounds p l in (fst q <= fst p)%Q /\ (snd p <= snd q)%Q /\ (forall r, In r l -> fst q <= time r /\ time r <= snd q)%Q /\
  (fst q = fst p \/ exists r, In r l /\ fst q = time r) /\ (snd q = snd p \/ exists r, In r l /\ snd q = time r).
Proof.
  induction l as [|a l IH]; intros p L; cbn [times_bounds].
  - cbn. split; [lra|]. split; [lra|]. split; [intros r []|]. auto.
  - match goal with |- context [times_bounds ?x l] => specialize (IH x); set (p' := x) in * end.
    assert (X : (fst p' <= fst p /\ fst p' <= time a /\ snd p <= snd p' /\ time a <= snd p')%Q /\ (fst p' = fst p \/ fst p' = time a) /\ (snd p' = snd p \/ snd p' = time a)).
    { unfold p'. cbn [fst snd]. destruct (Qle_bool (fst p) (time a)) eqn:E1; [apply Qle_bool_iff in E1|apply Qle_bool_false in E1];
      (destruct (Qle_bool (time a) (snd p)) eqn:E2; [apply Qle_bool_iff in E2|apply Qle_bool_false in E2]); repeat split; try lra; auto. }
    destruct X as ((X1 & X2 & X3 & X4) & X5 & X6). destruct IH as (I1 & I2 & I3 & I4 & I5); [lra|].
    split; [lra|]. split; [lra|]. split.
    + intros r [<-|H]; [split; lra|apply I3, H].
    + split; [destruct I4 as [I4|(r & H & I4)]; [rewrite I4; destruct X5 as [X5|X5]; rewrite X5; [now left|right; exists a; cbn; auto]|right; exists r; cbn; auto]|].
      destruct I5 as [I5|(r & H & I5)]; [rewrite I5; destruct X6 as [X6|X6]; rewrite X6; [now left|right; exists a; cbn; auto]|right; exists r; cbn; auto].
Qed.
Lemma initial_spec : forall ds p q, initial_period p ds = Some q -> (fst q <= fst p)%Q /\ (snd p <= snd q)%Q /\
  (forall d r, In d ds -> In r (rows d) -> fst q <= time r /\ time r <= snd q)%Q /\
  (fst q = fst p \/ exists d r, In d ds /\ In r (rows d) /\ fst q = time r) /\ (snd q = snd p \/ exists d r, In d ds /\ In r (rows d) /\ snd q = time r).
Proof.
  induction ds as [|d ds IH]; intros p q H; cbn [initial_period] in H.
  - apply Some_inj in H. subst q. split; [lra|]. split; [lra|]. split; [intros d r []|]. auto.
  - unfold ds_period in H. destruct (rows d) as [|a l] eqn:RD; [discriminate|]. cbn [bind] in H.
    destruct (times_bounds_spec l (time a, time a)) as (T1 & T2 & T3 & T4 & T5); [cbn; lra|]. set (w := times_bounds (time a, time a) l) in *. cbn [fst snd] in T1, T2, T4, T5.
    apply IH in H. match type of H with context [(?x, ?y)] => set (p' := (x, y)) in * end. destruct H as (I1 & I2 & I3 & I4 & I5).
    assert (X : (fst p' <= fst p /\ fst p' <= fst w /\ snd p <= snd p' /\ snd w <= snd p')%Q /\ (fst p' = fst p \/ fst p' = fst w) /\ (snd p' = snd p \/ snd p' = snd w)).
    { unfold p'. cbn [fst snd]. destruct (Qle_bool (fst p) (fst w)) eqn:E1; [apply Qle_bool_iff in E1|apply Qle_bool_false in E1];
      (destruct (Qle_bool (snd w) (snd p)) eqn:E2; [apply Qle_bool_iff in E2|apply Qle_bool_false in E2]); repeat split; try lra; auto. }
    destruct X as ((X1 & X2 & X3 & X4) & X5 & X6). split; [lra|]. split; [lra|].
    assert (W : exists r, In r (rows d) /\ fst w = time r) by (rewrite RD; destruct T4 as [T4|(r & H & T4)]; [exists a; cbn; auto|exists r; cbn; auto]).
    assert (W' : exists r, In r (rows d) /\ snd w = time r) by (rewrite RD; destruct T5 as [T5|(r & H & T5)]; [exists a; cbn; auto|exists r; cbn; auto]).
    split; [intros d' r [<-|D] H; [|apply (I3 d' r D H)]|].
    + rewrite RD in H. destruct H as [<-|H]; [split; lra|]. destruct (T3 r H). split; lra.
    + split.
      * destruct I4 as [I4|(d' & r & D & H & I4)]; [|right; exists d', r; cbn; auto]. rewrite I4. destruct X5 as [X5|X5]; rewrite X5; [now left|]. destruct W as (r & H & W). right. exists d, r. cbn. auto.
      * destruct I5 as [I5|(d' & r & D & H & I5)]; [|right; exists d', r; cbn; auto]. rewrite I5. destruct X6 as [X6|X6]; rewrite X6; [now left|]. destruct W' as (r & H & W'). right. exists d, r. cbn. auto.
Qed.
Theorem C141_period : forall ds t0 t1, set_initial_values ds = Some (t0, t1) ->
  (forall d r, In d ds -> In r (rows d) -> t0 <= time r /\ time r <= t1)%Q /\
  (t0 = 1000000%Q \/ exists d r, In d ds /\ In r (rows d) /\ t0 = time r) /\ (t1 = 0%Q \/ exists d r, In d ds /\ In r (rows d) /\ t1 = time r).
Proof. intros ds t0 t1 H. apply initial_spec in H as (_ & _ & H1 & H2 & H3). auto. Qed.
Print Assumptions C141_period.

(** Up then down, page up then page down, home and end; and a drag of the time
    line to [x] then the release puts the date at the whole part of [x]. *)
Lemma update_now : forall ds st st', update ds st = Some st' -> now st' = now st /\ vline st' = now st /\ press st' = press st.
Proof. intros ds st st'. unfold update. destruct (update_all _ _ _ _); [|discriminate]. cbn. intros H. apply Some_inj in H. subst. auto. Qed.
Theorem C141_dates : forall ds p st,
  (forall k st', step ds p st (Key k) = Some st' -> now st' = match k with Down => now st + -1 | Up => now st + 1 | Pagedown => now st + -5 | Pageup => now st + 5 | Home => fst p | End => snd p end)%Q /\
  (forall up st', step ds p st (Scroll true up) = Some st' -> now st' = if up then now st + 1 else now st - 1)%Q /\
  (forall x st', press st = false -> run ds p st [Press true; Move_time x; Release] = Some st' ->
     exists z, now st' = inject_Z z /\ vline st' = inject_Z z /\ press st' = false /\ (0 <= x -> inject_Z z <= x /\ x < inject_Z z + 1)%Q) /\
  (forall x, press st = false -> run ds p st [Move_time x; Release] = Some st) /\
  (forall st', run ds p st [Key Up; Key Down] = Some st' -> now st' == now st)%Q /\
  (forall st', run ds p st [Key Pageup; Key Pagedown] = Some st' -> now st' == now st)%Q.
Proof.
  intros ds p st. split; [|split; [|split; [|split; [|split]]]].
  - intros k st' H. cbn [step] in H. apply update_now in H as (H & _). exact H.
  - intros up st' H. cbn [step] in H. apply update_now in H as (H & _). exact H.
  - intros x st' PR H. cbn in H.
    match type of H with bind ?o _ = _ => destruct o as [s|] eqn:E; [|discriminate] end. cbn in H. apply Some_inj in H. subst s.
    apply update_now in E as (E1 & E2 & E3). cbn in E1, E2, E3. exists (trunc x). rewrite E1, E2, E3. repeat (split; [reflexivity|]).
    intros X. unfold trunc. assert (Q0 : (0 <= Qnum x)%Z) by (unfold Qle in X; cbn in X; lia).
    rewrite Z.quot_div_nonneg by lia. change (Qnum x / Zpos (Qden x))%Z with (Qround.Qfloor (Qnum x # Qden x)).
    assert (EX : (Qnum x # Qden x)%Q = x) by (destruct x; reflexivity). rewrite EX. apply Qfloor_bounds.
  - intros x PR. cbn. rewrite PR. cbn. rewrite PR. reflexivity.
  - intros st' H. cbn in H. destruct (update ds (set_now (now st + 1)%Q st)) as [s|] eqn:E; [|discriminate]. cbn in H.
    destruct (update ds (set_now (now s + -1)%Q s)) as [s'|] eqn:E'; [|discriminate]. cbn in H. apply Some_inj in H. subst s'.
    apply update_now in E as (E & _). apply update_now in E' as (E' & _). cbn in E, E'. rewrite E', E. lra.
  - intros st' H. cbn in H. destruct (update ds (set_now (now st + 5)%Q st)) as [s|] eqn:E; [|discriminate]. cbn in H.
    destruct (update ds (set_now (now s + -5)%Q s)) as [s'|] eqn:E'; [|discriminate]. cbn in H. apply Some_inj in H. subst s'.
    apply update_now in E as (E & _). apply update_now in E' as (E' & _). cbn in E, E'. rewrite E', E. lra.
Qed.
Print Assumptions C141_dates.

(** ** The texts *)
Lemma insert_perm : forall a l, Permutation (insert a l) (a :: l).
Proof. intros a l. induction l as [|b l IH]; cbn; [reflexivity|]. destruct (a <=? b); [reflexivity|]. rewrite IH. apply perm_swap. Qed.
Lemma sort_perm : forall l, Permutation (sort l) l.
Proof. induction l as [|a l IH]; cbn; [reflexivity|]. rewrite insert_perm. now constructor. Qed.
Fixpoint ord (l : list nat) : Prop := match l with [] => True | a :: l' => Forall (fun b => a <= b) l' /\ ord l' end.
Lemma insert_ord : forall a l, ord l -> ord (insert a l).
Proof.
  intros a l. induction l as [|b l IH]; cbn [insert ord]; [intros _; split; [constructor|exact I]|]. intros (F & O). destruct (Nat.leb_spec a b) as [H|H].
  - cbn [ord]. split; [constructor; [exact H|eapply Forall_impl; [|exact F]; cbn; intros; lia]|split; assumption].
  - cbn [ord]. split; [|apply IH, O]. eapply (Permutation_Forall (Permutation_sym (insert_perm a l))). constructor; [lia|exact F].
Qed.
Lemma sort_ord : forall l, ord (sort l).
Proof. induction l as [|a l IH]; cbn; [exact I|]. apply insert_ord, IH. Qed.
Lemma filter_le : forall {A} (P : A -> bool) l, length (filter P l) <= length l.
Proof. intros A P l. induction l as [|a l IH]; cbn; [lia|]. destruct (P a); cbn; lia. Qed.
Lemma ord_count : forall l k m, ord l -> nth_error l k = Some m -> length (filter (fun b => m <=? b) l) >= length l - k /\ length (filter (fun b => m <? b) l) <= length l - S k.
Proof.
  induction l as [|a l IH]; intros k m O H; [destruct k; discriminate|]. destruct O as (F & O). destruct k as [|k].
  - cbn in H. apply Some_inj in H. subst a. cbn [filter]. rewrite Nat.leb_refl, Nat.ltb_irrefl. cbn [length].
    assert (E : filter (fun b => m <=? b) l = l).
    { clear -F. induction F as [|x l X F IH]; [reflexivity|]. cbn. rewrite (proj2 (Nat.leb_le m x) X), IH. reflexivity. }
    rewrite E. split; [lia|]. pose proof (filter_le (fun b => m <? b) l). lia.
  - cbn in H. destruct (IH k m O H) as (I1 & I2). assert (AM : a <= m) by (rewrite Forall_forall in F; apply F; eapply nth_error_In; exact H).
    pose proof (nth_error_Some_lt _ _ _ H) as K. cbn [filter length]. destruct (Nat.ltb_spec m a); [lia|]. destruct (Nat.leb_spec m a); cbn [length]; split; lia.
Qed.
Lemma filter_map_length : forall (P : nat -> bool) l, length (filter (fun r => P (obs_n r)) l) = length (filter P (map obs_n l)).
Proof. intros P l. induction l as [|r l IH]; cbn; [reflexivity|]. destruct (P (obs_n r)); cbn; rewrite IH; reflexivity. Qed.
Lemma filter_perm_length : forall (P : nat -> bool) l l', Permutation l l' -> length (filter P l) = length (filter P l').
Proof. intros P l l' H. induction H; cbn; repeat match goal with |- context [P ?x] => destruct (P x) end; cbn; lia. Qed.
(** At most 50 rows: all have their number.  More: the rows with a number are
    those above a threshold, at least 50 of them, and fewer than 50 are
    strictly above the lowest number written. *)
Theorem C141_texts : forall l, (length l <= 50 -> texts_of l = l) /\
  (50 < length l -> exists m, texts_of l = filter (fun r => m <=? obs_n r) l /\ (exists r, In r l /\ obs_n r = m) /\
     length (texts_of l) >= 50 /\ length (filter (fun r => m <? obs_n r) l) < 50).
Proof.
  intros l. unfold texts_of. split; intros L.
  - rewrite map_length. destruct (Nat.ltb_spec 50 (length l)); [lia|]. clear. induction l as [|r l IH]; [reflexivity|]. cbn [filter]. rewrite IH. destruct (obs_n r); reflexivity.
  - rewrite map_length. destruct (Nat.ltb_spec 50 (length l)); [|lia].
    pose proof (Permutation_length (sort_perm (map obs_n l))) as PL. rewrite map_length in PL.
    destruct (nth_error_lt_Some (sort (map obs_n l)) (length l - 50)) as (m & M); [lia|].
    rewrite (nth_error_nth _ _ 0 M). exists m. split; [reflexivity|]. split.
    + apply nth_error_In in M. apply (Permutation_in _ (sort_perm _)) in M. apply in_map_iff in M as (r & E & H'). exists r. auto.
    + destruct (ord_count _ _ _ (sort_ord _) M) as (C1 & C2). rewrite (filter_map_length (fun b => m <=? b)), (filter_map_length (fun b => m <? b)).
      rewrite !(filter_perm_length _ _ _ (sort_perm _)) in *. lia.
Qed.
Print Assumptions C141_texts.
(** When a track has one row at a date, the rows among which the texts are
    chosen are the rows drawn on the map. *)
Lemma of_tracks_now : forall b t d v l, shows b t d v -> gather (rows d) (d_indexs v) = Some l ->
  (forall i j r s, nth_error (rows d) i = Some r -> nth_error (rows d) j = Some s -> track r = track s -> (time r == time s)%Q -> i = j) ->
  of_tracks l (fun r => Qeq_bool (time r) t) d = l.
Proof.
  intros b t d v l (I & IN & _) L U.
  assert (EQ : filter (fun r => existsb (fun s => track s =? track r) l && Qeq_bool (time r) t) (rows d) = select (map (fun i => existsb (Nat.eqb i) (d_indexs v)) (seq 0 (length (rows d)))) (rows d)).
  { symmetry. apply Ident_proofs.select_filter; [now rewrite map_length, seq_length|]. intros k x X. pose proof (nth_error_Some_lt _ _ _ X) as K.
    rewrite nth_error_map, nth_error_seq. destruct (Nat.ltb_spec k (length (rows d))) as [_|]; [|lia]. cbn [option_map Nat.add].
    apply gather_Some in L as (LL & LN). rewrite andb_true_iff, !existsb_exists, Qeq_bool_iff. split.
    - intros H. apply Some_inj in H. apply existsb_exists in H as (i & H & E). apply Nat.eqb_eq in E. subst i. pose proof H as H2. apply IN in H as (r & R & _ & T). rewrite X in R. apply Some_inj in R. subst r.
      split; [|exact T]. apply In_nth_error in H2 as (q & H2). destruct (LN q k H2) as (a & A1 & A2). rewrite X in A1. apply Some_inj in A1. subst a. exists x. split; [eapply nth_error_In; exact A2|apply Nat.eqb_refl].
    - intros ((s & S1 & S2) & T). apply Nat.eqb_eq in S2. f_equal. apply existsb_exists. exists k. split; [|apply Nat.eqb_refl].
      apply In_nth_error in S1 as (q & S1). destruct (nth_error_lt_Some (d_indexs v) q) as (i & E); [rewrite <- LL; eapply nth_error_Some_lt; exact S1|].
      destruct (LN q i E) as (a & A1 & A2). rewrite S1 in A2. apply Some_inj in A2. subst a. apply nth_error_In in E. pose proof E as E2. apply IN in E as (r & R & _ & T'). rewrite A1 in R. apply Some_inj in R. subst r.
      assert (k = i) as -> by (eapply U; [exact X|exact A1|auto|rewrite T, T'; reflexivity]). exact E2. }
  unfold of_tracks. rewrite EQ. clear EQ U.
  assert (W : d_indexs v = where_ (map (fun i => existsb (Nat.eqb i) (d_indexs v)) (seq 0 (length (rows d))))).
  { apply incr_ext; [exact I|apply incr_where|]. intros i. rewrite In_where, nth_error_map, nth_error_seq. split.
    - intros H. pose proof H as H2. apply IN in H as (r & R & _). apply nth_error_Some_lt in R. destruct (Nat.ltb_spec i (length (rows d))); [|lia]. cbn [option_map Nat.add]. f_equal. apply existsb_exists. exists i. split; [exact H2|apply Nat.eqb_refl].
    - destruct (Nat.ltb_spec i (length (rows d))); cbn [option_map Nat.add]; [|discriminate]. intros H'. apply Some_inj in H'. apply existsb_exists in H' as (j & J & E). apply Nat.eqb_eq in E. now subst. }
  rewrite W in L. revert L. generalize (map (fun i => existsb (Nat.eqb i) (d_indexs v)) (seq 0 (length (rows d)))). clear. intros m.
  intros L. apply gather_Some in L as (LL & LN).
  assert (G : forall (rs : list row) k m l, length l = length (where_from k m) -> (forall q i, nth_error (where_from k m) q = Some i -> exists a, nth_error rs (i - k) = Some a /\ nth_error l q = Some a) -> select m rs = l).
  { clear. intros rs. induction rs as [|r rs IH]; intros k m l L N.
    - assert (E : where_from k m = []). { destruct (where_from k m) as [|i w]; [reflexivity|]. destruct (N 0 i eq_refl) as (a & A & _). destruct (i - k); discriminate. }
      rewrite E in L. destruct l; [|discriminate]. destruct m as [|[] m]; reflexivity.
    - destruct m as [|x m]; cbn [where_from select] in *; [destruct l; [reflexivity|discriminate]|].
      assert (T : forall i, In i (where_from (S k) m) -> S k <= i) by (intros i H; apply In_where_from in H; lia).
      destruct x; cbn in *.
      + destruct l as [|a l]; [discriminate|]. cbn in L. destruct (N 0 k eq_refl) as (a' & A1 & A2). cbn in A2. apply Some_inj in A2. subst a'. rewrite Nat.sub_diag in A1. cbn in A1. apply Some_inj in A1. subst a.
        f_equal. apply (IH (S k)); [lia|]. intros q i H. destruct (N (S q) i H) as (a & A1 & A2). cbn in A2. specialize (T i (nth_error_In _ _ H)).
        replace (i - k) with (S (i - S k)) in A1 by lia. cbn in A1. eauto.
      + apply (IH (S k)); [exact L|]. intros q i H. destruct (N q i H) as (a & A1 & A2). specialize (T i (nth_error_In _ _ H)). replace (i - k) with (S (i - S k)) in A1 by lia. cbn in A1. eauto. }
  apply (G (rows d) 0); [exact LL|]. intros q i H. rewrite Nat.sub_0_r. apply LN, H.
Qed.
(** One row of a track at a date. *)
Definition one_by_date (d : dataset) : Prop :=
  forall i j r s, nth_error (rows d) i = Some r -> nth_error (rows d) j = Some s -> track r = track s -> (time r == time s)%Q -> i = j.
Theorem C141_texts_drawn : forall ds p b st0 l st, Forall good ds -> Forall one_by_date ds -> start ds p b = Some st0 -> run ds p st0 l = Some st ->
  exists ls, Forall2 (fun dv r => gather (rows (fst dv)) (d_indexs (snd dv)) = Some r) (combine ds (views st)) ls /\ texts st = texts_of (concat ls).
Proof.
  intros ds p b st0 l st G U S0 H. destruct (start_right ds p b G) as (st1 & S1 & R0 & _). rewrite S0 in S1. apply Some_inj in S1. subst st1.
  destruct (run_right _ _ _ _ _ _ G R0 H) as (b1 & R1 & ts & (ls & L1 & L2) & T). exists ls. split; [exact L1|]. rewrite T, L2. f_equal. clear T L2 H R0 S0 G.
  revert ls L1 U. induction R1 as [|d v ds vs S R IH]; intros ls L1 U; cbn [combine] in *.
  - inversion L1; subst. reflexivity.
  - inversion L1 as [|x y lx ly X1 X2]; subst. inversion U as [|? ? U1 U2]; subst. cbn [combine map concat fst snd] in *. rewrite (of_tracks_now _ _ _ _ _ S X1 U1), (IH _ X2 U2). reflexivity.
Qed.
Print Assumptions C141_texts_drawn.

(** ** Pointing *)
(** With contours of 50 points, the row found for a point of the line of
    contours is the row whose contour holds the point. *)
Lemma gather_Forall : forall {A} (P : A -> Prop) l ix r, gather l ix = Some r -> Forall P l -> Forall P r.
Proof.
  intros A P l ix r H F. apply gather_Some in H as (L & N). apply Forall_forall. intros x X. apply In_nth_error in X as (k & X).
  destruct (nth_error_lt_Some ix k) as (i & E); [rewrite <- L; eapply nth_error_Some_lt; exact X|]. destruct (N k i E) as (a & A1 & A2). rewrite X in A2. apply Some_inj in A2. subst a.
  rewrite Forall_forall in F. apply F. eapply nth_error_In. exact A1.
Qed.
Theorem C141_pointed : forall b t d v ind pt, good d -> has_s d = true -> nb_s d = 50 -> shows b t d v -> nth_error (contour_s v) ind = Some (Val pt) ->
  exists r, pointed d v ind = Some r /\ nth_error (speed r) (ind mod 51) = Some pt /\ inside b r /\ (time r == t)%Q.
Proof.
  intros b t d v ind pt (NE & G & F) HS N (I & IN & l & L & C & _) H. unfold contours_of in C. rewrite HS, N in C.
  pose proof (gather_Forall _ _ _ _ L F) as FL. pose proof L as L'. apply gather_Some in L' as (LL & LN).
  assert (FM : Forall (fun r : list (Q * Q) => length r = 50) (map speed l)).
  { apply Forall_forall. intros x X. apply in_map_iff in X as (r & <- & X). rewrite Forall_forall in FL. destruct (FL r X) as (E & _). congruence. }
  destruct l as [|r0 l0] eqn:EL; [cbn in C; rewrite C in H; destruct ind; discriminate|].
  assert (LEN : 1 <= length l) by (rewrite EL; cbn; lia). rewrite <- EL in *. clear EL r0 l0.
  assert (C' : contour_s v = ob_cells (flatten_line_matrix 50 (map speed l))) by (destruct l; [cbn in LEN; lia|exact C]). rewrite C' in H.
  destruct (C18_flatten_content _ 50 (map speed l) FM) as (F1 & F2 & F3); [rewrite map_length; lia|]. rewrite map_length in F1, F3.
  set (o := ob_cells (flatten_line_matrix 50 (map speed l))) in *. clearbody o.
  pose proof (nth_error_Some_lt _ _ _ H) as K. pose proof (Nat.div_mod ind 51 ltac:(lia)) as DM. pose proof (Nat.mod_upper_bound ind 51 ltac:(lia)) as MB.
  set (i := ind / 51) in *. set (j := ind mod 51) in *.
  assert (IL : i < length l) by nia.
  assert (JL : j < 50).
  { destruct (Nat.eq_dec j 50) as [E|]; [|lia]. exfalso. destruct (Nat.eq_dec (S i) (length l)) as [E2|E2]; [nia|]. specialize (F3 i ltac:(lia)). replace (i * (50 + 1) + 50) with ind in F3 by lia. rewrite H in F3. discriminate. }
  destruct (nth_error_lt_Some l i IL) as (r & R). destruct (nth_error_lt_Some (d_indexs v) i) as (q & E); [lia|]. destruct (LN i q E) as (r' & A1 & A2). rewrite R in A2. apply Some_inj in A2. subst r'.
  exists r. unfold pointed. fold i. rewrite E. cbn [bind]. split; [exact A1|].
  assert (LR : length (speed r) = 50) by (rewrite Forall_forall in FL; destruct (FL r (nth_error_In _ _ R)); congruence).
  destruct (nth_error_lt_Some (speed r) j) as (pt' & PT); [lia|]. specialize (F2 i (speed r) j pt'). rewrite nth_error_map, R in F2. specialize (F2 eq_refl PT).
  replace (i * (50 + 1) + j) with ind in F2 by lia. rewrite H in F2. injection F2 as ->. split; [exact PT|].
  apply nth_error_In in E. apply IN in E as (r' & R' & X). rewrite A1 in R'. apply Some_inj in R'. subst r'. exact X.
Qed.
Print Assumptions C141_pointed.
(** With any other number of points, as soon as two contours are drawn, a point
    of one of them gives another row, or no row. *)
Theorem C141_pointed_50_refuted : forall b t d v, good d -> has_s d = true -> 1 <= nb_s d -> nb_s d <> 50 -> shows b t d v -> 2 <= length (d_indexs v) ->
  exists k i r j pt ind, nth_error (d_indexs v) k = Some i /\ nth_error (rows d) i = Some r /\ nth_error (speed r) j = Some pt /\
    ind = k * (nb_s d + 1) + j /\ nth_error (contour_s v) ind = Some (Val pt) /\ nth_error (d_indexs v) (ind / 51) <> Some i.
Proof.
  intros b t d v (NE & G & F) HS N1 N (I & IN & l & L & C & _) TWO. unfold contours_of in C. rewrite HS in C.
  pose proof (gather_Forall _ _ _ _ L F) as FL. pose proof L as L'. apply gather_Some in L' as (LL & LN). set (n := nb_s d) in *.
  assert (FM : Forall (fun r : list (Q * Q) => length r = n) (map speed l)).
  { apply Forall_forall. intros x X. apply in_map_iff in X as (r & <- & X). rewrite Forall_forall in FL. destruct (FL r X) as (E & _). exact E. }
  destruct (C18_flatten_content _ n (map speed l) FM) as (_ & F2 & _); [rewrite map_length; lia|].
  assert (C' : contour_s v = ob_cells (flatten_line_matrix n (map speed l))) by (destruct l; [cbn in LL; lia|exact C]). rewrite <- C' in F2. clear C C'.
  assert (X : exists k j, k < 2 /\ j < n /\ (k * (n + 1) + j) / 51 <> k).
  { destruct (Nat.lt_ge_cases n 50) as [H|H]; [|destruct (Nat.eq_dec n 51) as [H'|H']].
    - exists 1, 0. split; [lia|]. split; [lia|]. rewrite Nat.div_small; lia.
    - exists 1, 50. rewrite H'. split; [lia|]. split; [lia|]. cbn. lia.
    - exists 0, 51. split; [lia|]. split; [lia|]. cbn. lia. }
  destruct X as (k & j & K & J & X). destruct (nth_error_lt_Some (d_indexs v) k) as (i & E); [lia|]. destruct (LN k i E) as (r & R1 & R2).
  assert (LR : length (speed r) = n) by (rewrite Forall_forall in FL; apply (FL r (nth_error_In _ _ R2))).
  destruct (nth_error_lt_Some (speed r) j) as (pt & PT); [lia|]. exists k, i, r, j, pt, (k * (n + 1) + j). repeat (split; [assumption || reflexivity|]).
  split; [apply (F2 k (speed r) j pt); [rewrite nth_error_map, R2; reflexivity|exact PT]|].
  intros E2. apply X. pose proof (incr_NoDup _ I) as ND. eapply (proj1 (NoDup_nth_error (d_indexs v)) ND); [eapply nth_error_Some_lt; exact E2|congruence].
Qed.
Print Assumptions C141_pointed_50_refuted.
(** The rows whose dates and radii are given are the rows of the track. *)
Theorem C141_infos : forall b t d v ind r, good d -> shows b t d v -> pointed d v ind = Some r ->
  infos d v ind = Some (r, filter (fun s => track s =? track r) (rows d)).
Proof.
  intros b t d v ind r (NE & G & F) S P. unfold infos. rewrite P. cbn [bind].
  destruct (C21_index_tables (map track (rows d))) as (index & number & E & L1 & L2 & T); [intros E; apply map_eq_nil in E; contradiction|exact G|].
  assert (IR : In r (rows d)). { unfold pointed in P. destruct (nth_error (d_indexs v) (ind / 51)); [|discriminate]. cbn in P. eapply nth_error_In. exact P. }
  assert (IT : In (track r) (map track (rows d))) by (apply in_map, IR).
  destruct (T (track r)) as (f & F1 & F2 & _ & F3); [apply (list_max_ge _ _ IT)|]. rewrite E. cbn [bind fst snd]. rewrite F2. cbn [bind]. rewrite F1. cbn [bind]. do 2 f_equal.
  apply In_nth_error in IR as (k & K). set (c := count (track r) (map track (rows d))) in *.
  assert (K' : nth_error (map track (rows d)) k = Some (track r)) by (rewrite nth_error_map, K; reflexivity). apply F3 in K' as K2.
  assert (F0 : (0 <= f)%Z).
  { assert (CP : c >= 1) by (unfold c, count; apply (proj1 (count_occ_In Nat.eq_dec _ _)), IT).
    destruct (Z.neg_nonneg_cases f) as [C|]; [|lia]. exfalso.
    assert (A : forall m, (f + Z.of_nat c = Z.of_nat m)%Z -> False); [|apply (A (Z.to_nat (f + Z.of_nat c))); lia].
    intros m M. assert (LC : length (filter (fun i => match nth_error (map track (rows d)) i with Some x => x =? track r | None => false end) (seq 0 (length (map track (rows d))))) = c).
    { unfold c, count. generalize (map track (rows d)). clear. intros l. induction l as [|a l IH] using rev_ind; [reflexivity|]. rewrite app_length. cbn [length].
      rewrite Nat.add_1_r, seq_S, filter_app, app_length, count_occ_app. cbn [Nat.add filter]. rewrite nth_error_app2, Nat.sub_diag by lia. cbn [nth_error count_occ].
      rewrite <- IH. f_equal.
      - f_equal. apply filter_ext_in. intros i H. apply in_seq in H. rewrite nth_error_app1 by lia. reflexivity.
      - destruct (Nat.eqb_spec a (track r)); destruct (Nat.eq_dec a (track r)); try congruence; reflexivity. }
    assert (LE : length (filter (fun i => match nth_error (map track (rows d)) i with Some x => x =? track r | None => false end) (seq 0 (length (map track (rows d))))) <= length (seq 0 m)).
    { apply NoDup_incl_length; [apply NoDup_filter, seq_NoDup|]. intros i H. apply filter_In in H as (_ & H). destruct (nth_error (map track (rows d)) i) as [x|] eqn:X; [|discriminate]. apply Nat.eqb_eq in H. subst x. apply F3 in X. apply in_seq. lia. }
    rewrite LC, seq_length in LE. lia. }
  assert (BD : (f + Z.of_nat c <= Z.of_nat (length (rows d)))%Z).
  { destruct (Z.le_gt_cases (f + Z.of_nat c) (Z.of_nat (length (rows d)))) as [|C]; [assumption|exfalso].
    assert (X : nth_error (map track (rows d)) (Z.to_nat (f + Z.of_nat c - 1)) = Some (track r)) by (apply F3; lia). apply nth_error_Some_lt in X. rewrite map_length in X. lia. }
  apply Iter_props.slice_filter. intros i x X.
  assert (PB : forall z, (0 <= z <= Z.of_nat (length (rows d)))%Z -> pybound (length (rows d)) z = Z.to_nat z). { intros z Z0. unfold pybound. destruct (Z.ltb_spec z 0); [lia|]. lia. }
  rewrite !PB by lia. specialize (F3 i). rewrite nth_error_map, X in F3. cbn [option_map] in F3. rewrite Nat.eqb_eq. split.
  - intros E'. rewrite E' in F3. destruct F3 as (F3 & _). specialize (F3 eq_refl). lia.
  - intros H. destruct F3 as (_ & F3). specialize (F3 ltac:(lia)). apply Some_inj in F3. exact F3.
Qed.
Print Assumptions C141_infos.

(** ** The annotation *)
(** After the pointer moved over the map, the annotation is on the figure
    exactly when the last dataset is under the pointer. *)
Theorem C141_note : forall ds p b st0 l inds st, Forall good ds -> start ds p b = Some st0 -> run ds p st0 (l ++ [Move_map inds]) = Some st ->
  (visible st = true <-> exists i, last inds None = Some i).
Proof.
  intros ds p b st0 l inds st G S0 H.
  assert (INV : forall l s, run ds p st0 l = Some s -> bg s = visible s).
  { clear l st H. destruct (start_right ds p b G) as (st1 & S1 & _ & _ & _ & _ & _ & V & B). rewrite S0 in S1. apply Some_inj in S1. subst st1.
    assert (X : bg st0 = visible st0) by congruence. clear V B S0. intros l. revert st0 X. induction l as [|e l IH]; intros st X s H; cbn in H; [apply Some_inj in H; now subst|].
    destruct (step ds p st e) as [s'|] eqn:E; [|discriminate]. cbn in H. refine (IH s' _ s H). clear IH H.
    assert (UPD : forall s0 s1, update ds s0 = Some s1 -> bg s0 = visible s0 -> bg s1 = visible s1).
    { intros s0 s1 U Y. unfold update in U. destruct (update_all _ _ _ _); [|discriminate]. cbn in U. apply Some_inj in U. subst. exact Y. }
    destruct e as [k| |onmap up|online|x|is| |r bx|r]; cbn [step] in E.
    - eapply UPD; [exact E|exact X].
    - apply Some_inj in E. now subst.
    - destruct onmap; [eapply UPD; [exact E|exact X]|apply Some_inj in E; now subst].
    - apply Some_inj in E. subst. destruct online; exact X.
    - apply Some_inj in E. subst. destruct (press st); exact X.
    - unfold move_map in E. destruct is as [|o is]; [discriminate|]. revert E. destruct (existsb _ _); [destruct (visible st) eqn:VS|]; rewrite ?X, ?VS;
        match goal with |- context [if ?f then (false, false) else _] => destruct f end; intros E; apply Some_inj in E; subst; cbn; congruence.
    - destruct (press st); [eapply UPD; [exact E|exact X]|apply Some_inj in E; now subst].
    - destruct (end_pan r bx); [|discriminate]. cbn in E. apply Some_inj in E. now subst.
    - destruct (end_pan r (bbox st)); [|discriminate]. cbn in E. apply Some_inj in E. now subst. }
  rewrite run_app in H. destruct (run ds p st0 l) as [s|] eqn:R; [|discriminate]. specialize (INV l s R). cbn [bind run step] in H.
  destruct (move_map inds s) as [s'|] eqn:E; [|discriminate]. cbn in H. apply Some_inj in H. subst s'. unfold move_map in E. destruct inds as [|o inds]; [discriminate|].
  assert (LI : last (o :: inds) None = None \/ In (last (o :: inds) None) (o :: inds)) by (right; clear; revert o; induction inds as [|a l IH]; intros o; [now left|right; apply IH]).
  destruct (last (o :: inds) None) as [i|] eqn:LA.
  - assert (EX : existsb (fun o => match o with Some _ => true | None => false end) (o :: inds) = true).
    { apply existsb_exists. exists (Some i). destruct LI as [LI|LI]; [discriminate|]. auto. }
    rewrite EX in E. destruct (visible s) eqn:V; cbn [negb andb] in E; apply Some_inj in E; subst st; cbn; split; eauto.
  - destruct (existsb _ _); [destruct (visible s) eqn:V|]; rewrite ?INV, ?V in E; cbn [negb andb] in E.
    + apply Some_inj in E. subst st. cbn. split; [discriminate|intros (i & C); discriminate].
    + apply Some_inj in E. subst st. cbn. split; [discriminate|intros (i & C); discriminate].
    + destruct (visible s) eqn:V; cbn in E; apply Some_inj in E; subst st; cbn; (split; [discriminate|intros (i & C); discriminate]).
Qed.
Print Assumptions C141_note.

(** ** A case *)
Definition circle (n : nat) (x y : Q) : list (Q * Q) := map (fun i => (x + inject_Z (Z.of_nat i), y)%Q) (seq 0 n).
Definition ex_row (n : nat) (x y t : Q) (k o : nat) : row := {| px := x; py := y; time := t; track := k; obs_n := o; speed := circle n x y; eff := [] |}.
Definition ex_set (n : nat) : dataset :=
  {| rows := [ex_row n 1 1 5 0 0; ex_row n 2 1 6 0 1; ex_row n 3 1 7 0 2; ex_row n 9 9 6 1 0; ex_row n 9 9 7 1 1; ex_row n 4 4 6 3 7]; nb_s := n; nb_e := 0; has_s := true; has_e := false |}.
Definition ex_box : box := {| x0 := 0; x1 := 8; y0 := 0; y1 := 8 |}.
Lemma ex_good : forall n, good (ex_set n).
Proof.
  intros n. split; [discriminate|]. split.
  - intros i j k t IJ JK. cbn. do 6 (destruct i as [|i]; [do 7 (destruct k as [|k]; [try lia; do 6 (destruct j as [|j]; [try lia; cbn; congruence|]); lia|]); destruct k; discriminate|]). destruct i; discriminate.
  - repeat constructor; unfold circle, ex_row; cbn [speed eff nb_s ex_set nb_e]; unfold circle; rewrite map_length, seq_length; reflexivity.
Qed.
Lemma ex_one : forall n, one_by_date (ex_set n).
Proof.
  intros n i j r s. cbn. do 6 (destruct i as [|i]; [do 6 (destruct j as [|j]; [cbn; intros H1 H2; apply Some_inj in H1; apply Some_inj in H2; subst r s; cbn; intros T C; try reflexivity; try discriminate; try (apply Qeq_bool_iff in C; discriminate)|]); destruct j; discriminate|]). destruct i; discriminate.
Qed.
Definition ex_run (n : nat) (l : list event) : option state := bind (start [ex_set n] (5, 7)%Q ex_box) (fun s => run [ex_set n] (5, 7)%Q s l).
Example C141_case : option_map (fun s => (Qred (now s), map d_indexs (views s), map (fun v => Generic_proofs.values (path_previous v)) (views s), map (fun v => Generic_proofs.values (path_future v)) (views s), map obs_n (texts s))) (ex_run 3 [Key Down; Pan 1 {| x0 := 0; x1 := 20; y0 := 0; y1 := 10 |}; Key Up; Scroll true false])
  = Some (6%Q, [[1; 3; 5]], [[(1, 1); (2, 1); (9, 9); (4, 4)]%Q], [[(2, 1); (3, 1); (9, 9); (9, 9); (4, 4)]%Q], [1; 0; 7]).
Proof. vm_compute. reflexivity. Qed.
(** A pan alone draws nothing anew: the rows now in the box appear at the next
    change of date. *)
Theorem C141_pan_stale_refuted : option_map (fun s => map d_indexs (views s)) (ex_run 3 [Key Down; Pan 1 {| x0 := 0; x1 := 20; y0 := 0; y1 := 10 |}]) = Some [[1; 5]] /\
  option_map (fun s => indexs (bbox s) (now s) (ex_set 3)) (ex_run 3 [Key Down; Pan 1 {| x0 := 0; x1 := 20; y0 := 0; y1 := 10 |}]) = Some [1; 3; 5].
Proof. vm_compute. split; reflexivity. Qed.
(** Two datasets, the pointer over a contour of the first one only: the
    annotation is hidden. *)
Theorem C141_note_refuted : option_map visible (bind (start [ex_set 3; ex_set 3] (5, 7)%Q ex_box) (fun s => run [ex_set 3; ex_set 3] (5, 7)%Q s [Move_map [Some 2; Some 1]; Move_map [Some 2; None]])) = Some false.
Proof. vm_compute. reflexivity. Qed.
(** Contours of 20 points: the first point of the second contour gives the
    first row; contours of 60 points: the last point of a single contour gives
    no row at all (IndexError). *)
Theorem C141_pointed_refuted :
  option_map (fun s => map (fun v => (nth_error (contour_s v) 21, option_map px (pointed (ex_set 20) v 21))) (views s)) (ex_run 20 [Key Down]) = Some [(Some (Val (4, 4)%Q), Some 2%Q)] /\
  option_map (fun s => map (fun v => (nth_error (contour_s v) 59, pointed (ex_set 60) v 59)) (views s)) (ex_run 60 []) = Some [(Some (Val (62, 1)%Q), None)].
Proof. vm_compute. split; reflexivity. Qed.
(** All the dates before 1950-01-01: the viewer starts at this day, where
    there is nothing to draw. *)
Definition ex_old : dataset := {| rows := [ex_row 3 1 1 (-5) 0 0; ex_row 3 1 1 (-4) 0 1]; nb_s := 3; nb_e := 0; has_s := true; has_e := false |}.
Theorem C141_old_dates_refuted : set_initial_values [ex_old] = Some (-5, 0)%Q /\
  option_map (fun s => map d_indexs (views s)) (start [ex_old] (-5, 0)%Q ex_box) = Some [[]].
Proof. vm_compute. split; reflexivity. Qed.
Example C141_period_case : set_initial_values [ex_set 3] = Some (5, 7)%Q. Proof. vm_compute. reflexivity. Qed.
Example C141_pan_case : option_map (fun b => (Qred (x0 b), Qred (x1 b), Qred (y0 b), Qred (y1 b))) (end_pan 2 ex_box) = Some (-4, 12, 0, 8)%Q. Proof. vm_compute. reflexivity. Qed.
(** 60 rows numbered 0 to 59: 50 texts.  The same numbers but at most 5: the 55
    rows numbered 5 have their text. *)
Example C141_texts_case : length (texts_of (map (fun k => ex_row 1 1 1 1 k k) (seq 0 60))) = 50 /\ length (texts_of (map (fun k => ex_row 1 1 1 1 k (Nat.min k 5)) (seq 0 60))) = 55.
Proof. vm_compute. split; reflexivity. Qed.
