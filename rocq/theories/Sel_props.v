(** Properties of the selections of observations (C95, C96, C97, C98). *)
From Coq Require Import List Arith ZArith QArith Qround Bool Lia Lqa.
From Verif Require Import Base Qaux Spec Sel_model Sel_spec Sel_proofs.
Import ListNotations.
Local Close Scope Q_scope.
Local Open Scope nat_scope.

(** ** C95: selection by area *)

(** The observations strictly inside the area are kept, in their order and with
    all their fields; a latitude which is not given is -90 or 90. *)
Theorem C95_area : forall {A} (lon lat : A -> Q) rows a x0 x1, llcrnrlon a = Some x0 -> urcrnrlon a = Some x1 ->
  exists out, extract_with_area lon lat rows a = Some out /\
    picks (fun _ r => in_box x0 (match llcrnrlat a with Some y => y | None => (-90)%Q end) x1 (match urcrnrlat a with Some y => y | None => 90%Q end) (lon r) (lat r)) rows out.
Proof.
  intros A lon lat rows a x0 x1 E0 E1. unfold extract_with_area. rewrite E0, E1. cbn [bind]. eexists. split; [reflexivity|].
  apply extract_filter_picks. intros r. apply in_area_spec.
Qed.
Print Assumptions C95_area.
(** An area across longitude 0, observations on both sides and one turn away. *)
Example C95_area_ex : extract_with_area fst snd [(359, 1); (1, 1); (-359, 3); (20, 1); (721, 4); (5, 50)]%Q
   {| llcrnrlon := Some 350%Q; llcrnrlat := Some 0%Q; urcrnrlon := Some 370%Q; urcrnrlat := None |} = Some [(359, 1); (1, 1); (-359, 3); (721, 4); (5, 50)]%Q.
Proof. reflexivity. Qed.

(** The selection does not depend on the turn in which longitudes are given,
    neither for the area nor for each observation. *)
Theorem C95_turn : forall {A} (lon lon' lat : A -> Q) (turns : A -> Z) rows x0 y0 x1 y1 k,
  (forall r, lon' r = lon r + 360 * inject_Z (turns r))%Q ->
  extract_with_area lon' lat rows {| llcrnrlon := Some (x0 + 360 * inject_Z k)%Q; llcrnrlat := y0; urcrnrlon := Some (x1 + 360 * inject_Z k)%Q; urcrnrlat := y1 |} =
  extract_with_area lon lat rows {| llcrnrlon := Some x0; llcrnrlat := y0; urcrnrlon := Some x1; urcrnrlat := y1 |}.
Proof.
  intros A lon lon' lat turns rows x0 y0 x1 y1 k H. unfold extract_with_area. cbn [bind llcrnrlon llcrnrlat urcrnrlon urcrnrlat]. do 2 f_equal.
  apply map_ext. intros r. rewrite H. apply in_area_turn.
Qed.
Print Assumptions C95_turn.
Example C95_turn_ex : extract_with_area (fun r => fst r + 360 * inject_Z 2)%Q snd [(359, 1); (1, 1); (20, 1)]%Q
   {| llcrnrlon := Some (350 + 360 * inject_Z (-1))%Q; llcrnrlat := None; urcrnrlon := Some (370 + 360 * inject_Z (-1))%Q; urcrnrlat := None |} = Some [(359, 1); (1, 1)]%Q.
Proof. reflexivity. Qed.

(** An area at most one turn wide cut at a meridian: each observation of the
    area is in one part or on the meridian, where it is in neither part. *)
Theorem C95_cut : forall {A} (lon lat : A -> Q) rows x0 xm x1 y0 y1, (x0 < xm)%Q -> (xm < x1)%Q -> (x1 <= x0 + 360)%Q ->
  exists whole west east meridian,
    extract_with_area lon lat rows {| llcrnrlon := Some x0; llcrnrlat := Some y0; urcrnrlon := Some x1; urcrnrlat := Some y1 |} = Some whole /\
    extract_with_area lon lat rows {| llcrnrlon := Some x0; llcrnrlat := Some y0; urcrnrlon := Some xm; urcrnrlat := Some y1 |} = Some west /\
    extract_with_area lon lat rows {| llcrnrlon := Some xm; llcrnrlat := Some y0; urcrnrlon := Some x1; urcrnrlat := Some y1 |} = Some east /\
    picks (fun _ r => (y0 < lat r /\ lat r < y1)%Q /\ on_meridian xm (lon r)) rows meridian /\
    length whole = length west + length east + length meridian.
Proof.
  intros A lon lat rows x0 xm x1 y0 y1 H0 H1 HW. unfold extract_with_area. cbn [bind get llcrnrlon llcrnrlat urcrnrlon urcrnrlat]. rewrite !extract_map.
  set (pm := fun r : A => Qlt_bool y0 (lat r) && Qlt_bool (lat r) y1 && Qeq_bool (Qmod (lon r - xm) 360) 0).
  assert (PM : forall r, pm r = true <-> (y0 < lat r /\ lat r < y1)%Q /\ on_meridian xm (lon r)).
  { intros r. unfold pm. rewrite !andb_true_iff, !Qlt_bool_iff. rewrite Qeq_bool_iff. destruct (Qmod_range (lon r - xm) 360) as [M0 M1]; [lra|]. destruct (Qmod_cong (lon r - xm) 360) as [k K].
    set (q := Qmod (lon r - xm) 360) in *. clearbody q. split; intros [Y Z]; (split; [exact Y|]).
    - exists k. lra.
    - destruct Z as [j J]. assert (E : (q == 0)%Q); [|exact E]. apply (Qcong_unique 360 0); [lra|lra|lra|]. exists (k - j)%Z. unfold Zminus. rewrite inject_Z_plus, inject_Z_opp. lra. }
  exists (filter (fun r => in_area y0 y1 x0 x1 (lon r) (lat r)) rows), (filter (fun r => in_area y0 y1 x0 xm (lon r) (lat r)) rows), (filter (fun r => in_area y0 y1 xm x1 (lon r) (lat r)) rows), (filter pm rows).
  do 3 (split; [reflexivity|]). split; [apply filter_picks, PM|]. apply filter_count3. intros r.
  pose proof (in_area_spec y0 y1 x0 x1 (lon r) (lat r)) as W. pose proof (in_area_spec y0 y1 x0 xm (lon r) (lat r)) as WW. pose proof (in_area_spec y0 y1 xm x1 (lon r) (lat r)) as WE. specialize (PM r).
  assert (U : forall i j : Z, (-360 < (360 * inject_Z i) - (360 * inject_Z j) < 360)%Q -> i = j).
  { intros i j [U0 U1]. assert ((inject_Z i < inject_Z (j + 1))%Q) by (rewrite inject_Z_plus; change (inject_Z 1) with 1%Q; lra).
    assert ((inject_Z j < inject_Z (i + 1))%Q) by (rewrite inject_Z_plus; change (inject_Z 1) with 1%Q; lra). rewrite <- Zlt_Qlt in *. lia. }
  destruct (in_area y0 y1 xm x1 (lon r) (lat r)), (in_area y0 y1 x0 xm (lon r) (lat r)), (pm r), (in_area y0 y1 x0 x1 (lon r) (lat r)); auto; exfalso;
  (* false cases *)
  try (destruct (proj1 W eq_refl) as [Y (k & X0 & X1 & X2)]);
  try (destruct (proj1 WW eq_refl) as [Y' (k' & X0' & X1' & X2')]);
  try (destruct (proj1 WE eq_refl) as [Y'' (k'' & X0'' & X1'' & X2'')]);
  try (destruct (proj1 PM eq_refl) as [Y3 (k3 & X3)]).
  all: try (assert (k = k') by (apply U; lra); subst; lra).
  all: try (assert (k' = k'') by (apply U; lra); subst; lra).
  all: try (assert (k'' = k3) by (apply U; lra); subst; lra).
  all: try (assert (k' = k3) by (apply U; lra); subst; lra).
  - discriminate (proj2 W (conj Y'' (ex_intro _ k'' (conj (Qlt_trans _ _ _ H0 X0'') (conj X1'' (Qlt_le_trans _ _ _ X1'' HW)))))).
  - assert (B : (lon r + 360 * inject_Z k' < x1)%Q) by lra. discriminate (proj2 W (conj Y' (ex_intro _ k' (conj X0' (conj B X2'))))).
  - assert (B : (x0 < lon r + 360 * inject_Z k3)%Q) by lra. assert (C : (lon r + 360 * inject_Z k3 < x1)%Q) by lra. assert (D : (lon r + 360 * inject_Z k3 < x0 + 360)%Q) by lra.
    discriminate (proj2 W (conj Y3 (ex_intro _ k3 (conj B (conj C D))))).
  - destruct (Qlt_le_dec (lon r + 360 * inject_Z k) xm) as [L|L].
    + discriminate (proj2 WW (conj Y (ex_intro _ k (conj X0 (conj L X2))))).
    + destruct (Qle_lt_or_eq _ _ L) as [M|M].
      * assert (D : (lon r + 360 * inject_Z k < xm + 360)%Q) by lra. discriminate (proj2 WE (conj Y (ex_intro _ k (conj M (conj X1 D))))).
      * discriminate (proj2 PM (conj Y (ex_intro _ k (Qeq_sym _ _ M)))).
Qed.
Print Assumptions C95_cut.
Example C95_cut_ex :
  extract_with_area fst snd [(1, 1); (10, 1); (15, 1); (370, 1)]%Q {| llcrnrlon := Some 0%Q; llcrnrlat := Some 0%Q; urcrnrlon := Some 20%Q; urcrnrlat := Some 2%Q |} = Some [(1, 1); (10, 1); (15, 1); (370, 1)]%Q /\
  extract_with_area fst snd [(1, 1); (10, 1); (15, 1); (370, 1)]%Q {| llcrnrlon := Some 0%Q; llcrnrlat := Some 0%Q; urcrnrlon := Some 10%Q; urcrnrlat := Some 2%Q |} = Some [(1, 1)]%Q /\
  extract_with_area fst snd [(1, 1); (10, 1); (15, 1); (370, 1)]%Q {| llcrnrlon := Some 10%Q; llcrnrlat := Some 0%Q; urcrnrlon := Some 20%Q; urcrnrlat := Some 2%Q |} = Some [(15, 1)]%Q.
Proof. repeat split. Qed.

(** The western edge is never selected, not even by an area of one turn or
    more, and neither are the poles when latitudes are not given. *)
Theorem C95_edge_refuted : forall {A} (lon lat : A -> Q) rows a x0 out r, llcrnrlon a = Some x0 -> extract_with_area lon lat rows a = Some out -> In r out ->
  ~ on_meridian x0 (lon r) /\ (llcrnrlat a = None -> ~ (lat r == -90)%Q) /\ (urcrnrlat a = None -> ~ (lat r == 90)%Q).
Proof.
  intros A lon lat rows a x0 out r E0 E I. unfold extract_with_area in E. rewrite E0 in E. cbn [bind] in E. destruct (urcrnrlon a) as [x1|]; [|discriminate E]. cbn [bind] in E. apply Some_inj in E. subst out.
  rewrite extract_map in I. apply filter_In in I as [_ I]. apply in_area_spec in I as [[Y0 Y1] (k & X0 & X1 & X2)]. split; [|split; intros N; rewrite N in *; cbn [get] in *; lra].
  intros (j & J). assert (V : (0 < 360 * inject_Z (k - j) < 360)%Q) by (unfold Zminus; rewrite inject_Z_plus, inject_Z_opp; lra).
  assert (L0 : (inject_Z 0 < inject_Z (k - j))%Q) by (change (inject_Z 0) with 0%Q; lra). assert (L1 : (inject_Z (k - j) < inject_Z 1)%Q) by (change (inject_Z 1) with 1%Q; lra).
  apply (proj1 (inject_Z_lt_iff _ _)) in L0. apply (proj1 (inject_Z_lt_iff _ _)) in L1. lia.
Qed.
Print Assumptions C95_edge_refuted.
(** The whole globe: two of four observations are lost. *)
Example C95_edge_refuted_ex : extract_with_area fst snd [(0, 1); (10, 1); (360, 20); (200, -5)]%Q {| llcrnrlon := Some 0%Q; llcrnrlat := None; urcrnrlon := Some 360%Q; urcrnrlat := None |} = Some [(10, 1); (200, -5)]%Q.
Proof. reflexivity. Qed.
(** An eastern edge written on a smaller longitude than the western one, as
    from 350 to 10, selects nothing; an absent longitude is an error. *)
Theorem C95_inverted_refuted : forall {A} (lon lat : A -> Q) rows x0 x1 y0 y1, (x1 <= x0)%Q ->
  extract_with_area lon lat rows {| llcrnrlon := Some x0; llcrnrlat := y0; urcrnrlon := Some x1; urcrnrlat := y1 |} = Some [].
Proof.
  intros A lon lat rows x0 x1 y0 y1 H. unfold extract_with_area. cbn [bind llcrnrlon urcrnrlon]. rewrite extract_map. f_equal.
  destruct (filter _ rows) as [|r l] eqn:F; [reflexivity|]. exfalso. assert (I : In r (r :: l)) by (left; reflexivity). rewrite <- F in I. apply filter_In in I as [_ I]. apply in_area_spec in I as [_ (k & X0 & X1 & _)]. lra.
Qed.
Print Assumptions C95_inverted_refuted.
Example C95_inverted_refuted_ex : extract_with_area fst snd [(355, 1); (5, 1)]%Q {| llcrnrlon := Some 350%Q; llcrnrlat := None; urcrnrlon := Some 10%Q; urcrnrlat := None |} = Some [].
Proof. reflexivity. Qed.

(** ** C96: sub sampling in time, first and last observations *)
Theorem C96_sub_sample : forall {A} (time : A -> Q) rows t0 step, ~ (step == 0)%Q ->
  exists out, time_sub_sample time rows t0 step = Some out /\ picks (fun _ r => exists k : Z, (time r == t0 + inject_Z k * step)%Q) rows out.
Proof.
  intros A time rows t0 step NZ. unfold time_sub_sample. destruct (Qeq_bool step 0) eqn:E; [apply Qeq_bool_iff in E; contradiction|]. eexists. split; [reflexivity|].
  apply extract_filter_picks. intros r. rewrite Qeq_bool_iff. unfold Qmod. split.
  - intros H. exists (Qfloor ((time r - t0) / step)). lra.
  - intros (k & K). assert (D : ((time r - t0) / step == inject_Z k)%Q) by (rewrite K; field; exact NZ). rewrite D, Qfloor_Z. lra.
Qed.
Print Assumptions C96_sub_sample.
Example C96_sub_sample_ex : time_sub_sample (fun t => t) [3; 4; 5; 10; 12; 17]%Q 5 7 = Some [5; 12]%Q /\ time_sub_sample (fun t => t) [3; 4; 5; 10; 12; 17]%Q 5 (-7) = Some [5; 12]%Q.
Proof. split; reflexivity. Qed.

(** When the observation number is zero exactly at the start of each track,
    first_obs keeps the first row of each track and last_obs the last one, so
    both give one row by track, in the same order of tracks. *)
Theorem C96_first_last : forall {A} (track n : A -> Z) rows, rows <> [] -> numbered track n rows ->
  picks (fun i _ => starts_track track rows i) rows (first_obs n rows) /\
  (exists out, last_obs n rows = Some out /\ picks (fun i _ => ends_track track rows i) rows out /\ map track out = map track (first_obs n rows)).
Proof.
  intros A track n rows NE NB. split.
  - unfold first_obs. apply extract_picks; [apply map_length|]. intros i r R. rewrite nth_error_map, R. cbn [option_map]. rewrite <- (NB i r R). destruct (Z.eqb_spec (n r) 0); split; congruence.
  - destruct rows as [|p rest]; [contradiction|]. rewrite last_obs_eq. eexists. split; [reflexivity|].
    assert (AD : forall i a b, nth_error (p :: rest) i = Some a -> nth_error (p :: rest) (S i) = Some b -> (n b = 0%Z <-> track a <> track b)).
    { intros i a b IA IB. rewrite (NB (S i) b IB). unfold starts_track. split; [intros H; exact (H i b a eq_refl IA IB)|].
      intros D j r r' J R' R. injection J as <-. congruence. }
    split.
    + rewrite <- extract_eq. apply extract_picks; [rewrite length_mark, app_length, repeat_length; cbn; lia|]. intros i r R.
      assert (LI : i <= length rest) by (apply nth_error_Some_lt in R; cbn in R; lia).
      destruct (Nat.eq_dec i (length rest)) as [->|D].
      * assert (N : nth_error (repeat false (length rest) ++ [true]) (length rest) = Some true) by (rewrite nth_error_app2, repeat_length, Nat.sub_diag; [reflexivity|rewrite repeat_length; lia]).
        rewrite (nth_mark _ (map n rest) _ _ N). split; [intros _|intros _; destruct (nth_error (map n rest) (length rest)) as [z|]; [destruct (z =? 0)%Z|]; reflexivity].
        intros q q' _ Q'. apply nth_error_Some_lt in Q'. cbn in Q'. lia.
      * assert (N : nth_error (repeat false (length rest) ++ [true]) i = Some false) by (rewrite nth_error_app1; [rewrite nth_error_repeat_lt|rewrite repeat_length; lia]; destruct (Nat.ltb_spec i (length rest)); [reflexivity|lia]).
        rewrite (nth_mark _ (map n rest) _ _ N). rewrite nth_error_map. destruct (nth_error_lt_Some rest i) as [r' R']; [lia|]. rewrite R'. cbn [option_map]. specialize (AD i r r' R R').
        unfold ends_track. destruct (Z.eqb_spec (n r') 0) as [Z|Z].
        -- split; [|reflexivity]. intros _ q q' Q Q'. cbn in Q'. assert (q = r) by congruence. assert (q' = r') by congruence. subst. apply AD, Z.
        -- split; [discriminate|]. intros H. exfalso. apply Z, AD, (H r r' R R').
    + rewrite <- (same_tracks track n rest p AD). unfold first_obs. rewrite extract_map. cbn [filter].
      assert (Z0 : n p = 0%Z). { apply (NB 0 p eq_refl). intros j r r' J. discriminate J. } rewrite Z0. reflexivity.
Qed.
Print Assumptions C96_first_last.
Example C96_first_last_ex : let rows := [(4, 0); (4, 1); (4, 2); (7, 0); (9, 0); (9, 1)]%Z in numbered fst snd rows /\ first_obs snd rows = [(4, 0); (7, 0); (9, 0)]%Z /\ last_obs snd rows = Some [(4, 2); (7, 0); (9, 1)]%Z.
Proof.
  split; [|split; reflexivity]. intros i r R. unfold starts_track.
  do 6 (destruct i as [|i]; [cbn in R; injection R as <-; cbn [snd]; split;
    [intros Z; first [discriminate Z|intros j q q' J Q' Q; first [discriminate J|injection J as <-; cbn in Q', Q; injection Q' as <-; injection Q as <-; discriminate]]
    |intros H; first [reflexivity|exfalso; exact (H _ _ _ eq_refl eq_refl eq_refl eq_refl)]]|]).
  cbn in R. destruct i; discriminate R.
Qed.
(** A track cut by a selection does not start at zero any more: first_obs loses
    it and last_obs loses the end of the track before it. *)
Theorem C96_cut_track_refuted : let rows := [(4, 0); (4, 1); (7, 3); (7, 4)]%Z in
  first_obs snd rows = [(4, 0)]%Z /\ last_obs snd rows = Some [(7, 4)]%Z /\ starts_track fst rows 2 /\ ends_track fst rows 1.
Proof.
  split; [reflexivity|]. split; [reflexivity|]. split.
  - intros j r r' J Q' Q. injection J as <-. cbn in Q', Q. injection Q' as <-. injection Q as <-. discriminate.
  - intros r r' Q Q'. cbn in Q', Q. injection Q' as <-. injection Q as <-. discriminate.
Qed.
Print Assumptions C96_cut_track_refuted.
(** Without observation first_obs is empty and last_obs fails. *)
Theorem C96_empty_refuted : forall {A} (n : A -> Z), first_obs n [] = [] /\ last_obs n [] = None.
Proof. split; reflexivity. Qed.
Print Assumptions C96_empty_refuted.
