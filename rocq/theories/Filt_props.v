(** Properties of the filters of regular grids. *)
From Coq Require Import List Arith ZArith QArith Qabs Bool Lia Lqa.
From Verif Require Import Base Qaux Spec Obs_model Obs_proofs Corr_model Grid_path Poly_pairs Filt_spec Filt_model Filt_proofs Filt_mean Filt_more.
Import ListNotations.
Local Close Scope Q_scope.
Local Open Scope nat_scope.

(** C99: every cell of the filtered grid is the mean of the values around it,
    weighted by the kernel of its latitude; lines above the highest latitude and
    lines without any value are masked. *)
Theorem C99_mean : forall circular data nx ny lats kernel lat_max extend,
  rect nx ny data -> length lats = ny -> kernels_ok circular nx lats lat_max kernel ->
  exists out, convolve circular data lats kernel lat_max extend = Some out /\ length out = ny /\ (forall line, In line out -> length line = nx) /\
    forall x y lat, x < nx -> nth_error lats y = Some lat -> exists c, cell_of out x y c /\
      ((lat_max < Qabs lat)%Q -> c = Masked) /\
      ((forall x', x' < nx -> value_at circular data (Z.of_nat x') (Z.of_nat y) = None) -> c = Masked) /\
      ((Qabs lat <= lat_max)%Q -> (exists x', x' < nx /\ value_at circular data (Z.of_nat x') (Z.of_nat y) <> None) ->
        forall K dx dy, kernel lat = Some K -> odd_kernel K dx dy -> mean_around circular data K dx dy extend x y c).
Proof. intros. apply convolve_spec; assumption. Qed.
Print Assumptions C99_mean.

Definition ex_kernel (lat : Q) : option (list (list Q)) := if Qlt_bool (Qabs lat) 10 then Some [[1; 2; 1]; [2; 4; 2]; [1; 2; 1]]%Q else None.
Definition ex_data : grid := [[Some 1; Some 2; None]; [Some 4; None; None]; [Some 7; Some 8; None]; [None; Some 3; None]]%Q.
Lemma ex_kernels_ok : forall circular, kernels_ok circular 4 [0; 1; 2]%Q 5 ex_kernel.
Proof.
  intros circular lat [<-|[<-|[<-|[]]]] _; exists [[1; 2; 1]; [2; 4; 2]; [1; 2; 1]]%Q, 1, 1; (split; [reflexivity|split; [|lia]]); (split; [lia|split; [reflexivity|]]); intros row [<-|[<-|[<-|[]]]]; reflexivity.
Qed.
(** On a circular grid of four columns, the cells of the first column see the
    last one; the masked cells stay masked. *)
Example C99_mean_ex :
  rect 4 3 ex_data /\ kernels_ok true 4 [0; 1; 2]%Q 5 ex_kernel /\
  match convolve true ex_data [0; 1; 2]%Q ex_kernel 5 None with
  | Some out => map (map (fun c => match c with Val q => Some (Qred q) | _ => None end)) out = [[Some (19 # 9); Some (21 # 5); Some (55 # 9); None]; [Some (20 # 9); None; Some (56 # 9); Some 4]; [None; None; None; None]]%Q
  | None => False
  end.
Proof. split; [split; [reflexivity|]; intros row [<-|[<-|[<-|[<-|[]]]]]; reflexivity|]. split; [apply ex_kernels_ok|]. vm_compute. reflexivity. Qed.

(** C99: a field with the same value everywhere is unchanged, whatever its mask
    and the kernels. *)
Theorem C99_constant : forall circular data nx ny lats kernel lat_max extend out v,
  rect nx ny data -> length lats = ny -> kernels_ok circular nx lats lat_max kernel ->
  convolve circular data lats kernel lat_max extend = Some out ->
  (forall x y u, value_at circular data x y = Some u -> (u == v)%Q) ->
  forall x y q, cell_of out x y (Val q) -> (q == v)%Q.
Proof.
  intros circular data nx ny lats kernel lat_max extend out v RD LY HK E H x y q C.
  destruct (convolve_val _ _ _ _ _ _ _ _ _ _ _ _ RD LY HK E C) as (_ & lat & K & dx & dy & _ & _ & _ & W & ->).
  rewrite (around_constant circular data K dx dy x y v H). field. exact W.
Qed.
Print Assumptions C99_constant.

(** C99: with a kernel without negative weights the filtered values stay between
    the bounds of the field. *)
Theorem C99_bounds : forall circular data nx ny lats kernel lat_max extend out lo hi,
  rect nx ny data -> length lats = ny -> kernels_ok circular nx lats lat_max kernel ->
  (forall lat K row w, kernel lat = Some K -> In row K -> In w row -> (0 <= w)%Q) ->
  convolve circular data lats kernel lat_max extend = Some out ->
  (forall x y u, value_at circular data x y = Some u -> (lo <= u /\ u <= hi)%Q) ->
  forall x y q, cell_of out x y (Val q) -> (lo <= q /\ q <= hi)%Q.
Proof.
  intros circular data nx ny lats kernel lat_max extend out lo hi RD LY HK HP E H x y q C.
  destruct (convolve_val _ _ _ _ _ _ _ _ _ _ _ _ RD LY HK E C) as (_ & lat & K & dx & dy & _ & EK & _ & W & Q1).
  destruct (around_bounds circular data K dx dy x y lo hi (fun row w => HP lat K row w EK) H) as (B0 & B1 & B2). rewrite Q1.
  set (w := around_weight circular data K dx dy x y) in *. set (s := around_sum circular data K dx dy x y) in *. clearbody w s.
  assert (P : (0 < w)%Q) by (destruct (Qlt_le_dec 0 w); [assumption|exfalso; apply W; lra]).
  split; [apply Qle_shift_div_l|apply Qle_shift_div_r]; lra.
Qed.
Print Assumptions C99_bounds.
Example C99_bounds_ex : forall out, convolve false ex_data [0; 1; 2]%Q ex_kernel 5 (Some (1 # 2)%Q) = Some out -> forall x y q, cell_of out x y (Val q) -> (1 <= q /\ q <= 8)%Q.
Proof.
  intros out E. apply (C99_bounds false ex_data 4 3 [0; 1; 2]%Q ex_kernel 5%Q (Some (1 # 2)%Q) out); auto.
  - split; [reflexivity|]. intros row [<-|[<-|[<-|[<-|[]]]]]; reflexivity.
  - apply ex_kernels_ok.
  - intros lat K row w EK. unfold ex_kernel in EK. destruct (Qlt_bool (Qabs lat) 10); [|discriminate EK]. injection EK as <-. intros [<-|[<-|[<-|[]]]] [<-|[<-|[<-|[]]]]; lra.
  - intros x y u. unfold value_at. destruct (_ || _); [discriminate|]. destruct (Z.to_nat x) as [|[|[|[|[|n]]]]]; cbn [ex_data nth_error]; try discriminate; destruct (Z.to_nat y) as [|[|[|[|m]]]]; cbn [nth_error]; try discriminate; intros U; injection U as <-; (split; discriminate).
Qed.

Lemma same_mean : forall circular data data' K dx dy extend x x' y c c',
  around_weight circular data K dx dy x y = around_weight circular data' K dx dy x' y -> around_sum circular data K dx dy x y = around_sum circular data' K dx dy x' y ->
  value_at circular data (Z.of_nat x) (Z.of_nat y) = value_at circular data' (Z.of_nat x') (Z.of_nat y) ->
  mean_around circular data K dx dy extend x y c -> mean_around circular data' K dx dy extend x' y c' -> same_cell c c'.
Proof.
  intros circular data data' K dx dy extend x x' y c c' EW ES EV (A1 & A2 & A3) (B1 & B2 & B3). rewrite EW in A1, A2, A3. rewrite ES in A3. rewrite EV in A1, A2, A3. cbv zeta in *.
  set (w := around_weight circular data' K dx dy x' y) in *. set (s := around_sum circular data' K dx dy x' y) in *.
  set (masked := match extend with None => _ | Some e => _ end) in *.
  assert (D : masked \/ ~ masked). { unfold masked. destruct extend as [e|]; [destruct (Qlt_le_dec w (e * total_weight K dx dy)); [left; assumption|right; lra]|]. destruct (value_at circular data' _ _); [right; discriminate|left; reflexivity]. }
  destruct D as [D|D]; [rewrite (A1 D), (B1 D); exact I|]. destruct (Qeq_dec w 0) as [Z|N]; [rewrite (A2 D Z), (B2 D Z); exact I|].
  destruct (A3 D N) as (q & -> & Q1). destruct (B3 D N) as (q' & -> & Q2). cbn. rewrite Q1, Q2. reflexivity.
Qed.
(** C99: on a circular grid the result does not depend on the column the grid
    starts with. *)
Theorem C99_turn : forall data nx ny lats kernel lat_max extend s out out',
  rect nx ny data -> length lats = ny -> kernels_ok true nx lats lat_max kernel -> s <= nx ->
  convolve true data lats kernel lat_max extend = Some out -> convolve true (turned s data) lats kernel lat_max extend = Some out' ->
  forall x y c c', cell_of out' x y c' -> cell_of out ((x + s) mod nx) y c -> same_cell c' c.
Proof.
  intros data nx ny lats kernel lat_max extend s out out' RD LY HK S E E' x y c c' C' C. pose proof RD as (L & _).
  destruct (convolve_spec true data nx ny lats kernel lat_max extend RD LY HK) as (o & Eo & LO & LL & H). rewrite E in Eo. apply Some_inj in Eo. subst o.
  destruct (convolve_spec true (turned s data) nx ny lats kernel lat_max extend (rect_turned _ _ _ _ S RD) LY HK) as (o & Eo & LO' & LL' & H'). rewrite E' in Eo. apply Some_inj in Eo. subst o.
  assert (XY : x < nx /\ y < ny). { destruct C' as (l & N & M). split; [rewrite <- (LL' l (nth_error_In _ _ N)); exact (nth_error_Some_lt _ _ _ M)|rewrite <- LO'; exact (nth_error_Some_lt _ _ _ N)]. }
  destruct XY as (X & Y). destruct (nth_error_lt_Some lats y) as (lat & NY); [lia|].
  assert (X2 : (x + s) mod nx < nx) by (apply Nat.mod_upper_bound; lia).
  destruct (H _ y lat X2 NY) as (c1 & C1 & H1 & H2 & H3). rewrite (cell_of_fun _ _ _ _ _ C C1). clear C c.
  destruct (H' x y lat X NY) as (c2 & C2 & H1' & H2' & H3'). rewrite (cell_of_fun _ _ _ _ _ C' C2). clear C' c'.
  assert (TV : forall a b, value_at true (turned s data) (Z.of_nat x + a) b = value_at true data (Z.of_nat ((x + s) mod nx) + a) b).
  { intros a b. rewrite turned_value by lia. rewrite <- (mod_value data (Z.of_nat x + a + Z.of_nat s)), <- (mod_value data (Z.of_nat ((x + s) mod nx) + a)). f_equal. rewrite L.
    rewrite Nat2Z.inj_mod, Zplus_mod_idemp_l. f_equal. lia. }
  destruct (Qlt_le_dec lat_max (Qabs lat)) as [Hl|Hl]; [rewrite (H1 Hl), (H1' Hl); exact I|].
  assert (EVx : forall x', x' < nx -> exists x'', x'' < nx /\ value_at true (turned s data) (Z.of_nat x'') (Z.of_nat y) = value_at true data (Z.of_nat x') (Z.of_nat y)).
  { intros x' X'. exists ((x' + (nx - s)) mod nx). split; [apply Nat.mod_upper_bound; lia|]. rewrite turned_value by lia. rewrite <- (mod_value data (Z.of_nat _ + _)). f_equal. rewrite L, Nat2Z.inj_mod, Zplus_mod_idemp_l.
    replace (Z.of_nat (x' + (nx - s)) + Z.of_nat s)%Z with (Z.of_nat x' + 1 * Z.of_nat nx)%Z by lia. rewrite Z_mod_plus_full. apply Z.mod_small. lia. }
  assert (D : forall n, (exists x', x' < n /\ value_at true data (Z.of_nat x') (Z.of_nat y) <> None) \/ forall x', x' < n -> value_at true data (Z.of_nat x') (Z.of_nat y) = None).
  { clear. induction n as [|n [(x' & L & V)|IH]]; [right; intros; lia|left; exists x'; split; [lia|exact V]|]. destruct (value_at true data (Z.of_nat n) (Z.of_nat y)) eqn:V; [left; exists n; split; [lia|rewrite V; discriminate]|]. right. intros x' L. destruct (Nat.eq_dec x' n) as [->|]; [exact V|apply IH; lia]. }
  destruct (D nx) as [(x' & X' & V)|N].
  - destruct (HK lat (nth_error_In _ _ NY) Hl) as (K & dx & dy & EK & OK & _).
    assert (M := H3 Hl (ex_intro _ x' (conj X' V)) K dx dy EK OK).
    assert (M' : mean_around true (turned s data) K dx dy extend x y c2). { apply H3'; auto. destruct (EVx x' X') as (x'' & X'' & V''). exists x''. split; [exact X''|]. rewrite V''. exact V. }
    refine (same_mean true (turned s data) data K dx dy extend x ((x + s) mod nx) y c2 c1 _ _ _ M' M).
    + unfold around_weight. apply over_eq. intros a b. rewrite TV. reflexivity.
    + unfold around_sum. apply over_eq. intros a b. rewrite TV. reflexivity.
    + specialize (TV 0%Z (Z.of_nat y)). rewrite !Z.add_0_r in TV. exact TV.
  - rewrite (H2 N). rewrite H2'; [exact I|]. intros x' X'. rewrite turned_value by lia. rewrite <- (mod_value data). rewrite L.
    replace ((Z.of_nat x' + Z.of_nat s) mod Z.of_nat nx)%Z with (Z.of_nat ((x' + s) mod nx)) by (rewrite Nat2Z.inj_mod, Nat2Z.inj_add; reflexivity). apply N. apply Nat.mod_upper_bound. lia.
Qed.
Print Assumptions C99_turn.
Example C99_turn_ex :
  match convolve true ex_data [0; 1; 2]%Q ex_kernel 5 None, convolve true (turned 3 ex_data) [0; 1; 2]%Q ex_kernel 5 None with
  | Some out, Some out' => exists q q', cell_of out' 3 0 (Val q') /\ cell_of out ((3 + 3) mod 4) 0 (Val q) /\ (q' == q)%Q
  | _, _ => False
  end.
Proof. vm_compute. do 2 eexists. split; [eexists; split; reflexivity|]. split; [eexists; split; reflexivity|]. reflexivity. Qed.

Lemma minus_columns_nth : forall a b x y c d, cell_of a x y c -> cell_of b x y d -> cell_of (minus_columns a b) x y (minus c d).
Proof.
  intros a b x y c d (l & N & M) (l' & N' & M'). unfold minus_columns. exists (map (fun q => minus (fst q) (snd q)) (combine l l')).
  rewrite nth_error_map, (nth_combine_some _ _ _ _ _ N N'). split; [reflexivity|]. rewrite nth_error_map, (nth_combine_some _ _ _ _ _ M M'). reflexivity.
Qed.
Lemma columns_spec : forall (data : grid) nx ny, rect nx ny data -> exists d, columns data ny = Some d /\ length d = ny /\ forall x y, x < nx -> y < ny -> cell_of d x y (of_data (value_at false data (Z.of_nat x) (Z.of_nat y))).
Proof.
  intros data nx ny RD. unfold columns. destruct (sequence_total (column data) (seq 0 ny)) as (cs & E).
  { intros i I. apply in_seq in I. destruct (column_spec data nx ny i RD) as (col & -> & _); [lia|discriminate]. }
  rewrite E. cbn [bind]. eexists. split; [reflexivity|]. destruct (sequence_nth _ _ E) as (LC & N). rewrite map_length, seq_length in LC. split; [rewrite map_length; exact LC|].
  intros x y X Y. specialize (N y). rewrite nth_error_map, nth_error_seq in N. destruct (Nat.ltb_spec y ny); [|lia]. cbn [option_map Nat.add] in N.
  destruct (column_spec data nx ny y RD Y) as (col & EC & LCol & NC). rewrite EC in N. destruct (nth_error cs y) as [col'|] eqn:NY; [|discriminate N]. apply Some_inj in N. injection N as <-.
  exists (map of_data col). rewrite nth_error_map, NY. split; [reflexivity|]. rewrite nth_error_map, (NC x X). reflexivity.
Qed.
(** C99: the high-pass and the low-pass filters with the same kernel share the
    field: where the field and its filtered value exist, one gives the filtered
    value, the other the rest, and their sum is the field.  Elsewhere both are
    masked, also when the filtered value extends over masked cells. *)
Theorem C99_high_low : forall circular data nx ny lats kernel lat_max extend,
  rect nx ny data -> length lats = ny -> kernels_ok circular nx lats lat_max kernel ->
  exists out high low, convolve circular data lats kernel lat_max extend = Some out /\
    high_filter circular data lats kernel lat_max extend = Some high /\ low_filter circular data lats kernel lat_max extend = Some low /\
    forall x y, x < nx -> y < ny -> exists c h l, cell_of out x y c /\ cell_of high x y h /\ cell_of low x y l /\
      (value_at circular data (Z.of_nat x) (Z.of_nat y) = None \/ c = Masked -> h = Masked /\ l = Masked) /\
      (forall v q, value_at circular data (Z.of_nat x) (Z.of_nat y) = Some v -> c = Val q ->
        exists hv lv, h = Val hv /\ l = Val lv /\ (lv == q)%Q /\ (hv == v - q)%Q /\ (lv + hv == v)%Q).
Proof.
  intros circular data nx ny lats kernel lat_max extend RD LY HK. pose proof RD as (L & _).
  destruct (convolve_spec circular data nx ny lats kernel lat_max extend RD LY HK) as (out & E & LO & LL & H). destruct (columns_spec data nx ny RD) as (d & Ed & Ld & Nd).
  unfold high_filter, low_filter. rewrite E, LY, Ed. cbn [bind]. do 3 eexists. split; [reflexivity|]. split; [reflexivity|]. split; [reflexivity|].
  intros x y X Y. destruct (nth_error_lt_Some lats y) as (lat & NY); [lia|]. destruct (H x y lat X NY) as (c & C & _).
  assert (D := Nd x y X Y). assert (HH := minus_columns_nth _ _ _ _ _ _ D C). do 3 eexists. split; [exact C|]. split; [exact HH|]. split; [exact (minus_columns_nth _ _ _ _ _ _ D HH)|].
  rewrite (value_at_same circular data nx) by assumption. destruct (value_at false data (Z.of_nat x) (Z.of_nat y)) as [v|]; cbn [of_data].
  - split.
    + intros [N| ->]; [discriminate N|]. split; reflexivity.
    + intros v' q Ev ->. injection Ev as <-. cbn [minus]. do 2 eexists. split; [reflexivity|]. split; [reflexivity|]. split; [ring|]. split; ring.
  - split; [intros _; split; reflexivity|]. intros v q N. discriminate N.
Qed.
Print Assumptions C99_high_low.
Example C99_high_low_ex :
  match high_filter false ex_data [0; 1; 2]%Q ex_kernel 5 None, low_filter false ex_data [0; 1; 2]%Q ex_kernel 5 None with
  | Some high, Some low => exists h l, cell_of high 0 0 (Val h) /\ cell_of low 0 0 (Val l) /\ (h + l == 1)%Q /\ ~ (h == 0)%Q
  | _, _ => False
  end.
Proof. vm_compute. do 2 eexists. split; [eexists; split; reflexivity|]. split; [eexists; split; reflexivity|]. split; [reflexivity|]. discriminate. Qed.

(** C99: on a circular grid a kernel which reaches further than the whole circle
    on each side makes the filter fail, whatever the field. *)
Theorem C99_wide_refuted : forall data nx ny lats kernel lat_max extend y lat K dx dy,
  rect nx ny data -> length lats = ny -> nth_error lats y = Some lat -> (Qabs lat <= lat_max)%Q ->
  (exists x, x < nx /\ value_at true data (Z.of_nat x) (Z.of_nat y) <> None) ->
  kernel lat = Some K -> odd_kernel K dx dy -> nx < dx ->
  convolve true data lats kernel lat_max extend = None.
Proof.
  intros data nx ny lats kernel lat_max extend y lat K dx dy RD LY NY Hl (x & X & V) EK (DX & RK) W. pose proof RD as (L & _). pose proof RK as (LK & _).
  destruct (convolve true data lats kernel lat_max extend) as [out|] eqn:E; [|reflexivity]. exfalso. unfold convolve in E. destruct (sequence_nth _ _ E) as (LO & N). specialize (N y).
  pose proof (nth_error_Some_lt _ _ _ NY) as Y. rewrite nth_error_map, nth_error_seq in N. destruct (Nat.ltb_spec y (length lats)); [|lia]. cbn [option_map Nat.add] in N.
  destruct (nth_error out y) as [o|]; [|discriminate N]. apply Some_inj in N. unfold filter_one in N. rewrite NY in N. cbn [bind] in N.
  destruct (column_spec data nx ny y RD) as (col & EC & LC & NC); [lia|]. rewrite EC in N. cbn [bind] in N.
  destruct (Qlt_bool lat_max (Qabs lat)) eqn:B; [apply Qlt_bool_iff in B; lra|]. cbn [orb] in N.
  destruct (forallb is_masked col) eqn:F. { rewrite forallb_forall in F. specialize (F _ (nth_error_In _ _ (NC x X))). rewrite (value_at_same true data nx) in V by assumption. destruct (value_at false data _ _); [discriminate F|]. apply V. reflexivity. }
  rewrite EK in N. cbn [bind] in N. unfold filter_line in N. cbv zeta in N. rewrite (rect_hd _ _ _ RK), LK in N by lia.
  replace ((2 * dx + 1 - 1) / 2) with dx in N by (replace (2 * dx + 1 - 1) with (dx * 2) by lia; rewrite Nat.div_mul; lia).
  replace (tmp_matrix true data (length lats) y dx ((2 * dy + 1 - 1) / 2) (2 * dy + 1)) with (@None grid) in N; [discriminate N|]. symmetry. unfold tmp_matrix. cbv zeta.
  set (T0 := repeat _ _). destruct (assign_block T0 None (Some (Z.of_nat dx)) _ _ _) as [T1|] eqn:A; [|reflexivity]. exfalso. unfold assign_block in A.
  cbn [start_of stop_of] in A. rewrite clip_pos in A. replace (Nat.max 0 (Nat.min dx (length T0))) with dx in A by (unfold T0; rewrite repeat_length; lia).
  destruct (put_rows _ _ (slice T0 0 dx) _) as [mid|] eqn:P; [|discriminate A]. apply put_rows_spec in P; [|lia]. destruct P as (_ & P & _). rewrite map_length, fslice_length in P. unfold pyslice in P. rewrite fslice_length in P.
  cbn [start_of stop_of] in P. rewrite clip_neg in P by exact DX. unfold T0 in P. rewrite repeat_length in P. lia.
Qed.
Print Assumptions C99_wide_refuted.
Example C99_wide_refuted_ex : convolve true [[Some 1; Some 2]; [Some 3; None]]%Q [0; 1]%Q (fun _ => Some (repeat [1; 1; 1]%Q 7)) 80 None = None /\
  exists out, convolve false [[Some 1; Some 2]; [Some 3; None]]%Q [0; 1]%Q (fun _ => Some (repeat [1; 1; 1]%Q 7)) 80 None = Some out.
Proof. split; [reflexivity|]. eexists. vm_compute. reflexivity. Qed.
(** C99: a kernel of one column makes the filter fail too. *)
Theorem C99_column_refuted : forall circular data nx ny lats kernel lat_max extend y lat row,
  rect nx ny data -> length lats = ny -> nth_error lats y = Some lat -> (Qabs lat <= lat_max)%Q ->
  (exists x, x < nx /\ value_at circular data (Z.of_nat x) (Z.of_nat y) <> None) ->
  kernel lat = Some [row] -> convolve circular data lats kernel lat_max extend = None.
Proof.
  intros circular data nx ny lats kernel lat_max extend y lat row RD LY NY Hl (x & X & V) EK. pose proof RD as (L & _).
  destruct (convolve circular data lats kernel lat_max extend) as [out|] eqn:E; [|reflexivity]. exfalso. unfold convolve in E. destruct (sequence_nth _ _ E) as (LO & N). specialize (N y).
  pose proof (nth_error_Some_lt _ _ _ NY) as Y. rewrite nth_error_map, nth_error_seq in N. destruct (Nat.ltb_spec y (length lats)); [|lia]. cbn [option_map Nat.add] in N.
  destruct (nth_error out y) as [o|]; [|discriminate N]. apply Some_inj in N. unfold filter_one in N. rewrite NY in N. cbn [bind] in N.
  destruct (column_spec data nx ny y RD) as (col & EC & LC & NC); [lia|]. rewrite EC in N. cbn [bind] in N.
  destruct (Qlt_bool lat_max (Qabs lat)) eqn:B; [apply Qlt_bool_iff in B; lra|]. cbn [orb] in N.
  destruct (forallb is_masked col) eqn:F. { rewrite forallb_forall in F. specialize (F _ (nth_error_In _ _ (NC x X))). rewrite (value_at_same circular data nx) in V by assumption. destruct (value_at false data _ _); [discriminate F|]. apply V. reflexivity. }
  rewrite EK in N. cbn [bind] in N. unfold filter_line in N. cbv zeta in N. cbn [length] in N. change (1 / 2) with 0 in N. cbn [Nat.eqb] in N.
  destruct (tmp_matrix _ _ _ _ _ _ _) as [t|]; [|discriminate N]. cbn [bind] in N. rewrite orb_true_r in N. discriminate N.
Qed.
Print Assumptions C99_column_refuted.
Example C99_column_refuted_ex : convolve false ex_data [0; 1; 2]%Q (fun _ => Some [[1; 2; 1]]%Q) 5 None = None.
Proof. reflexivity. Qed.
(** C99: a cell whose weights cancel is neither masked nor a number. *)
Theorem C99_nan_refuted : exists data lats kernel out, kernels_ok false 2 lats 80 kernel /\ rect 2 1 data /\ convolve false data lats kernel 80 None = Some out /\ cell_of out 0 0 Nan.
Proof.
  exists [[Some 5]; [Some 6]]%Q, [0]%Q, (fun _ => Some [[-(1)]; [1]; [-(1)]]%Q). eexists. split.
  - intros lat _ _. exists [[-(1)]; [1]; [-(1)]]%Q, 1, 0. split; [reflexivity|]. split; [|discriminate]. split; [lia|]. split; [reflexivity|]. intros row [<-|[<-|[<-|[]]]]; reflexivity.
  - split; [split; [reflexivity|intros row [<-|[<-|[]]]; reflexivity]|]. split; [vm_compute; reflexivity|]. eexists. split; reflexivity.
Qed.
Print Assumptions C99_nan_refuted.
