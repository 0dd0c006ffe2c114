From Coq Require Import List Arith ZArith QArith Qabs Qround Bool Lia Lqa.
From Verif Require Import Base Qaux Spec Obs_model Grid_model Grid_path Poly_model Poly_spec Poly_wind Poly_pairs Poly_mesh Pix_model Pix_spec.
Import ListNotations.
Local Close Scope Q_scope.
Local Open Scope nat_scope.

(** ** Lists *)
Lemma nth_error_slice' : forall {A} (l : list A) a b t, nth_error (slice l a b) t = if t <? b - a then nth_error l (a + t) else None.
Proof.
  intros A l a b t. unfold slice. destruct (Nat.ltb_spec t (b - a)).
  - revert l. assert (F : forall n t' (l : list A), t' < n -> nth_error (firstn n l) t' = nth_error l t') by (induction n; intros t' [|x l] L; try lia; [destruct t'; reflexivity|]; destruct t'; [reflexivity|]; cbn; apply IHn; lia).
    intros l. rewrite F by lia. clear. revert l. induction a; intros l; [reflexivity|]. destruct l; [destruct t; reflexivity|]. cbn. apply IHa.
  - apply nth_error_None. rewrite firstn_length. lia.
Qed.
Lemma In_combine_seq : forall {A} (l : list A) i x, In (i, x) (combine (seq 0 (length l)) l) <-> nth_error l i = Some x.
Proof.
  intros A l. assert (H : forall s i x, In (i, x) (combine (seq s (length l)) l) <-> s <= i /\ nth_error l (i - s) = Some x).
  { induction l as [|a l IH]; intros s i x; cbn [length seq combine In].
    - split; [intros []|]. intros [_ E]. destruct (i - s); discriminate E.
    - rewrite IH. split.
      + intros [E|[L E]]; [injection E as <- <-; split; [lia|]; rewrite Nat.sub_diag; reflexivity|].
        split; [lia|]. replace (i - s) with (S (i - S s)) by lia. exact E.
      + intros [L E]. destruct (Nat.eq_dec s i) as [->|N]; [left; rewrite Nat.sub_diag in E; injection E as ->; reflexivity|right].
        split; [lia|]. replace (i - s) with (S (i - S s)) in E by lia. exact E. }
  intros i x. rewrite H, Nat.sub_0_r. split; [intros [_ E]; exact E|intros E; split; [lia|exact E]].
Qed.
Lemma NoDup_combine_seq : forall {A} (l : list A) s, NoDup (combine (seq s (length l)) l).
Proof.
  intros A l. induction l as [|a l IH]; intros s; cbn [length seq combine]; constructor; [|apply IH].
  intros I. apply in_combine_l in I. apply in_seq in I. lia.
Qed.
Lemma NoDup_flat_map : forall {A B} (f : A -> list B) l, NoDup l -> (forall a, In a l -> NoDup (f a)) ->
  (forall a a' b, In a l -> In a' l -> In b (f a) -> In b (f a') -> a = a') -> NoDup (flat_map f l).
Proof.
  intros A B f l. induction l as [|a l IH]; intros N F D; [constructor|]. cbn. inversion N as [|? ? NI N']; subst.
  assert (R : NoDup (flat_map f l)) by (apply IH; [exact N'|intros; apply F; right; assumption|intros; eapply D; try (right; eassumption); eassumption]).
  assert (Fa : NoDup (f a)) by (apply F; left; reflexivity).
  assert (X : forall b, In b (f a) -> ~ In b (flat_map f l)).
  { intros b I J. apply in_flat_map in J as (a' & Ia & Ib). assert (a = a') by (eapply D; [left; reflexivity|right; exact Ia|exact I|exact Ib]). subst. contradiction. }
  clear - R Fa X. induction Fa as [|b r NI N IH]; [exact R|]. cbn. constructor.
  - intros I. apply in_app_or in I as [I|I]; [contradiction|]. apply (X b); [left; reflexivity|exact I].
  - apply IH. intros b' I. apply X. right. exact I.
Qed.
Lemma NoDup_map_on : forall {A B} (f : A -> B) l, NoDup l -> (forall a a', In a l -> In a' l -> f a = f a' -> a = a') -> NoDup (map f l).
Proof.
  intros A B f l N. induction N as [|a l NI N IH]; intros D; [constructor|]. cbn. constructor.
  - intros I. apply in_map_iff in I as (a' & E & Ia). apply D in E; [subst; contradiction|right; exact Ia|left; reflexivity].
  - apply IH. intros; apply D; try (right; assumption). assumption.
Qed.

(** ** The table of winding numbers *)
Definition raw (x_1d y_1d : list Q) (poly : list point) : list (nat * nat) :=
  flat_map (fun ix => flat_map (fun jy => if (winding_number_poly (snd ix, snd jy) poly =? 0)%Z then [] else [(fst ix, fst jy)])
    (combine (seq 0 (length y_1d)) y_1d)) (combine (seq 0 (length x_1d)) x_1d).
Definition column (i_x0 i_x1 x_size : Z) (t : nat) : Z := let i_x := (Z.of_nat t + i_x0)%Z in (if (i_x1 <? i_x0)%Z then i_x mod x_size else i_x)%Z.
Lemma flat_map_ext' : forall {A B} (f g : A -> list B) l, (forall a, f a = g a) -> flat_map f l = flat_map g l.
Proof. intros A B f g l H. induction l; [reflexivity|]. cbn. rewrite H, IHl. reflexivity. Qed.
Lemma map_flat_map : forall {A B C} (f : A -> list B) (g : B -> C) l, map g (flat_map f l) = flat_map (fun a => map g (f a)) l.
Proof. intros A B C f g l. induction l; [reflexivity|]. cbn. rewrite map_app, IHl. reflexivity. Qed.
Lemma grid_raw : forall x_1d y_1d i_x0 i_x1 x_size i_y0 poly,
  winding_number_grid_in_poly x_1d y_1d i_x0 i_x1 x_size i_y0 poly =
  map (fun q => (column i_x0 i_x1 x_size (fst q), (Z.of_nat (snd q) + i_y0)%Z)) (raw x_1d y_1d poly).
Proof.
  intros. unfold winding_number_grid_in_poly, raw. rewrite map_flat_map. apply flat_map_ext'. intros a. rewrite map_flat_map. apply flat_map_ext'. intros b.
  destruct (winding_number_poly (snd a, snd b) poly =? 0)%Z; reflexivity.
Qed.
Lemma raw_In : forall x_1d y_1d poly t u, In (t, u) (raw x_1d y_1d poly) <->
  exists x y, nth_error x_1d t = Some x /\ nth_error y_1d u = Some y /\ inside poly (x, y).
Proof.
  intros. unfold raw. rewrite in_flat_map. split.
  - intros ([t' x] & I & J). apply in_flat_map in J as ([u' y] & J & E). apply In_combine_seq in I. apply In_combine_seq in J. cbn [fst snd] in E.
    destruct (Z.eqb_spec (winding_number_poly (x, y) poly) 0) as [W|W]; [destruct E|]. destruct E as [E|[]]. injection E as <- <-. exists x, y. repeat split; assumption.
  - intros (x & y & X & Y & W). exists (t, x). split; [apply In_combine_seq; exact X|]. apply in_flat_map. exists (u, y). split; [apply In_combine_seq; exact Y|]. cbn [fst snd].
    destruct (Z.eqb_spec (winding_number_poly (x, y) poly) 0) as [Z|_]; [contradiction|left; reflexivity].
Qed.
Lemma raw_NoDup : forall x_1d y_1d poly, NoDup (raw x_1d y_1d poly).
Proof.
  intros. unfold raw. apply NoDup_flat_map; [apply NoDup_combine_seq|intros [t x] I|].
  - apply NoDup_flat_map; [apply NoDup_combine_seq|intros [u y] _; cbn [fst snd]; destruct (_ =? 0)%Z; repeat constructor; intros []|].
    intros [u y] [u' y'] b I1 I2 B1 B2. cbn [fst snd] in *. destruct (winding_number_poly (x, y) poly =? 0)%Z; [destruct B1|]. destruct (winding_number_poly (x, y') poly =? 0)%Z; [destruct B2|].
    destruct B1 as [<-|[]]. destruct B2 as [E|[]]. injection E as ->. apply In_combine_seq in I1. apply In_combine_seq in I2. rewrite I1 in I2. injection I2 as ->. reflexivity.
  - intros [t x] [t' x'] b I1 I2 B1 B2. apply in_flat_map in B1 as ([u y] & _ & B1). apply in_flat_map in B2 as ([u' y'] & _ & B2). cbn [fst snd] in *.
    destruct (winding_number_poly (x, y) poly =? 0)%Z; [destruct B1|]. destruct (winding_number_poly (x', y') poly =? 0)%Z; [destruct B2|].
    destruct B1 as [<-|[]]. destruct B2 as [E|[]]. injection E as ->. apply In_combine_seq in I1. apply In_combine_seq in I2. rewrite I1 in I2. injection I2 as ->. intros. reflexivity.
Qed.

(** ** Cells *)
Definition near (s o m : Q) (n : Z) : Prop := ((inject_Z n - half) * s <= m - o /\ m - o <= (inject_Z n + half) * s)%Q.
Lemma near_qround : forall s o m, (0 < s)%Q -> near s o m (qround ((m - o) / s)).
Proof.
  intros s o m P. pose proof (qround_near ((m - o) / s)) as H. apply Qabs_Qle_condition in H. set (q := ((m - o) / s)%Q) in *.
  assert (E : (m - o == q * s)%Q) by (unfold q; field; lra). unfold near. rewrite E. destruct H. unfold half. split; apply Qmult_le_compat_r; lra.
Qed.
Lemma near_low : forall s o m n j, (0 < s -> near s o m n -> m <= o + (inject_Z j + half) * s -> (n - 1 <= j)%Z)%Q.
Proof.
  intros s o m n j P [H _] L. assert (X : ((inject_Z n - half) * s <= (inject_Z j + half) * s)%Q) by lra. apply Qmult_le_r in X; [|exact P].
  unfold half in X. apply inject_Z_le_iff. rewrite inject_Z_minus. change (inject_Z 1) with 1%Q. lra.
Qed.
Lemma near_high : forall s o m n j, (0 < s -> near s o m n -> o + (inject_Z j + half) * s <= m -> (j <= n)%Z)%Q.
Proof.
  intros s o m n j P [_ H] L. assert (X : ((inject_Z j + half) * s <= (inject_Z n + half) * s)%Q) by lra. apply Qmult_le_r in X; [|exact P].
  unfold half in X. apply inject_Z_le_iff. lra.
Qed.
Lemma near_start : forall s o m n k, (0 < s -> near s o m n -> o + (inject_Z k - half) * s < m -> (k <= n)%Z)%Q.
Proof.
  intros s o m n k P [_ H] L. assert (X : ((inject_Z k - half) * s < (inject_Z n + half) * s)%Q) by lra. apply Qmult_lt_r in X; [|exact P].
  unfold half in X. assert (Y : (inject_Z (k - 1) < inject_Z n)%Q) by (rewrite inject_Z_minus; change (inject_Z 1) with 1%Q; lra). apply (proj1 (inject_Z_lt_iff _ _)) in Y. lia.
Qed.
Lemma pyslice_nth : forall {A} (l : list A) a b t, (0 <= a -> 0 <= b -> nth_error (pyslice l (Some a) (Some b)) t = if (a + Z.of_nat t <? b) then nth_error l (Z.to_nat a + t) else None)%Z.
Proof.
  intros A l a b t P R. unfold pyslice. rewrite nth_error_slice'. unfold start_of, stop_of, clip. destruct (Z.ltb_spec a 0); [lia|]. destruct (Z.ltb_spec b 0); [lia|].
  destruct (Z.ltb_spec (a + Z.of_nat t) b) as [L|L].
  - destruct (Nat.le_gt_cases (length l) (Z.to_nat a + t)) as [G|G].
    + replace (nth_error l (Z.to_nat a + t)) with (@None A) by (symmetry; apply nth_error_None; lia). destruct (Nat.ltb_spec t (Nat.min (Z.to_nat b) (length l) - Nat.min (Z.to_nat a) (length l))); [lia|reflexivity].
    + destruct (Nat.ltb_spec t (Nat.min (Z.to_nat b) (length l) - Nat.min (Z.to_nat a) (length l))); [|lia]. f_equal. lia.
  - destruct (Nat.ltb_spec t (Nat.min (Z.to_nat b) (length l) - Nat.min (Z.to_nat a) (length l))); [lia|reflexivity].
Qed.

(** ** Rows and columns together *)
Section Table.
Variables (g : rgrid) (c : list point) (P : point -> Prop) (x_1d : list Q) (x_start x_stop y_start y_stop : Z).
Let col := column x_start x_stop (Z.of_nat (length (g_x g))).
Hypothesis columns : forall t xv, nth_error x_1d t = Some xv -> exists i x, col t = Z.of_nat i /\ nth_error (g_x g) i = Some x /\ forall y, inside c (xv, y) <-> P (x, y).
Hypothesis once : forall t t', t < length x_1d -> t' < length x_1d -> col t = col t' -> t = t'.
Hypothesis all_x : forall i x y, nth_error (g_x g) i = Some x -> P (x, y) -> exists t, t < length x_1d /\ col t = Z.of_nat i.
Hypothesis y0 : (0 <= y_start)%Z.
Hypothesis y1 : (0 <= y_stop)%Z.
Hypothesis all_y : forall j x y, nth_error (g_y g) j = Some y -> P (x, y) -> (y_start <= Z.of_nat j < y_stop)%Z.
Lemma table_exactly : exactly g P (winding_number_grid_in_poly x_1d (pyslice (g_y g) (Some y_start) (Some y_stop)) x_start x_stop (Z.of_nat (length (g_x g))) y_start c).
Proof.
  set (y_1d := pyslice (g_y g) (Some y_start) (Some y_stop)). rewrite grid_raw. fold col.
  exists (map (fun q => (Z.to_nat (col (fst q)), Z.to_nat y_start + snd q)) (raw x_1d y_1d c)). split; [|split].
  - rewrite map_map. apply map_ext_in. intros [t u] I. cbn [fst snd]. apply raw_In in I as (x & y & X & Y & _).
    destruct (columns t x X) as (i & x' & E & _ & _). fold col. rewrite E. f_equal; lia.
  - apply NoDup_map_on; [apply raw_NoDup|]. intros [t u] [t' u'] I I'. cbn [fst snd]. apply raw_In in I as (x & y & X & Y & _). apply raw_In in I' as (x' & y' & X' & Y' & _).
    intros E. injection E as E1 E2. destruct (columns t x X) as (i & a & C & _). destruct (columns t' x' X') as (i' & a' & C' & _).
    f_equal; [|lia]. apply once; [eapply nth_error_Some_lt; exact X|eapply nth_error_Some_lt; exact X'|]. rewrite C, C' in *. lia.
  - intros i j. rewrite in_map_iff. split.
    + intros ([t u] & E & I). cbn [fst snd] in E. injection E as E1 E2. apply raw_In in I as (x & y & X & Y & W). destruct (columns t x X) as (i' & x' & C & N & B).
      exists (x', y). split; [|apply B; exact W]. split; cbn [fst snd].
      * rewrite C, Nat2Z.id in E1. subst i'. exact N.
      * unfold y_1d in Y. rewrite pyslice_nth in Y by assumption. destruct (y_start + Z.of_nat u <? y_stop)%Z; [|discriminate Y]. rewrite <- E2. exact Y.
    + intros ([x y] & [X Y] & H). cbn [fst snd] in *. destruct (all_x i x y X H) as (t & L & C). destruct (all_y j x y Y H) as [Y0 Y1].
      exists (t, j - Z.to_nat y_start). cbn [fst snd]. split; [rewrite C, Nat2Z.id; f_equal; lia|]. apply raw_In.
      destruct (nth_error x_1d t) as [xv|] eqn:XV; [|apply nth_error_None in XV; lia]. destruct (columns t xv XV) as (i' & x' & C' & N & B).
      assert (i' = i) by (rewrite C in C'; lia). subst i'. rewrite X in N. injection N as <-. exists xv, y. split; [reflexivity|]. split; [|apply B; exact H].
      unfold y_1d. rewrite pyslice_nth by assumption. destruct (Z.ltb_spec (y_start + Z.of_nat (j - Z.to_nat y_start)) y_stop); [|lia].
      replace (Z.to_nat y_start + (j - Z.to_nat y_start)) with j by lia. exact Y.
Qed.
End Table.

(** ** A grid which does not wrap *)
Lemma cells_low : forall x0 s cs m n, even_cells x0 s cs -> near s x0 m n -> forall i x, nth_error cs i = Some x -> (m <= x)%Q -> (n - 1 <= Z.of_nat i)%Z.
Proof. intros x0 s cs m n [P E] N i x X L. rewrite (E i x X) in L. exact (near_low s x0 m n _ P N L). Qed.
Lemma cells_high : forall x0 s cs m n, even_cells x0 s cs -> near s x0 m n -> forall i x, nth_error cs i = Some x -> (x <= m)%Q -> (Z.of_nat i <= n)%Z.
Proof. intros x0 s cs m n [P E] N i x X L. rewrite (E i x X) in L. exact (near_high s x0 m n _ P N L). Qed.
Lemma Qmod_id : forall x, (0 <= x < 360)%Q -> (Qmod x 360 == x)%Q.
Proof.
  intros x [A B]. destruct (Qmod_turn x) as (k & K & C & D). rewrite K in C, D. assert (k = 0)%Z by (apply no_turn; lra). subst k. rewrite K. change (inject_Z 0) with 0%Q. ring.
Qed.
Lemma near_x : forall s o m, (0 < s -> o <= m < o + 360 -> near s o m (qround (Qmod (m - o) 360 / s)))%Q.
Proof.
  intros s o m P R. assert (E : (Qmod (m - o) 360 == m - o)%Q) by (apply Qmod_id; lra). rewrite (qround_comp _ ((m - o) / s)) by (rewrite E; reflexivity). apply near_qround. exact P.
Qed.
Lemma near_mono : forall s o m m' n n', (0 < s -> m <= m' -> near s o m n -> near s o m' n' -> (n <= n' + 1)%Z)%Q.
Proof.
  intros s o m m' n n' P L [A _] [_ B]. assert (X : ((inject_Z n - half) * s <= (inject_Z n' + half) * s)%Q) by lra. apply Qmult_le_r in X; [|exact P]. unfold half in X.
  apply inject_Z_le_iff. rewrite inject_Z_plus. change (inject_Z 1) with 1%Q. lra.
Qed.

Theorem regional : forall g c, good_grid g -> g_circular g = false -> c <> [] -> in_turn g c -> above_margin g c ->
  exists ps, get_pixels_in g c = Some ps /\ exactly g (inside c) ps.
Proof.
  intros g c (GX & GY & GN) NC NE T M. destruct (bbox_total c NE) as [[[[x0 x1] y0] y1] B]. destruct (bbox_spec _ _ _ _ _ B) as (R & (vx0 & I0 & E0) & (vx1 & I1 & E1) & (vy0 & J0 & F0) & (vy1 & J1 & F1)).
  pose proof (T vx0 I0) as T0. pose proof (T vx1 I1) as T1. pose proof (M vy0 J0) as M0. rewrite E0 in T0. rewrite E1 in T1. rewrite F0 in M0.
  destruct (R vx1 I1) as [[X01 _] _]. rewrite E1 in X01. destruct (R vy1 J1) as [_ [Y01 _]]. rewrite F1 in Y01.
  pose proof (near_x _ _ _ (proj1 GX) T0) as A0. pose proof (near_x _ _ _ (proj1 GX) T1) as A1.
  pose proof (near_qround _ (g_y0 g) y0 (proj1 GY)) as B0. pose proof (near_qround _ (g_y0 g) y1 (proj1 GY)) as B1.
  unfold get_pixels_in, bbox_indice_regular. rewrite B. cbn [bind]. unfold nearest_grd_indice. rewrite NC.
  set (a := qround (Qmod (x0 - g_x0 g) 360 / g_xstep g)) in *. set (b := qround (Qmod (x1 - g_x0 g) 360 / g_xstep g)) in *.
  set (d := qround ((y0 - g_y0 g) / g_ystep g)) in *. set (e := qround ((y1 - g_y0 g) / g_ystep g)) in *. clearbody a b d e.
  pose proof (near_mono _ _ _ _ _ _ (proj1 GX) X01 A0 A1) as AB. pose proof (near_mono _ _ _ _ _ _ (proj1 GY) Y01 B0 B1) as DE. pose proof (near_start _ _ _ _ _ (proj1 GY) B0 M0) as D0.
  assert (BB : (0 <= b + 1)%Z).
  { pose proof (near_high _ _ _ _ (-1) (proj1 GX) A1) as H. assert (-1 <= b)%Z; [|lia]. apply H. change (inject_Z (-1)) with (-1)%Q. unfold half. destruct GX as [GP _]. assert (0 < (1#2) * g_xstep g)%Q by lra. lra. }
  cbn [bind]. cbv beta iota zeta. unfold get_pixel_in_regular. cbv beta iota zeta. destruct (Z.ltb_spec (b + g_N g + 1) (Z.max (a - g_N g) 0)) as [W|W]; [lia|].
  eexists. split; [reflexivity|]. apply table_exactly; [| | |lia|lia|].
  - intros t xv X. rewrite pyslice_nth in X by lia. unfold column. destruct (Z.ltb_spec (b + g_N g + 1) (Z.max (a - g_N g) 0)); [lia|].
    destruct (_ <? _)%Z; [|discriminate X]. exists (Z.to_nat (Z.max (a - g_N g) 0) + t), xv. split; [lia|]. split; [exact X|]. intros y. reflexivity.
  - intros t t' _ _. unfold column. destruct (Z.ltb_spec (b + g_N g + 1) (Z.max (a - g_N g) 0)); lia.
  - intros i x y X P. destruct (inside_box _ _ _ _ _ _ B P) as [[L H] _]. cbn [fst] in *.
    pose proof (cells_low _ _ _ _ _ GX A0 i x X L) as Lo. pose proof (cells_high _ _ _ _ _ GX A1 i x X H) as Hi.
    exists (i - Z.to_nat (Z.max (a - g_N g) 0)). split.
    + assert (V : nth_error (pyslice (g_x g) (Some (Z.max (a - g_N g) 0)) (Some (b + g_N g + 1)))%Z (i - Z.to_nat (Z.max (a - g_N g) 0)) = Some x).
      { rewrite pyslice_nth by lia. destruct (Z.ltb_spec (Z.max (a - g_N g) 0 + Z.of_nat (i - Z.to_nat (Z.max (a - g_N g) 0))) (b + g_N g + 1)); [|lia].
        replace (Z.to_nat (Z.max (a - g_N g) 0) + (i - Z.to_nat (Z.max (a - g_N g) 0))) with i by lia. exact X. }
      eapply nth_error_Some_lt. exact V.
    + unfold column. destruct (Z.ltb_spec (b + g_N g + 1) (Z.max (a - g_N g) 0)); lia.
  - intros j x y Y P. destruct (inside_box _ _ _ _ _ _ B P) as [_ [L H]]. cbn [snd] in *.
    pose proof (cells_low _ _ _ _ _ GY B0 j y Y L) as Lo. pose proof (cells_high _ _ _ _ _ GY B1 j y Y H) as Hi. lia.
Qed.

(** ** A grid around the earth *)
Lemma turn_near : forall s o m n, (0 < s -> inject_Z n * s == 360 -> exists k, near s o m (qround (Qmod (m - o) 360 / s) + n * k))%Q.
Proof.
  intros s o m n P T. destruct (Qmod_turn (m - o)) as (k & K & _). exists (- k)%Z.
  pose proof (near_qround s 0 (Qmod (m - o) 360) P) as [A B]. rewrite (qround_comp ((Qmod (m - o) 360 - 0) / s) (Qmod (m - o) 360 / s)) in A, B by (field; lra).
  set (q := qround (Qmod (m - o) 360 / s)) in *. clearbody q. rewrite K in A, B. unfold near. rewrite !inject_Z_plus, !inject_Z_mult, inject_Z_opp.
  assert (E : (inject_Z n * - inject_Z k * s == - (360 * inject_Z k))%Q) by (rewrite <- T; ring). split.
  - setoid_replace ((inject_Z q + inject_Z n * - inject_Z k - half) * s)%Q with ((inject_Z q - half) * s + inject_Z n * - inject_Z k * s)%Q by ring. rewrite E. lra.
  - setoid_replace ((inject_Z q + inject_Z n * - inject_Z k + half) * s)%Q with ((inject_Z q + half) * s + inject_Z n * - inject_Z k * s)%Q by ring. rewrite E. lra.
Qed.
Lemma turn_cell : forall s o n j k, (inject_Z n * s == 360 -> o + (inject_Z j + half) * s + 360 * inject_Z k == o + (inject_Z (j + n * k) + half) * s)%Q.
Proof. intros s o n j k T. rewrite inject_Z_plus, inject_Z_mult, <- T. ring. Qed.
(** A window of columns, counted from the first, modulo the number of columns. *)
Lemma window_mod : forall n a b j k, (0 < n -> a <= j + n * k < b -> b - a < n -> 0 <= j < n ->
  let x_start := a mod n in let x_stop := b mod n in
  (x_stop < x_start -> x_start <= j \/ j < x_stop) /\ (x_start <= x_stop -> x_start <= j < x_stop))%Z.
Proof.
  intros n a b j k N W L J x_start x_stop. unfold x_start, x_stop.
  pose proof (Z.div_mod a n) as A. pose proof (Z.div_mod b n) as B. pose proof (Z.mod_pos_bound a n N) as RA. pose proof (Z.mod_pos_bound b n N) as RB.
  set (qa := (a / n)%Z) in *. set (qb := (b / n)%Z) in *. set (ra := (a mod n)%Z) in *. set (rb := (b mod n)%Z) in *. clearbody qa qb ra rb.
  specialize (A ltac:(lia)). specialize (B ltac:(lia)). subst a b. assert (qb = qa \/ qb = qa + 1)%Z by nia. assert (k = qa \/ k = qa + 1)%Z by nia.
  destruct H as [-> | ->]; destruct H0 as [-> | ->]; split; intros; nia.
Qed.
Lemma window_len : forall n a b, (0 < n -> 0 < b - a < n -> (b mod n < a mod n -> b mod n + n - a mod n = b - a) /\ (a mod n <= b mod n -> b mod n - a mod n = b - a /\ b / n = a / n))%Z.
Proof.
  intros n a b N L. pose proof (Z.div_mod a n) as A. pose proof (Z.div_mod b n) as B. pose proof (Z.mod_pos_bound a n N) as RA. pose proof (Z.mod_pos_bound b n N) as RB.
  set (qa := (a / n)%Z) in *. set (qb := (b / n)%Z) in *. set (ra := (a mod n)%Z) in *. set (rb := (b mod n)%Z) in *. clearbody qa qb ra rb.
  specialize (A ltac:(lia)). specialize (B ltac:(lia)). subst a b. assert (qb = qa \/ qb = qa + 1)%Z by nia. destruct H as [-> | ->]; split; intros; try nia.
Qed.
Lemma pyslice_from : forall {A} (l : list A) a, (0 <= a)%Z -> pyslice l (Some a) None = skipn (Z.to_nat a) l.
Proof.
  intros A l a P. unfold pyslice, slice, start_of, stop_of, clip. destruct (Z.ltb_spec a 0); [lia|].
  destruct (Nat.le_gt_cases (Z.to_nat a) (length l)).
  - rewrite Nat.min_l by lia. rewrite <- (skipn_length (Z.to_nat a) l). apply firstn_all.
  - rewrite Nat.min_r by lia. rewrite Nat.sub_diag. symmetry. apply skipn_all2. lia.
Qed.
Lemma pyslice_to : forall {A} (l : list A) b, (0 <= b)%Z -> pyslice l None (Some b) = firstn (Z.to_nat b) l.
Proof.
  intros A l b P. unfold pyslice, slice, start_of, stop_of, clip. destruct (Z.ltb_spec b 0); [lia|]. cbn [skipn]. rewrite Nat.sub_0_r.
  destruct (Nat.le_gt_cases (Z.to_nat b) (length l)); [rewrite Nat.min_l by lia; reflexivity|]. rewrite Nat.min_r by lia. rewrite firstn_all. symmetry. apply firstn_all2. lia.
Qed.
Lemma nth_skipn : forall {A} (l : list A) a t, nth_error (skipn a l) t = nth_error l (a + t).
Proof. intros A l a. revert l. induction a; intros l t; [reflexivity|]. destruct l; [destruct t; reflexivity|]. apply IHa. Qed.
Lemma nth_firstn : forall {A} (l : list A) b t, t < b -> nth_error (firstn b l) t = nth_error l t.
Proof. intros A l b. revert l. induction b; intros l t L; [lia|]. destruct l; [reflexivity|]. destruct t; [reflexivity|]. cbn. apply IHb. lia. Qed.
(** The columns of a window which passes the end of the grid. *)
Lemma window_nth : forall {A} (l : list A) a b t, b <= a -> a <= length l -> t < length l - a + b ->
  nth_error (skipn a l ++ firstn b l) t = nth_error l ((t + a) mod length l).
Proof.
  intros A l a b t L1 L2 L. destruct (Nat.lt_ge_cases t (length l - a)) as [H|H].
  - rewrite nth_error_app1 by (rewrite skipn_length; lia). rewrite nth_skipn. f_equal. rewrite Nat.mod_small by lia. lia.
  - rewrite nth_error_app2 by (rewrite skipn_length; lia). rewrite skipn_length, nth_firstn by lia. f_equal.
    replace (t + a) with ((t - (length l - a)) + 1 * length l) by lia. rewrite Nat.mod_add by lia. symmetry. apply Nat.mod_small. lia.
Qed.
Lemma contains_iff_near : forall c ref x y, (forall w, In w c -> (-180 < fst w - ref < 180)%Q) -> c <> [] ->
  inside c (Qmod (x - ref + 180) 360 + ref - 180, y)%Q <-> contains c (x, y).
Proof.
  intros c ref x y H NE. destruct (Qmod_turn (x - ref + 180)) as (k & K & R0 & R1). unfold contains, shift. cbn [fst snd]. split.
  - intros I. exists k. unfold inside in *. rewrite <- (winding_comp (Qmod (x - ref + 180) 360 + ref - 180, y)%Q); [exact I|]. split; cbn [fst snd]; [rewrite K; ring|reflexivity].
  - intros [k' I]. destruct (bbox_total c NE) as [[[[x0 x1] y0] y1] B]. destruct (bbox_spec _ _ _ _ _ B) as (_ & (v0 & I0 & E0) & (v1 & I1 & E1) & _).
    destruct (inside_box _ _ _ _ _ _ B I) as [[L U] _]. cbn [fst] in *. pose proof (H v0 I0) as H0. pose proof (H v1 I1) as H1. rewrite E0 in H0. rewrite E1 in H1.
    assert (D : (k' - k = 0)%Z) by (apply no_turn; rewrite inject_Z_minus; lra). assert (k' = k) by lia. subst k'.
    unfold inside in *. rewrite (winding_comp _ ((x + 360 * inject_Z k)%Q, y)); [exact I|]. split; cbn [fst snd]; [rewrite K; ring|reflexivity].
Qed.

Theorem around : forall g c, good_grid g -> one_turn g -> c <> [] -> narrow g c -> meets_turn g c -> above_margin g c ->
  exists ps, get_pixels_in g c = Some ps /\ exactly g (contains c) ps.
Proof.
  intros g c (GX & GY & GN) [CI TU] NE [NA RE] [(w0 & W0 & W0') (w1 & W1 & W1')] M. destruct (bbox_total c NE) as [[[[x0 x1] y0] y1] B]. destruct (bbox_spec _ _ _ _ _ B) as (R & (vx0 & I0 & E0) & (vx1 & I1 & E1) & (vy0 & J0 & F0) & (vy1 & J1 & F1)).
  pose proof (M vy0 J0) as M0. rewrite F0 in M0. pose proof (NA vx1 vx0 I1 I0) as NA'. rewrite E0, E1 in NA'.
  destruct (R vx1 I1) as [[X01 _] _]. rewrite E1 in X01. destruct (R vy1 J1) as [_ [Y01 _]]. rewrite F1 in Y01. destruct (R w0 W0) as [[_ R0] _]. destruct (R w1 W1) as [[R1 _] _].
  assert (G0 : (g_x0 g <= x1)%Q) by lra. assert (G1 : (x0 < g_x0 g + 360)%Q) by lra. clear W0 W0' W1 W1' R0 R1 w0 w1.
  destruct (turn_near _ (g_x0 g) x0 _ (proj1 GX) TU) as [ka A0]. destruct (turn_near _ (g_x0 g) x1 _ (proj1 GX) TU) as [kb A1].
  pose proof (near_qround _ (g_y0 g) y0 (proj1 GY)) as B0. pose proof (near_qround _ (g_y0 g) y1 (proj1 GY)) as B1.
  unfold get_pixels_in, bbox_indice_regular. rewrite B. cbn [bind]. unfold nearest_grd_indice. rewrite CI.
  set (a := qround (Qmod (x0 - g_x0 g) 360 / g_xstep g)) in *. set (b := qround (Qmod (x1 - g_x0 g) 360 / g_xstep g)) in *.
  set (d := qround ((y0 - g_y0 g) / g_ystep g)) in *. set (e := qround ((y1 - g_y0 g) / g_ystep g)) in *. clearbody a b d e.
  pose proof (near_mono _ _ _ _ _ _ (proj1 GX) X01 A0 A1) as AB. pose proof (near_mono _ _ _ _ _ _ (proj1 GY) Y01 B0 B1) as DE. pose proof (near_start _ _ _ _ _ (proj1 GY) B0 M0) as D0.
  set (n := Z.of_nat (length (g_x g))) in *.
  assert (NP : (0 < n)%Z). { destruct (Z.eq_dec n 0) as [Z0|]; [|unfold n in *; lia]. rewrite Z0 in TU. change (inject_Z 0) with 0%Q in TU. lra. }
  set (A := (a + n * ka - g_N g)%Z). set (Bq := (b + n * kb + g_N g + 1)%Z).
  replace ((a - g_N g) mod n)%Z with (A mod n)%Z by (unfold A; replace (a + n * ka - g_N g)%Z with (a - g_N g + ka * n)%Z by lia; apply Z.mod_add; lia).
  replace ((b + g_N g + 1) mod n)%Z with (Bq mod n)%Z by (unfold Bq; replace (b + n * kb + g_N g + 1)%Z with (b + g_N g + 1 + kb * n)%Z by lia; apply Z.mod_add; lia).
  assert (LEN : (0 < Bq - A < n)%Z).
  { split; [unfold A, Bq; lia|]. destruct A0 as [_ A0]. destruct A1 as [A1 _]. destruct GX as [GP _].
    assert (X : (inject_Z (Bq - A) * g_xstep g < inject_Z n * g_xstep g)%Q).
    { assert (E : (inject_Z (Bq - A) == inject_Z (b + n * kb) - inject_Z (a + n * ka) + 2 * inject_Z (g_N g) + 1)%Q) by (unfold A, Bq; rewrite !inject_Z_minus, !inject_Z_plus; change (inject_Z 1) with 1%Q; ring).
      rewrite E, TU. unfold half in *. lra. }
    apply Qmult_lt_r in X; [|exact GP]. apply (proj1 (inject_Z_lt_iff _ _)) in X. exact X. }
  assert (COLS : forall i x k, nth_error (g_x g) i = Some x -> (x0 <= x + 360 * inject_Z k <= x1)%Q -> (A <= Z.of_nat i + n * k < Bq)%Z).
  { intros i x k X [L H]. destruct GX as [GP GE]. rewrite (GE i x X) in L, H. rewrite (turn_cell _ _ n) in L, H by exact TU.
    pose proof (near_low _ _ _ _ _ GP A0 L). pose proof (near_high _ _ _ _ _ GP A1 H). unfold A, Bq. lia. }
  assert (ROWS : forall j x y, nth_error (g_y g) j = Some y -> contains c (x, y) -> (d - g_N g <= Z.of_nat j < e + g_N g + 1)%Z).
  { intros j x y Y [k P]. destruct (inside_box _ _ _ _ _ _ B P) as [_ [L H]]. cbn [snd shift] in *.
    pose proof (cells_low _ _ _ _ _ GY B0 j y Y L) as Lo. pose proof (cells_high _ _ _ _ _ GY B1 j y Y H) as Hi. lia. }
  destruct (window_len n A Bq NP LEN) as [LW LN]. pose proof (Z.mod_pos_bound A n NP) as RA. pose proof (Z.mod_pos_bound Bq n NP) as RB.
  cbn [bind]. cbv beta iota zeta. unfold get_pixel_in_regular. cbv beta iota zeta. destruct (Z.ltb_spec (Bq mod n) (A mod n)) as [W|W].
  - specialize (LW W). destruct c as [|v0 cs] eqn:EC; [contradiction|]. rewrite <- EC in *. assert (V0 : nth_error c 0 = Some v0) by (subst c; reflexivity). rewrite V0. cbn [bind].
    assert (RE' : forall w, In w c -> (-180 < fst w - fst v0 < 180)%Q) by (intros w I; exact (RE v0 w V0 I)). clear EC cs.
    eexists. split; [reflexivity|]. rewrite pyslice_from, pyslice_to by lia. fold n.
    set (sa := (A mod n)%Z) in *. set (sb := (Bq mod n)%Z) in *.
    set (l := skipn (Z.to_nat sa) (g_x g) ++ firstn (Z.to_nat sb) (g_x g)).
    assert (LL : Z.of_nat (length l) = (Bq - A)%Z) by (unfold l; rewrite app_length, skipn_length, firstn_length; unfold n in *; lia).
    assert (COL : forall t, column sa sb n t = Z.of_nat ((t + Z.to_nat sa) mod length (g_x g))).
    { intros t. unfold column. destruct (Z.ltb_spec sb sa); [|lia]. rewrite Nat2Z.inj_mod. unfold n. f_equal. lia. }
    apply table_exactly; fold n; [| | |lia|lia|exact ROWS].
    + intros t xv X. rewrite nth_error_map in X. destruct (nth_error l t) as [x|] eqn:XT; [|discriminate X]. injection X as <-.
      assert (TL : t < length l) by (eapply nth_error_Some_lt; exact XT).
      exists ((t + Z.to_nat sa) mod length (g_x g)), x. split; [apply COL|]. split.
      * rewrite <- XT. unfold l. symmetry. apply window_nth; unfold n in *; lia.
      * intros y. apply contains_iff_near; assumption.
    + intros t t' T T'. rewrite map_length in T, T'. rewrite !COL. intros E. apply Nat2Z.inj in E.
      assert (H : forall u, u < length l -> (u + Z.to_nat sa) mod length (g_x g) = if u + Z.to_nat sa <? length (g_x g) then u + Z.to_nat sa else u + Z.to_nat sa - length (g_x g)).
      { intros u U. destruct (Nat.ltb_spec (u + Z.to_nat sa) (length (g_x g))); [apply Nat.mod_small; lia|].
        replace (u + Z.to_nat sa) with (u + Z.to_nat sa - length (g_x g) + 1 * length (g_x g)) at 1 by lia. rewrite Nat.mod_add by (unfold n in *; lia). apply Nat.mod_small. unfold n in *; lia. }
      rewrite !H in E by assumption. destruct (Nat.ltb_spec (t + Z.to_nat sa) (length (g_x g))); destruct (Nat.ltb_spec (t' + Z.to_nat sa) (length (g_x g))); unfold n in *; lia.
    + intros i x y X [k P]. destruct (inside_box _ _ _ _ _ _ B P) as [LH _]. cbn [fst shift] in LH. pose proof (COLS i x k X LH) as CO. pose proof (nth_error_Some_lt _ _ _ X) as IL.
      destruct (window_mod n A Bq (Z.of_nat i) k NP CO ltac:(lia) ltac:(unfold n; lia)) as [H _]. fold sa sb in H. rewrite map_length. setoid_rewrite COL. destruct (H W) as [H'|H'].
      * exists (i - Z.to_nat sa). split; [unfold n in *; lia|]. f_equal. replace (i - Z.to_nat sa + Z.to_nat sa) with i by lia. apply Nat.mod_small. exact IL.
      * exists (length (g_x g) - Z.to_nat sa + i). split; [unfold n in *; lia|]. f_equal. replace (length (g_x g) - Z.to_nat sa + i + Z.to_nat sa) with (i + 1 * length (g_x g)) by (unfold n in *; lia). rewrite Nat.mod_add by lia. apply Nat.mod_small. exact IL.
  - destruct (LN W) as [LN1 LN2]. eexists. split; [reflexivity|]. fold n.
    assert (Q0 : (A / n = 0)%Z).
    { pose proof (Z.div_mod A n ltac:(lia)) as DA. pose proof (Z.div_mod Bq n ltac:(lia)) as DB. rewrite LN2 in DB. destruct GX as [GP _].
      assert (H1 : (0 <= b + n * kb)%Z). { assert (-1 < b + n * kb)%Z; [|lia]. destruct A1 as [_ A1]. apply inject_Z_lt_iff. change (inject_Z (-1)) with (-1)%Q. assert (X : (0 * g_xstep g <= (inject_Z (b + n * kb) + half) * g_xstep g)%Q) by lra. apply Qmult_le_r in X; [|exact GP]. unfold half in X. lra. }
      assert (H0 : (a + n * ka <= n)%Z). { assert (a + n * ka < n + 1)%Z; [|lia]. destruct A0 as [A0 _]. apply inject_Z_lt_iff. rewrite (inject_Z_plus n 1). change (inject_Z 1) with 1%Q. assert (X : ((inject_Z (a + n * ka) - half) * g_xstep g < inject_Z n * g_xstep g)%Q) by (rewrite TU; lra). apply Qmult_lt_r in X; [|exact GP]. unfold half in X. lra. }
      assert (HA : (A + g_N g <= n)%Z) by (unfold A; lia). assert (HB : (0 <= Bq - g_N g - 1)%Z) by (unfold Bq; lia). clear - DA DB HA HB RA RB GN NP.
      set (q := (A / n)%Z) in *. set (ra := (A mod n)%Z) in *. set (rb := (Bq mod n)%Z) in *. clearbody q ra rb A Bq. nia. }
    assert (EA : (A mod n = A)%Z) by (pose proof (Z.div_mod A n ltac:(lia)) as DA; rewrite Q0 in DA; lia).
    assert (EB : (Bq mod n = Bq)%Z) by (pose proof (Z.div_mod Bq n ltac:(lia)) as DA; rewrite LN2, Q0 in DA; lia). rewrite EA, EB in *.
    assert (K0 : forall i x y k, nth_error (g_x g) i = Some x -> inside c (shift k (x, y)) -> k = 0%Z /\ (A <= Z.of_nat i < Bq)%Z).
    { intros i x y k X P. destruct (inside_box _ _ _ _ _ _ B P) as [LH _]. cbn [fst shift] in LH. pose proof (COLS i x k X LH) as CO. pose proof (nth_error_Some_lt _ _ _ X) as IL. assert (k = 0)%Z by (unfold n in *; nia). subst k. lia. }
    apply table_exactly; fold n; [| | |lia|lia|exact ROWS].
    + intros t xv X. rewrite pyslice_nth in X by lia. unfold column. destruct (Z.ltb_spec Bq A); [lia|]. destruct (_ <? _)%Z; [|discriminate X].
      exists (Z.to_nat A + t), xv. split; [lia|]. split; [exact X|]. intros y. split.
      * intros I. exists 0%Z. unfold inside, shift in *. cbn [fst snd]. rewrite <- (winding_comp (xv, y)); [exact I|]. split; cbn [fst snd]; [change (inject_Z 0) with 0%Q; ring|reflexivity].
      * intros [k I]. destruct (K0 _ _ y k X I) as [-> _]. unfold inside, shift in *. cbn [fst snd] in *. rewrite (winding_comp _ ((xv + 360 * inject_Z 0)%Q, y)); [exact I|]. split; cbn [fst snd]; [change (inject_Z 0) with 0%Q; ring|reflexivity].
    + intros t t' _ _. unfold column. destruct (Z.ltb_spec Bq A); lia.
    + intros i x y X [k I]. destruct (K0 _ _ y k X I) as [_ H]. exists (i - Z.to_nat A). split; [|unfold column; destruct (Z.ltb_spec Bq A); lia].
      assert (V : nth_error (pyslice (g_x g) (Some A) (Some Bq)) (i - Z.to_nat A) = Some x).
      { rewrite pyslice_nth by lia. destruct (Z.ltb_spec (A + Z.of_nat (i - Z.to_nat A)) Bq); [|lia]. replace (Z.to_nat A + (i - Z.to_nat A)) with i by lia. exact X. }
      eapply nth_error_Some_lt. exact V.
Qed.
