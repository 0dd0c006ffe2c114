(** C155: the band filter of a regular grid. *)
From Coq Require Import List Arith ZArith QArith Qabs Bool Lia Lqa.
From Verif Require Import Base Qaux Spec Obs_model Obs_proofs Corr_model Grid_path Poly_pairs Filt_spec Filt_model Filt_proofs Filt_mean Filt_more Filt_props Band_model.
Import ListNotations.
Local Close Scope Q_scope.
Local Open Scope nat_scope.

(** ** Specification *)
(** Value held by a cell of a filtered grid. *)
Definition held (c : filtered) : option Q := match c with Val q => Some q | _ => None end.
(** No division by zero in a filtered grid. *)
Definition no_nan (out : list (list filtered)) : Prop := forall x y, ~ cell_of out x y Nan.
(** The same grid, [d] added to every value. *)
Definition plus_value (d : Q) (u v : option Q) : Prop := match u, v with None, None => True | Some a, Some b => (b == a + d)%Q | _, _ => False end.
Definition shifted (circular : bool) (d : Q) (data data' : grid) : Prop := forall x y, plus_value d (value_at circular data x y) (value_at circular data' x y).

(** ** Lemmas *)
Lemma cell_lt {A} (out : list (list A)) nx x y c : (forall l, In l out -> length l = nx) -> cell_of out x y c -> x < nx /\ y < length out.
Proof. intros L (l & N & M). split; [rewrite <- (L l (nth_error_In _ _ N)); exact (nth_error_Some_lt _ _ _ M)|exact (nth_error_Some_lt _ _ _ N)]. Qed.
Lemma cell_ex {A} (out : list (list A)) nx x y : (forall l, In l out -> length l = nx) -> x < nx -> y < length out -> exists c, cell_of out x y c.
Proof. intros L X Y. destruct (nth_error_lt_Some out y Y) as (l & N). destruct (nth_error_lt_Some l x) as (c & M); [rewrite (L l (nth_error_In _ _ N)); exact X|]. exists c, l. auto. Qed.
Lemma cell_fun {A} (out : list (list A)) x y c c' : cell_of out x y c -> cell_of out x y c' -> c = c'.
Proof. intros (l & N & M) (l' & N' & M'). rewrite N in N'. injection N' as <-. rewrite M in M'. now injection M'. Qed.
Lemma value_at_in circular (g : grid) x y : x < length g -> value_at circular g (Z.of_nat x) (Z.of_nat y) = match nth_error g x with Some row => match nth_error row y with Some (Some v) => Some v | _ => None end | None => None end.
Proof.
  intros X. unfold value_at. assert (E : (if circular then (Z.of_nat x mod Z.of_nat (length g))%Z else Z.of_nat x) = Z.of_nat x) by (destruct circular; [apply Z.mod_small; lia|reflexivity]). rewrite E.
  destruct (Z.ltb_spec (Z.of_nat x) 0); [lia|]. destruct (Z.ltb_spec (Z.of_nat y) 0); [lia|]. cbn [orb]. now rewrite !Nat2Z.id.
Qed.
Lemma to_grid_spec nx out : (forall l, In l out -> length l = nx) -> no_nan out ->
  exists g, to_grid nx out = Some g /\ rect nx (length out) g /\ forall circular x y c, cell_of out x y c -> value_at circular g (Z.of_nat x) (Z.of_nat y) = held c.
Proof.
  intros L NN. unfold to_grid.
  assert (ROW : forall x, x < nx -> exists row, sequence (map (fun line => let! c := nth_error line x in to_cell c) out) = Some row).
  { intros x X. apply sequence_total. intros line I. destruct (In_nth_error _ _ I) as (y & Y). destruct (nth_error_lt_Some line x) as (c & C); [rewrite (L line I); exact X|]. rewrite C. cbn [bind].
    destruct c; cbn; [discriminate| |discriminate]. elim (NN x y). exists line. auto. }
  destruct (sequence_total (fun x => sequence (map (fun line => let! c := nth_error line x in to_cell c) out)) (seq 0 nx)) as (g & G).
  { intros x I. apply in_seq in I. destruct (ROW x) as (row & ->); [lia|discriminate]. }
  exists g. split; [exact G|]. destruct (sequence_nth _ _ G) as (LG & NG). rewrite map_length, seq_length in LG.
  assert (GR : forall x row, nth_error g x = Some row -> sequence (map (fun line => let! c := nth_error line x in to_cell c) out) = Some row).
  { intros x row R. pose proof (nth_error_Some_lt _ _ _ R) as X. specialize (NG x). rewrite R, nth_error_map, nth_error_seq in NG. destruct (Nat.ltb_spec x nx); [|lia]. cbn [option_map Nat.add] in NG. now injection NG. }
  split.
  - split; [exact LG|]. intros row I. destruct (In_nth_error _ _ I) as (x & X). apply GR in X. apply sequence_nth in X. destruct X as (X & _). now rewrite map_length in X.
  - intros circular x y c C. destruct (cell_lt _ _ _ _ _ L C) as (X & Y). rewrite value_at_in by lia. destruct (nth_error_lt_Some g x) as (row & R); [lia|]. rewrite R. apply GR in R.
    destruct (sequence_nth _ _ R) as (LR & NR). specialize (NR y). destruct C as (line & N & M). rewrite nth_error_map, N in NR. cbn [option_map] in NR. rewrite M in NR. cbn [bind] in NR.
    destruct c as [| |q]; cbn in NR; [| |]; (destruct (nth_error row y) as [v|]; [injection NR as NR; try discriminate|discriminate]); subst; reflexivity.
Qed.
Lemma to_grid_no_nan nx out g : (forall l, In l out -> length l = nx) -> to_grid nx out = Some g -> no_nan out.
Proof.
  intros L G x y C. destruct (cell_lt _ _ _ _ _ L C) as (X & Y). unfold to_grid in G. destruct (sequence_nth _ _ G) as (_ & NG). specialize (NG x). rewrite nth_error_map, nth_error_seq in NG. destruct (Nat.ltb_spec x nx); [|lia]. cbn [option_map Nat.add] in NG.
  destruct (nth_error g x) as [row|]; [|discriminate]. injection NG as NG. destruct (sequence_nth _ _ NG) as (_ & NR). specialize (NR y). destruct C as (line & N & M). rewrite nth_error_map, N in NR. cbn [option_map] in NR. rewrite M in NR. cbn [bind to_cell] in NR.
  destruct (nth_error row y); discriminate.
Qed.

(** ** Theorems *)
(** Every value of the result is the value of the filter at the short wavelength minus the
    filter at the long one of this filtered grid; a cell masked in one of them is masked. *)
Theorem C155_band : forall circular data nx ny lats short long lat_max extend low,
  rect nx ny data -> length lats = ny -> kernels_ok circular nx lats lat_max short -> kernels_ok circular nx lats lat_max long ->
  convolve circular data lats short lat_max extend = Some low -> no_nan low ->
  exists g out band, rect nx ny g /\ convolve circular g lats long lat_max extend = Some out /\ band_filter circular data lats short long lat_max extend = Some band /\
    forall x y, x < nx -> y < ny -> exists c d e, cell_of low x y c /\ cell_of out x y d /\ cell_of band x y e /\ value_at circular g (Z.of_nat x) (Z.of_nat y) = held c /\
      (c = Masked \/ d = Masked -> e = Masked) /\ (forall q r, c = Val q -> d = Val r -> e = Val (q - r)%Q).
Proof.
  intros circular data nx ny lats short long lat_max extend low RD LY KS KL E NN.
  destruct (convolve_spec circular data nx ny lats short lat_max extend RD LY KS) as (low' & E' & LL & WL & _). rewrite E in E'. apply Some_inj in E'. subst low'.
  destruct (to_grid_spec nx low WL NN) as (g & G & RG & VG). rewrite LL in RG.
  destruct (convolve_spec circular g nx ny lats long lat_max extend RG LY KL) as (out & EO & LO & WO & _).
  exists g, out, (minus_columns low out). split; [exact RG|]. split; [exact EO|]. split; [unfold band_filter; rewrite E; cbn [bind]; pose proof RD as (LD & _); rewrite LD, G; cbn [bind]; now rewrite EO|].
  intros x y X Y. destruct (cell_ex low nx x y WL X) as (c & C); [lia|]. destruct (cell_ex out nx x y WO X) as (d & D); [lia|]. exists c, d, (minus c d). split; [exact C|]. split; [exact D|]. split; [now apply minus_columns_nth|]. split; [now apply VG|].
  split; [intros [-> | ->]; [reflexivity|destruct c; reflexivity]|intros q r -> ->; reflexivity].
Qed.
Print Assumptions C155_band.

Lemma combine_at {A B} (l : list A) : forall (m : list B) i a b, nth_error (combine l m) i = Some (a, b) -> nth_error l i = Some a /\ nth_error m i = Some b.
Proof. induction l as [|u l IH]; intros [|v m] [|i] a b H; cbn in H |- *; try discriminate; [injection H as -> ->; auto|now apply IH]. Qed.
(** A value of the band comes from a value of each filter. *)
Lemma band_value circular data nx ny lats short long lat_max extend band x y e : rect nx ny data -> length lats = ny -> kernels_ok circular nx lats lat_max short -> kernels_ok circular nx lats lat_max long ->
  band_filter circular data lats short long lat_max extend = Some band -> cell_of band x y e ->
  exists low g out c d, convolve circular data lats short lat_max extend = Some low /\ rect nx ny g /\ convolve circular g lats long lat_max extend = Some out /\
    (forall x y c, cell_of low x y c -> value_at circular g (Z.of_nat x) (Z.of_nat y) = held c) /\ x < nx /\ y < ny /\ cell_of low x y c /\ c <> Nan /\ cell_of out x y d /\ e = minus c d.
Proof.
  intros RD LY KS KL B C. destruct (convolve_spec circular data nx ny lats short lat_max extend RD LY KS) as (low & E & LL & WL & _). pose proof RD as (LD & _).
  unfold band_filter in B. rewrite E in B. cbn [bind] in B. rewrite LD in B. destruct (to_grid nx low) as [g|] eqn:G; [cbn [bind] in B|discriminate].
  pose proof (to_grid_no_nan nx low g WL G) as NN. destruct (to_grid_spec nx low WL NN) as (g' & G' & RG & VG). rewrite G in G'. apply Some_inj in G'. subst g'. rewrite LL in RG.
  destruct (convolve_spec circular g nx ny lats long lat_max extend RG LY KL) as (out & EO & LO & WO & _). rewrite EO in B. cbn [bind] in B. apply Some_inj in B. subst band.
  destruct C as (l & N & M). unfold minus_columns in N. rewrite nth_error_map in N. destruct (nth_error (combine low out) y) as [[l1 l2]|] eqn:NC; [|discriminate]. cbn [option_map fst snd] in N. apply Some_inj in N. subst l.
  rewrite nth_error_map in M. destruct (nth_error (combine l1 l2) x) as [[c d]|] eqn:MC; [|discriminate]. cbn [option_map fst snd] in M. apply Some_inj in M.
  pose proof (combine_at _ _ _ _ _ NC) as N1. pose proof (combine_at _ _ _ _ _ MC) as M1.
  destruct N1 as (N1 & N2), M1 as (M1 & M2). assert (C : cell_of low x y c) by (exists l1; auto). assert (D : cell_of out x y d) by (exists l2; auto). destruct (cell_lt _ _ _ _ _ WL C) as (X & Y).
  exists low, g, out, c, d. split; [exact E|]. split; [exact RG|]. split; [exact EO|]. split; [intros; now apply VG|]. split; [exact X|]. split; [lia|]. split; [exact C|]. split; [intros ->; now apply (NN x y)|]. split; [exact D|]. now rewrite M.
Qed.
Lemma value_in circular (g : grid) nx ny x y u : rect nx ny g -> value_at circular g x y = Some u -> exists a b, a < nx /\ b < ny /\ value_at circular g (Z.of_nat a) (Z.of_nat b) = Some u.
Proof.
  intros (L & R) V. unfold value_at in V. set (x' := if circular then (x mod Z.of_nat (length g))%Z else x) in *. destruct (Z.ltb_spec x' 0); [discriminate|]. destruct (Z.ltb_spec y 0); [discriminate|]. cbn [orb] in V.
  destruct (nth_error g (Z.to_nat x')) as [row|] eqn:N; [|discriminate]. destruct (nth_error row (Z.to_nat y)) as [[v|]|] eqn:M; try discriminate.
  exists (Z.to_nat x'), (Z.to_nat y). pose proof (nth_error_Some_lt _ _ _ N). pose proof (nth_error_Some_lt _ _ _ M) as B. rewrite (R row (nth_error_In _ _ N)) in B. split; [lia|]. split; [exact B|]. rewrite value_at_in by assumption. now rewrite N, M.
Qed.

(** The band of a constant field is zero. *)
Theorem C155_constant : forall circular data nx ny lats short long lat_max extend band v,
  rect nx ny data -> length lats = ny -> kernels_ok circular nx lats lat_max short -> kernels_ok circular nx lats lat_max long ->
  band_filter circular data lats short long lat_max extend = Some band -> (forall x y u, value_at circular data x y = Some u -> (u == v)%Q) ->
  forall x y q, cell_of band x y (Val q) -> (q == 0)%Q.
Proof.
  intros circular data nx ny lats short long lat_max extend band v RD LY KS KL B H x y q C.
  destruct (band_value _ _ _ _ _ _ _ _ _ _ _ _ _ RD LY KS KL B C) as (low & g & out & c & d & E & RG & EO & VG & X & Y & CC & NC & D & M).
  destruct c as [| |c]; [discriminate|congruence|]. destruct d as [| |d]; try discriminate. injection M as ->.
  assert (LOW : forall x y c, cell_of low x y (Val c) -> (c == v)%Q) by (apply (C99_constant _ _ _ _ _ _ _ _ _ _ RD LY KS E H)).
  destruct (convolve_spec circular data nx ny lats short lat_max extend RD LY KS) as (low' & E' & LL & WL & _). rewrite E in E'. apply Some_inj in E'. subst low'.
  assert (G : forall x y u, value_at circular g x y = Some u -> (u == v)%Q).
  { intros a b u V. destruct (value_in _ _ _ _ _ _ _ RG V) as (a' & b' & A & Bb & V'). destruct (cell_ex low nx a' b' WL A) as (w & W); [lia|]. rewrite (VG _ _ _ W) in V'. destruct w; cbn in V'; try discriminate. injection V' as <-. eapply LOW; eauto. }
  assert (OUT := C99_constant _ _ _ _ _ _ _ _ _ _ RG LY KL EO G). rewrite (LOW _ _ _ CC), (OUT _ _ _ D). ring.
Qed.
Print Assumptions C155_constant.

Definition plus_cell (d : Q) (c c' : filtered) : Prop := match c, c' with Masked, Masked => True | Nan, Nan => True | Val a, Val b => (b == a + d)%Q | _, _ => False end.
Lemma Qsum_shift {A} (l : list A) (f g w : A -> Q) d : (forall a, In a l -> g a == f a + d * w a)%Q -> (Qsum (map g l) == Qsum (map f l) + d * Qsum (map w l))%Q.
Proof.
  induction l as [|a l IH]; intros H; [cbn; ring|]. cbn [map]. change (g a + Qsum (map g l) == (f a + Qsum (map f l)) + d * (w a + Qsum (map w l)))%Q. rewrite IH by (intros; apply H; now right). rewrite (H a) by now left. ring.
Qed.
Lemma around_shift circular data data' d K dx dy x y : shifted circular d data data' ->
  around_weight circular data' K dx dy x y = around_weight circular data K dx dy x y /\ (around_sum circular data' K dx dy x y == around_sum circular data K dx dy x y + d * around_weight circular data K dx dy x y)%Q.
Proof.
  intros S1. split.
  - unfold around_weight. apply over_eq. intros a b. specialize (S1 (Z.of_nat x + a)%Z (Z.of_nat y + b)%Z). destruct (value_at circular data _ _), (value_at circular data' _ _); cbn in S1; (reflexivity || contradiction).
  - unfold around_sum, around_weight, over. apply Qsum_shift. intros (a, b) _. cbn [fst snd]. specialize (S1 (Z.of_nat x + a)%Z (Z.of_nat y + b)%Z). destruct (value_at circular data _ _), (value_at circular data' _ _); cbn in S1; try contradiction; [rewrite S1|]; ring.
Qed.
Lemma convolve_shift circular data data' d nx ny lats kernel lat_max extend out out' : rect nx ny data -> rect nx ny data' -> length lats = ny -> kernels_ok circular nx lats lat_max kernel -> shifted circular d data data' ->
  convolve circular data lats kernel lat_max extend = Some out -> convolve circular data' lats kernel lat_max extend = Some out' ->
  forall x y c c', cell_of out x y c -> cell_of out' x y c' -> plus_cell d c c'.
Proof.
  intros RD RD' LY HK S1 E E' x y c c' C C'.
  destruct (convolve_spec circular data nx ny lats kernel lat_max extend RD LY HK) as (o & Eo & LO & WO & H). rewrite E in Eo. apply Some_inj in Eo. subst o.
  destruct (convolve_spec circular data' nx ny lats kernel lat_max extend RD' LY HK) as (o & Eo & LO' & WO' & H'). rewrite E' in Eo. apply Some_inj in Eo. subst o.
  destruct (cell_lt _ _ _ _ _ WO C) as (X & Y). destruct (nth_error_lt_Some lats y) as (lat & NY); [lia|].
  destruct (H x y lat X NY) as (c1 & C1 & A1 & A2 & A3). destruct (H' x y lat X NY) as (c2 & C2 & B1 & B2 & B3). rewrite (cell_fun _ _ _ _ _ C C1). rewrite (cell_fun _ _ _ _ _ C' C2). clear c c' C C'.
  assert (SAME : forall a b, value_at circular data a b = None <-> value_at circular data' a b = None).
  { intros a b. specialize (S1 a b). destruct (value_at circular data a b), (value_at circular data' a b); cbn in S1; try contradiction; split; (discriminate || auto). }
  destruct (Qlt_le_dec lat_max (Qabs lat)) as [Hl|Hl]; [rewrite (A1 Hl), (B1 Hl); exact I|].
  destruct (forallb (fun x' => match value_at circular data (Z.of_nat x') (Z.of_nat y) with None => true | Some _ => false end) (seq 0 nx)) eqn:FB.
  - rewrite forallb_forall in FB. assert (F : forall x', x' < nx -> value_at circular data (Z.of_nat x') (Z.of_nat y) = None) by (intros x' X'; specialize (FB x'); destruct (value_at circular data _ _); [|reflexivity]; discriminate FB; apply in_seq; lia).
    rewrite (A2 F), B2; [exact I|]. intros x' X'. now apply SAME, F.
  - assert (F : exists x', x' < nx /\ value_at circular data (Z.of_nat x') (Z.of_nat y) <> None).
    { apply Bool.not_true_iff_false in FB. rewrite forallb_forall in FB. destruct (Exists_dec (fun x' => value_at circular data (Z.of_nat x') (Z.of_nat y) <> None) (seq 0 nx)) as [X1|X1]; [intros z; destruct (value_at circular data _ _); [left|right]; congruence| |].
      - apply Exists_exists in X1. destruct X1 as (z & Iz & Vz). apply in_seq in Iz. exists z. split; [lia|exact Vz].
      - elim FB. intros z Iz. destruct (value_at circular data (Z.of_nat z) (Z.of_nat y)) eqn:V; [|reflexivity]. elim X1. apply Exists_exists. exists z. rewrite V. split; [exact Iz|discriminate]. }
    destruct (HK lat (nth_error_In _ _ NY) Hl) as (K & dx & dy & EK & OK & _). specialize (A3 Hl F K dx dy EK OK).
    assert (F' : exists x', x' < nx /\ value_at circular data' (Z.of_nat x') (Z.of_nat y) <> None) by (destruct F as (z & Z1 & Z2); exists z; split; [exact Z1|]; intros Z3; now apply Z2, SAME).
    specialize (B3 Hl F' K dx dy EK OK). destruct (around_shift circular data data' d K dx dy x y S1) as (EW & ES). unfold mean_around in A3, B3. rewrite EW in B3. cbv zeta in A3, B3.
    set (w := around_weight circular data K dx dy x y) in *. set (s := around_sum circular data K dx dy x y) in *. set (s' := around_sum circular data' K dx dy x y) in *. clearbody w s s'.
    destruct A3 as (P1 & P2 & P3), B3 as (Q1 & Q2 & Q3).
    set (mk := match extend with Some e => (w < e * total_weight K dx dy)%Q | None => value_at circular data (Z.of_nat x) (Z.of_nat y) = None end) in *.
    set (mk' := match extend with Some e => (w < e * total_weight K dx dy)%Q | None => value_at circular data' (Z.of_nat x) (Z.of_nat y) = None end) in *.
    assert (MK : mk <-> mk') by (unfold mk, mk'; destruct extend; [tauto|apply SAME]).
    assert (DEC : mk \/ ~ mk) by (unfold mk; destruct extend as [e|]; [destruct (Qlt_le_dec w (e * total_weight K dx dy)) as [|W]; [now left|right; intros W'; exact (Qlt_not_le _ _ W' W)]|destruct (value_at circular data _ _); [right; discriminate|now left]]).
    destruct DEC as [Y1|N1]; [rewrite (P1 Y1), Q1 by (now apply MK); exact I|]. assert (N1' : ~ mk') by (intros Z1; now apply N1, MK).
    destruct (Qeq_dec w 0) as [W|W]; [rewrite (P2 N1 W), (Q2 N1' W); exact I|]. destruct (P3 N1 W) as (q & -> & Eq). destruct (Q3 N1' W) as (q' & -> & Eq'). cbn. rewrite Eq, Eq', ES. field. exact W.
Qed.

(** The band does not depend on the level of the field: the same value added to all the
    cells changes nothing. *)
Theorem C155_level : forall circular data data' d nx ny lats short long lat_max extend band band',
  rect nx ny data -> rect nx ny data' -> length lats = ny -> kernels_ok circular nx lats lat_max short -> kernels_ok circular nx lats lat_max long -> shifted circular d data data' ->
  band_filter circular data lats short long lat_max extend = Some band -> band_filter circular data' lats short long lat_max extend = Some band' ->
  forall x y e e', cell_of band x y e -> cell_of band' x y e' -> same_cell e e'.
Proof.
  intros circular data data' d nx ny lats short long lat_max extend band band' RD RD' LY KS KL S1 B B' x y e e' C C'.
  destruct (band_value _ _ _ _ _ _ _ _ _ _ _ _ _ RD LY KS KL B C) as (low & g & out & c1 & d1 & E & RG & EO & VG & X & Y & CC & NC & D & M).
  destruct (band_value _ _ _ _ _ _ _ _ _ _ _ _ _ RD' LY KS KL B' C') as (low' & g' & out' & c2 & d2 & E' & RG' & EO' & VG' & _ & _ & CC' & NC' & D' & M').
  assert (LOW := convolve_shift _ _ _ _ _ _ _ _ _ _ _ _ RD RD' LY KS S1 E E').
  destruct (convolve_spec circular data nx ny lats short lat_max extend RD LY KS) as (o & Eo & LL & WL & _). rewrite E in Eo. apply Some_inj in Eo. subst o.
  destruct (convolve_spec circular data' nx ny lats short lat_max extend RD' LY KS) as (o & Eo & LL' & WL' & _). rewrite E' in Eo. apply Some_inj in Eo. subst o.
  assert (IN : forall a b, a < nx -> b < ny -> plus_value d (value_at circular g (Z.of_nat a) (Z.of_nat b)) (value_at circular g' (Z.of_nat a) (Z.of_nat b))).
  { intros a b A Bb. destruct (cell_ex low nx a b WL A) as (u & U); [lia|]. destruct (cell_ex low' nx a b WL' A) as (u' & U'); [lia|]. rewrite (VG _ _ _ U), (VG' _ _ _ U'). pose proof (LOW _ _ _ _ U U') as P. destruct u, u'; cbn in P |- *; auto. }
  assert (SG : shifted circular d g g').
  { intros a b. unfold value_at. pose proof RG as (LG & RR). pose proof RG' as (LG' & RR'). rewrite LG, LG'. set (a' := if circular then (a mod Z.of_nat nx)%Z else a). destruct (Z.ltb_spec a' 0); [exact I|]. destruct (Z.ltb_spec b 0); [exact I|]. cbn [orb].
    destruct (Nat.lt_ge_cases (Z.to_nat a') nx) as [A|A]; [|rewrite (proj2 (nth_error_None g _)), (proj2 (nth_error_None g' _)) by lia; exact I].
    destruct (Nat.lt_ge_cases (Z.to_nat b) ny) as [Bb|Bb].
    - specialize (IN _ _ A Bb). rewrite !value_at_in in IN by lia. exact IN.
    - destruct (nth_error_lt_Some g (Z.to_nat a')) as (r & N); [lia|]. destruct (nth_error_lt_Some g' (Z.to_nat a')) as (r' & N'); [lia|]. rewrite N, N'.
      rewrite (proj2 (nth_error_None r _)) by (rewrite (RR r (nth_error_In _ _ N)); exact Bb). rewrite (proj2 (nth_error_None r' _)) by (rewrite (RR' r' (nth_error_In _ _ N')); exact Bb). exact I. }
  assert (OUT := convolve_shift _ _ _ _ _ _ _ _ _ _ _ _ RG RG' LY KL SG EO EO'). specialize (LOW _ _ _ _ CC CC'). specialize (OUT _ _ _ _ D D'). subst e e'.
  destruct c1, c2, d1, d2; cbn in LOW, OUT |- *; try contradiction; try exact I. rewrite LOW, OUT. ring.
Qed.
Print Assumptions C155_level.

(** ** Without negative weights there is no division by zero *)
Lemma Qsum_nonneg {A} (l : list A) (f : A -> Q) : (forall a, In a l -> 0 <= f a)%Q -> (0 <= Qsum (map f l))%Q.
Proof. induction l as [|a l IH]; intros H; [cbn; lra|]. change (0 <= f a + Qsum (map f l))%Q. pose proof (H a (or_introl eq_refl)). assert (0 <= Qsum (map f l))%Q by (apply IH; intros; apply H; now right). lra. Qed.
Lemma Qsum_pos {A} (l : list A) (f : A -> Q) a : (forall a, In a l -> 0 <= f a)%Q -> In a l -> (0 < f a)%Q -> (0 < Qsum (map f l))%Q.
Proof.
  induction l as [|b l IH]; intros H Ia P; [contradiction|]. change (0 < f b + Qsum (map f l))%Q. pose proof (H b (or_introl eq_refl)) as Hb. assert (T : forall c, In c l -> (0 <= f c)%Q) by (intros; apply H; now right). pose proof (Qsum_nonneg l f T).
  destruct Ia as [->|Ia]; [lra|]. pose proof (IH T Ia P). lra.
Qed.
Lemma over_pos dx dy f : (forall a b, 0 <= f a b)%Q -> (0 < f 0%Z 0%Z)%Q -> (0 < over dx dy f)%Q.
Proof.
  intros H P. unfold over. apply (Qsum_pos (list_prod (span dx) (span dy)) (fun p => f (fst p) (snd p)) (0%Z, 0%Z)); [intros; apply H| |exact P].
  apply in_prod; unfold span; apply in_map_iff; [exists dx|exists dy]; (split; [lia|apply in_seq; lia]).
Qed.
(** With kernels of no negative weight and a weight at their centre (and a positive part
    asked when the masks are extended), no filtered cell is nan, so that the band filter is
    described by [C155_band]. *)
Theorem C155_defined : forall circular data nx ny lats kernel lat_max extend out,
  rect nx ny data -> length lats = ny -> kernels_ok circular nx lats lat_max kernel ->
  (forall lat K, kernel lat = Some K -> (forall row w, In row K -> In w row -> (0 <= w)%Q) /\ forall dx dy, odd_kernel K dx dy -> (0 < weight K dx dy 0 0)%Q) ->
  match extend with Some e => (0 < e)%Q | None => True end ->
  convolve circular data lats kernel lat_max extend = Some out -> no_nan out.
Proof.
  intros circular data nx ny lats kernel lat_max extend out RD LY HK HP HE E x y C.
  destruct (convolve_spec circular data nx ny lats kernel lat_max extend RD LY HK) as (o & Eo & LO & WO & H). rewrite E in Eo. apply Some_inj in Eo. subst o.
  destruct (cell_lt _ _ _ _ _ WO C) as (X & Y). destruct (nth_error_lt_Some lats y) as (lat & NY); [lia|]. destruct (H x y lat X NY) as (c & C1 & A1 & A2 & A3). rewrite <- (cell_fun _ _ _ _ _ C C1) in A1, A2, A3. clear c C1.
  destruct (Qlt_le_dec lat_max (Qabs lat)) as [Hl|Hl]; [discriminate (A1 Hl)|].
  assert (F : exists x', x' < nx /\ value_at circular data (Z.of_nat x') (Z.of_nat y) <> None).
  { destruct (Exists_dec (fun x' => value_at circular data (Z.of_nat x') (Z.of_nat y) <> None) (seq 0 nx)) as [X1|X1]; [intros z; destruct (value_at circular data _ _); [left|right]; congruence| |].
    - apply Exists_exists in X1. destruct X1 as (z & Iz & Vz). apply in_seq in Iz. exists z. split; [lia|exact Vz].
    - assert (Z1 : Nan = Masked); [|discriminate Z1]. apply A2. intros z Iz. destruct (value_at circular data (Z.of_nat z) (Z.of_nat y)) eqn:V; [|reflexivity]. elim X1. apply Exists_exists. exists z. rewrite V. split; [apply in_seq; lia|discriminate]. }
  destruct (HK lat (nth_error_In _ _ NY) Hl) as (K & dx & dy & EK & OK & _). destruct (HP lat K EK) as (WN & WC). specialize (WC dx dy OK). destruct (A3 Hl F K dx dy EK OK) as (P1 & P2 & P3).
  assert (W0 : forall a b, (0 <= weight K dx dy a b)%Q) by (intros; now apply weight_nonneg).
  assert (D : ~ match extend with Some e => (around_weight circular data K dx dy x y < e * total_weight K dx dy)%Q | None => value_at circular data (Z.of_nat x) (Z.of_nat y) = None end) by (intros Z1; discriminate (P1 Z1)).
  assert (W : (0 < around_weight circular data K dx dy x y)%Q).
  { destruct extend as [e|].
    - assert (T : (0 < total_weight K dx dy)%Q) by (unfold total_weight; now apply over_pos). apply Qnot_lt_le in D. apply Qlt_le_trans with (e * total_weight K dx dy)%Q; [|exact D]. now apply Qmult_lt_0_compat.
    - unfold around_weight. apply over_pos; [intros a b; cbv beta; destruct (value_at circular data (Z.of_nat x + a) (Z.of_nat y + b)); [apply W0|lra]|]. cbv beta. rewrite !Z.add_0_r. destruct (value_at circular data _ _); [exact WC|congruence]. }
  destruct (P3 D) as (q & Q1 & _); [intros Z1; rewrite Z1 in W; exact (Qlt_irrefl _ W)|discriminate Q1].
Qed.
Print Assumptions C155_defined.

(** ** Cases *)
(** A wider kernel, for the long wavelength. *)
Definition wide_kernel (lat : Q) : option (list (list Q)) := Some [[1; 1; 1]; [1; 1; 1]; [1; 1; 1]]%Q.
Lemma wide_ok : forall circular, kernels_ok circular 4 [0; 1; 2]%Q 5 wide_kernel.
Proof. intros circular lat _ _. exists [[1; 1; 1]; [1; 1; 1]; [1; 1; 1]]%Q, 1, 1. split; [reflexivity|]. split; [|intros; lia]. split; [lia|]. split; [reflexivity|]. intros row [<-|[<-|[<-|[]]]]; reflexivity. Qed.
Lemma ex_rect : rect 4 3 ex_data.
Proof. split; [reflexivity|]. intros row [<-|[<-|[<-|[<-|[]]]]]; reflexivity. Qed.
Definition show (o : option (list (list filtered))) : option (list (list (option Q))) := option_map (map (map (fun c => match c with Val q => Some (Qred q) | _ => None end))) o.
(** The hypotheses of [C155_band] hold for the grid of C99, through [C155_defined]. *)
Example C155_band_ex : exists low band, kernels_ok true 4 [0; 1; 2]%Q 5 ex_kernel /\ kernels_ok true 4 [0; 1; 2]%Q 5 wide_kernel /\ convolve true ex_data [0; 1; 2]%Q ex_kernel 5 None = Some low /\ no_nan low
  /\ band_filter true ex_data [0; 1; 2]%Q ex_kernel wide_kernel 5 None = Some band
  /\ show (Some band) = Some [[Some (-46 # 45); Some (2 # 75); Some (44 # 45); None]; [Some (-41 # 45); None; Some (49 # 45); Some (-2 # 15)]; [None; None; None; None]]%Q.
Proof.
  destruct (convolve true ex_data [0; 1; 2]%Q ex_kernel 5 None) as [low|] eqn:E; [|vm_compute in E; discriminate E].
  destruct (band_filter true ex_data [0; 1; 2]%Q ex_kernel wide_kernel 5 None) as [band|] eqn:B; [|vm_compute in B; discriminate B].
  exists low, band. split; [apply ex_kernels_ok|]. split; [apply wide_ok|]. split; [reflexivity|]. split; [|split; [reflexivity|rewrite <- B; vm_compute; reflexivity]].
  apply (C155_defined true ex_data 4 3 [0; 1; 2]%Q ex_kernel 5%Q None low); auto; [apply ex_rect|apply ex_kernels_ok|].
  intros lat K EK. unfold ex_kernel in EK. destruct (Qlt_bool (Qabs lat) 10); [|discriminate EK]. injection EK as <-. split; [intros row w [<-|[<-|[<-|[]]]] [<-|[<-|[<-|[]]]]; lra|].
  intros dx dy (DX & (L & RR)). cbn in L. assert (DX1 : dx = 1) by lia. pose proof (RR _ (or_introl eq_refl)) as R1. cbn in R1. assert (DY1 : dy = 1) by lia. subst. reflexivity.
Qed.
(** A constant field, and the same field one unit higher. *)
Definition flat (v : Q) : grid := [[Some v; Some v; None]; [Some v; None; None]; [Some v; Some v; None]; [None; Some v; None]].
Example C155_constant_ex : rect 4 3 (flat 6) /\ show (band_filter true (flat 6) [0; 1; 2]%Q ex_kernel wide_kernel 5 None) = Some [[Some 0; Some 0; Some 0; None]; [Some 0; None; Some 0; Some 0]; [None; None; None; None]]%Q.
Proof. split; [split; [reflexivity|]; intros row [<-|[<-|[<-|[<-|[]]]]]; reflexivity|vm_compute; reflexivity]. Qed.
Definition higher (d : Q) (g : grid) : grid := map (map (option_map (fun v => v + d)%Q)) g.
Lemma higher_shifted circular d g : shifted circular d g (higher d g).
Proof.
  intros x y. unfold value_at, higher. rewrite map_length. set (x' := if circular then (x mod Z.of_nat (length g))%Z else x). destruct ((x' <? 0)%Z || (y <? 0)%Z); [exact I|]. rewrite nth_error_map. destruct (nth_error g (Z.to_nat x')) as [row|]; [cbn [option_map]|exact I].
  rewrite nth_error_map. destruct (nth_error row (Z.to_nat y)) as [[v|]|]; cbn; [reflexivity|exact I|exact I].
Qed.
Example C155_level_ex : shifted true 100 ex_data (higher 100 ex_data) /\ rect 4 3 (higher 100 ex_data)
  /\ show (band_filter true (higher 100 ex_data) [0; 1; 2]%Q ex_kernel wide_kernel 5 None) = show (band_filter true ex_data [0; 1; 2]%Q ex_kernel wide_kernel 5 None).
Proof. split; [apply higher_shifted|]. split; [apply rect_map, ex_rect|vm_compute; reflexivity]. Qed.
