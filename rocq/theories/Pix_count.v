From Coq Require Import List Arith ZArith QArith Qabs Qround Bool Lia Lqa.
From Verif Require Import Base Qaux Spec Obs_model Grid_model Grid_path Poly_model Poly_spec Poly_wind Poly_pairs Poly_mesh TrackObs_more NetEvt_sel Pix_model Pix_spec Pix_proofs.
Import ListNotations.
Local Close Scope Q_scope.
Local Open Scope nat_scope.

(** ** Contours moved by whole turns *)
Lemma winding_loop_comp : forall pt poly poly' first first' wn, Forall2 same poly poly' -> same first first' ->
  winding_loop pt first poly wn = winding_loop pt first' poly' wn.
Proof.
  intros pt poly poly' first first' wn F. revert wn. induction F as [|p p' r r' S F IH]; intros wn S1; [reflexivity|].
  rewrite !winding_loop_sum. cbn [path map zsum]. 
  assert (E : cross pt p (match r with [] => first | q :: _ => q end) = cross pt p' (match r' with [] => first' | q :: _ => q end)).
  { apply cross_comp; [apply same_refl|exact S|]. destruct F; assumption. }
  specialize (IH 0%Z S1). rewrite !winding_loop_sum in IH. cbn [fst snd]. unfold zsum in *. cbn [fold_right] in *. rewrite E. lia.
Qed.
Lemma winding_comp2 : forall pt poly poly', Forall2 same poly poly' -> winding_number_poly pt poly = winding_number_poly pt poly'.
Proof. intros pt poly poly' F. destruct F as [|p p' r r' S F]; [reflexivity|]. unfold winding_number_poly. apply winding_loop_comp; [constructor; assumption|assumption]. Qed.
Lemma is_left_shift : forall k a b p, is_left (shift k a) (shift k b) (shift k p) = is_left a b p.
Proof.
  intros k a b p. unfold is_left, shift. cbn [fst snd]. 
  assert (E : ((fst b + 360 * inject_Z k - (fst a + 360 * inject_Z k)) * (snd p - snd a) - (fst p + 360 * inject_Z k - (fst a + 360 * inject_Z k)) * (snd b - snd a) == (fst b - fst a) * (snd p - snd a) - (fst p - fst a) * (snd b - snd a))%Q) by ring.
  destruct (Qlt_bool_iff' 0 ((fst b + 360 * inject_Z k - (fst a + 360 * inject_Z k)) * (snd p - snd a) - (fst p + 360 * inject_Z k - (fst a + 360 * inject_Z k)) * (snd b - snd a))%Q) as [H|H];
  destruct (Qlt_bool_iff' 0 ((fst b - fst a) * (snd p - snd a) - (fst p - fst a) * (snd b - snd a))%Q) as [H'|H']; try reflexivity; exfalso; rewrite E in H; contradiction.
Qed.
Lemma winding_loop_shift : forall k pt poly first wn, winding_loop (shift k pt) (shift k first) (map (shift k) poly) wn = winding_loop pt first poly wn.
Proof.
  intros k pt poly first. induction poly as [|p r IH]; intros wn; [reflexivity|]. cbn [map winding_loop].
  replace (match map (shift k) r with [] => shift k first | q :: _ => q end) with (shift k (match r with [] => first | q :: _ => q end)) by (destruct r; reflexivity).
  rewrite is_left_shift. rewrite IH. reflexivity.
Qed.
Lemma inside_shift : forall k c p, inside (map (shift k) c) (shift k p) <-> inside c p.
Proof. intros k [|v r] p; [reflexivity|]. unfold inside, winding_number_poly. cbn [map]. change (shift k v :: map (shift k) r) with (map (shift k) (v :: r)). rewrite winding_loop_shift. reflexivity. Qed.
Lemma shift_shift : forall j k p, same (shift j (shift k p)) (shift (k + j) p).
Proof. intros. split; [|reflexivity]. cbn [fst shift]. rewrite inject_Z_plus. ring. Qed.
Lemma contains_shift : forall k c p, contains (map (shift k) c) p <-> contains c p.
Proof.
  intros k c p. split.
  - intros [j I]. exists (j - k)%Z. apply (inside_shift k). eapply inside_comp; [|exact I]. destruct (shift_shift k (j - k) p) as [A B]. replace (j - k + k)%Z with j in A, B by lia. split; symmetry; assumption.
  - intros [j I]. exists (j + k)%Z. apply (inside_shift k) in I. eapply inside_comp; [|exact I]. apply shift_shift.
Qed.
Lemma contains_comp2 : forall c c' p, Forall2 same c c' -> contains c p <-> contains c' p.
Proof. intros c c' p F. unfold contains, inside. split; intros [k I]; exists k; [rewrite <- (winding_comp2 _ _ _ F)|rewrite (winding_comp2 _ _ _ F)]; exact I. Qed.
Definition moved (x_ref : Q) (c : list point) : list point := map (fun p => ((Qmod (fst p - x_ref) 360 + x_ref)%Q, snd p)) c.
Lemma moved_same : forall L r k c, (r == L - 180)%Q -> (forall v, In v (map (shift k) c) -> (-180 < fst v - L < 180)%Q) -> Forall2 same (moved r c) (map (shift k) c).
Proof.
  intros L r k c E. induction c as [|v c IH]; intros N; [constructor|]. cbn [moved map]. constructor; [|apply IH; intros; apply N; right; assumption].
  split; [|reflexivity]. pose proof (N (shift k v) (or_introl eq_refl)) as NV. cbn [fst shift] in *. destruct (Qmod_turn (fst v - r)) as (j & J & J1 & J2). rewrite J.
  assert (X : (j - k = 0)%Z) by (apply no_turn; rewrite inject_Z_minus; lra). assert (j = k) by lia. subst j. ring.
Qed.
Lemma Forall2_In_l : forall {A B} (R : A -> B -> Prop) l l', Forall2 R l l' -> forall a, In a l -> exists b, In b l' /\ R a b.
Proof. intros A B R l l' F. induction F as [|a b l l' H F IH]; intros x []; [subst; exists b; split; [left; reflexivity|exact H]|]. destruct (IH x H0) as (b' & I & X). exists b'. split; [right; exact I|exact X]. Qed.
Lemma Forall2_In_r : forall {A B} (R : A -> B -> Prop) l l', Forall2 R l l' -> forall b, In b l' -> exists a, In a l /\ R a b.
Proof. intros A B R l l' F. induction F as [|a b l l' H F IH]; intros x []; [subst; exists a; split; [left; reflexivity|exact H]|]. destruct (IH x H0) as (b' & I & X). exists b'. split; [right; exact I|exact X]. Qed.

(** ** The pixels of a good eddy *)
Definition fits (g : rgrid) (c : list point) : Prop :=
  c <> [] /\ above_margin g c /\ if g_circular g then narrow g c /\ meets_turn g c else in_turn g c.
Lemma exactly_ext : forall g P P' ps, (forall i j p, centre g i j p -> P p <-> P' p) -> exactly g P ps -> exactly g P' ps.
Proof.
  intros g P P' ps E (l & A & B & C). exists l. split; [exact A|]. split; [exact B|]. intros i j. rewrite C. split; intros (p & CE & H); exists p; (split; [exact CE|]); apply (E i j p CE); exact H.
Qed.
Lemma search_fits : forall g c, searchable g -> fits g c -> exists ps, get_pixels_in g c = Some ps /\ exactly g (contains c) ps.
Proof.
  intros g c [G W] (NE & M & F). destruct (g_circular g) eqn:CI.
  - destruct W as [W1 W2]. destruct F as [F1 F2]. apply around; try assumption. split; assumption.
  - destruct (regional g c G CI NE F M) as (ps & E & X). exists ps. split; [exact E|]. eapply exactly_ext; [|exact X].
    intros i j [x y] [CX CY]. cbn [fst snd] in *. pose proof (W i x CX) as U. destruct G as ((GP & GE) & _ & _). assert (LB : (g_x0 g <= x)%Q).
    { rewrite (GE i x CX). assert (0 <= inject_Z (Z.of_nat i))%Q by (change 0%Q with (inject_Z 0); apply inject_Z_le_iff; lia). assert (0 <= (inject_Z (Z.of_nat i) + half) * g_xstep g)%Q by (apply Qmult_le_0_compat; unfold half; lra). lra. }
    assert (S0 : same (x, y) (shift 0 (x, y))) by (split; [cbn [fst shift]; change (inject_Z 0) with 0%Q; ring|reflexivity]).
    split; [intros I; exists 0%Z; eapply inside_comp; [exact S0|exact I]|]. intros [k I].
    destruct (bbox_total c NE) as [[[[x0 x1] y0] y1] B]. destruct (bbox_spec _ _ _ _ _ B) as (_ & (v0 & I0 & E0) & (v1 & I1 & E1) & _). destruct (inside_box _ _ _ _ _ _ B I) as [[L H] _]. cbn [fst shift] in L, H.
    pose proof (F v0 I0) as T0. pose proof (F v1 I1) as T1. rewrite E0 in T0. rewrite E1 in T1. assert (k = 0)%Z by (apply no_turn; lra). subst k. eapply inside_comp; [|exact I]. split; symmetry; apply S0.
Qed.
Lemma turn_of : forall x0 lon L m, (L == lon + 360 * inject_Z m -> x0 <= L < x0 + 360 -> Qmod (lon - x0) 360 + x0 == L)%Q.
Proof.
  intros x0 lon L m E R. destruct (Qmod_turn (lon - x0)) as (k & K & A & B). rewrite K in A, B |- *. assert (k - m = 0)%Z by (apply no_turn; rewrite inject_Z_minus; lra). assert (k = m) by lia. subst k. lra.
Qed.
(** The contour brought around the eddy, as the code does. *)
Lemma good_fits : forall g e, searchable g -> good_eddy g e -> forall r, (r == Qmod (fst e - g_x0 g) 360 + g_x0 g - 180)%Q ->
  fits g (moved r (snd e)) /\ (forall p, contains (moved r (snd e)) p <-> contains (snd e) p).
Proof.
  intros g [lon c] [G W] ((p & q & IP & IQ & NS) & M & L & m & k & EL & RL & F) r ER. cbn [fst snd] in *.
  assert (RL' : (r == L - 180)%Q) by (rewrite ER, (turn_of _ _ _ _ EL RL); reflexivity).
  assert (HB : forall v, In v (map (shift k) c) -> (-180 < fst v - L < 180)%Q). { intros v I. destruct (g_circular g); [destruct F as (F & _)|destruct F as (F & _)]; specialize (F v I); lra. }
  pose proof (moved_same L r k c RL' HB) as FS. split; [|intros pt; rewrite (contains_comp2 _ _ pt FS); apply contains_shift].
  assert (NE : moved r c <> []) by (destruct c; [destruct IP|discriminate]).
  split; [exact NE|]. split.
  - intros v I. unfold moved in I. apply in_map_iff in I as (v' & <- & I). cbn [snd]. apply (M v' I).
  - destruct (g_circular g).
    + destruct F as (F & (a & IA & LA) & (b & IB & LB)). split; [split|split].
      * intros v w IV IW. destruct (Forall2_In_l _ _ _ FS v IV) as (v' & IV' & [SV _]). destruct (Forall2_In_l _ _ _ FS w IW) as (w' & IW' & [SW _]). rewrite SV, SW. pose proof (F v' IV'). pose proof (F w' IW'). destruct W as [_ W]. lra.
      * intros v w IV IW. apply nth_error_In in IV. destruct (Forall2_In_l _ _ _ FS v IV) as (v' & IV' & [SV _]). destruct (Forall2_In_l _ _ _ FS w IW) as (w' & IW' & [SW _]). rewrite SV, SW. pose proof (F v' IV'). pose proof (F w' IW'). lra.
      * destruct (Forall2_In_r _ _ _ FS b IB) as (b' & IB' & [SB _]). exists b'. split; [exact IB'|]. rewrite SB. lra.
      * destruct (Forall2_In_r _ _ _ FS a IA) as (a' & IA' & [SA _]). exists a'. split; [exact IA'|]. rewrite SA. lra.
    + destruct F as (_ & F). intros v IV. destruct (Forall2_In_l _ _ _ FS v IV) as (v' & IV' & [SV _]). rewrite SV. apply (F v' IV').
Qed.
Lemma reduce_fits : forall g c, fits g c -> (exists p q, In p c /\ In q c /\ ~ same p q) -> exists v, reduce_size c = Some v /\ fits g v.
Proof.
  intros g [|a r] (NE & M & F) (p & q & IP & IQ & NS); [contradiction|]. pose proof (reduce_size_spec a r) as H. destruct (reduce_size (a :: r)) as [l|].
  - destruct H as (k & rest & E & RS & EL & _). exists l. split; [reflexivity|].
    assert (SUB : forall v, In v l -> In v (a :: r)) by (intros v I; rewrite E; apply in_or_app; left; exact I).
    destruct l as [|a' l]; [destruct (Nat.max 3 k) eqn:MX in EL; [lia|discriminate EL]|]. assert (a' = a) by (cbn [app] in E; injection E as -> _; reflexivity). subst a'.
    assert (SUP : forall v, In v (a :: r) -> exists w, In w (a :: l) /\ (fst w == fst v)%Q).
    { intros v I. rewrite E in I. apply in_app_or in I as [I|I]; [exists v; split; [exact I|reflexivity]|]. exists a. split; [left; reflexivity|]. destruct (RS v I) as [S _]. symmetry. exact S. }
    split; [discriminate|]. split; [intros v I; apply M, SUB, I|]. destruct (g_circular g).
    + destruct F as [[F1 F2] [(v & IV & LV) (w & IW & LW)]]. split; [split|split].
      * intros; apply F1; apply SUB; assumption.
      * intros v' w' N I. apply F2; [exact N|apply SUB; exact I].
      * destruct (SUP v IV) as (v' & IV' & EV). exists v'. split; [exact IV'|rewrite EV; exact LV].
      * destruct (SUP w IW) as (w' & IW' & EW). exists w'. split; [exact IW'|rewrite EW; exact LW].
    + intros v I. apply F, SUB, I.
  - exfalso. apply NS. assert (SA : forall x, In x (a :: r) -> same x a) by (intros x [<-|I]; [apply same_refl|apply H; exact I]). destruct (SA p IP), (SA q IQ). split; etransitivity; try eassumption; symmetry; assumption.
Qed.

(** ** Counts *)
Lemma pair_dec : forall p q : nat * nat, {p = q} + {p <> q}.
Proof. decide equality; apply Nat.eq_dec. Qed.
Lemma at2_fun : forall {A} (M : list (list A)) i j a b, at2 M i j a -> at2 M i j b -> a = b.
Proof. intros A M i j a b (c & C & X) (c' & C' & X'). rewrite C in C'. injection C' as <-. rewrite X in X'. injection X' as <-. reflexivity. Qed.
Lemma rect_at2 : forall {A} n m (M : list (list A)) i j, rect n m M -> i < n -> j < m -> exists v, at2 M i j v.
Proof.
  intros A n m M i j [L R] I J. destruct (nth_error_lt_Some M i ltac:(lia)) as [c C]. assert (LC : length c = m) by (apply R; eapply nth_error_In; exact C).
  destruct (nth_error_lt_Some c j ltac:(lia)) as [v V]. exists v, c. split; assumption.
Qed.
Lemma add_one_spec : forall n m grid i j, rect n m grid -> i < n -> j < m -> exists grid', add_one grid (Z.of_nat i, Z.of_nat j) = Some grid' /\ rect n m grid' /\
  forall i' j' v, at2 grid i' j' v -> at2 grid' i' j' (if (i =? i') && (j =? j') then (v + 1)%Z else v).
Proof.
  intros n m grid i j [L R] I J. destruct (nth_error_lt_Some grid i ltac:(lia)) as [c C]. assert (LC : length c = m) by (apply R; eapply nth_error_In; exact C).
  destruct (nth_error_lt_Some c j ltac:(lia)) as [v V]. unfold add_one. cbn [fst snd]. rewrite pyget_of_nat, C. cbn [bind]. rewrite pyget_of_nat, V. cbn [bind].
  rewrite (pystore_nat c _ j) by (reflexivity || lia). cbn [bind]. rewrite (pystore_nat grid _ i) by (reflexivity || lia). eexists. split; [reflexivity|]. split.
  - split; [rewrite length_upd; exact L|]. intros row IR. apply In_nth_error in IR as [t T]. destruct (Nat.eq_dec i t) as [->|D].
    + rewrite nth_error_upd_eq in T by lia. injection T as <-. rewrite length_upd. exact LC.
    + rewrite nth_error_upd_neq in T by auto. apply R. eapply nth_error_In. exact T.
  - intros i' j' w (c' & C' & W). destruct (Nat.eqb_spec i i') as [<-|D]; cbn [andb].
    + rewrite C in C'. injection C' as <-. exists (upd c j (v + 1)%Z). split; [apply nth_error_upd_eq; lia|]. destruct (Nat.eqb_spec j j') as [<-|D'].
      * rewrite V in W. injection W as <-. apply nth_error_upd_eq. lia.
      * rewrite nth_error_upd_neq by auto. exact W.
    + exists c'. split; [rewrite nth_error_upd_neq by auto; exact C'|exact W].
Qed.
Lemma grid_count_spec : forall n m l grid, rect n m grid -> NoDup l -> (forall q, In q l -> fst q < n /\ snd q < m) ->
  exists grid', grid_count_ grid (map (fun q => (Z.of_nat (fst q), Z.of_nat (snd q))) l) = Some grid' /\ rect n m grid' /\
  forall i j v, at2 grid i j v -> (In (i, j) l -> at2 grid' i j (v + 1)%Z) /\ (~ In (i, j) l -> at2 grid' i j v).
Proof.
  intros n m l. induction l as [|[a b] l IH]; intros grid R N B; cbn [map grid_count_].
  - exists grid. split; [reflexivity|]. split; [exact R|]. intros i j v A. split; [intros []|intros _; exact A].
  - inversion N as [|? ? NI N']; subst. destruct (B (a, b) (or_introl eq_refl)) as [BA BB]. cbn [fst snd] in *. destruct (add_one_spec n m grid a b R BA BB) as (g1 & E1 & R1 & V1). rewrite E1. cbn [bind].
    destruct (IH g1 R1 N' (fun q I => B q (or_intror I))) as (g2 & E2 & R2 & V2). exists g2. split; [exact E2|]. split; [exact R2|]. intros i j v A. specialize (V1 i j v A). specialize (V2 i j _ V1). destruct V2 as [P2 Q2].
    destruct (Nat.eqb_spec a i) as [->|D]; [destruct (Nat.eqb_spec b j) as [->|D]|]; cbn [andb] in *.
    + split; [intros _; apply Q2; exact NI|intros H; exfalso; apply H; left; reflexivity].
    + split; [intros [E|I]; [injection E as E; contradiction|apply P2; exact I]|intros H; apply Q2; intros I; apply H; right; exact I].
    + split; [intros [E|I]; [injection E as E _; contradiction|apply P2; exact I]|intros H; apply Q2; intros I; apply H; right; exact I].
Qed.
Lemma counts_cons : forall {A} (P : A -> Prop) a l n, counts P l n -> (P a -> counts P (a :: l) (S n)) /\ (~ P a -> counts P (a :: l) n).
Proof.
  intros A P a l n (bs & F & C). split; intros H; [exists (true :: bs)|exists (false :: bs)]; (split; [constructor; [|exact F]|cbn; rewrite <- C; reflexivity]); split; intros; try assumption; try reflexivity; try discriminate; contradiction.
Qed.
Lemma centre_lt : forall g i j p, centre g i j p -> i < length (g_x g) /\ j < length (g_y g).
Proof. intros g i j p [A B]. split; eapply nth_error_Some_lt; eassumption. Qed.
Lemma count_loop : forall g, searchable g -> forall eddies grid, (forall e, In e eddies -> good_eddy g e) -> same_shape g grid ->
  exists grid', grid_count_pixel_in g grid (map (fun e => (snd e, (Qmod (fst e - g_x0 g) 360 + g_x0 g - 180)%Q)) eddies) = Some grid' /\ same_shape g grid' /\
  forall i j p v, centre g i j p -> at2 grid i j v -> exists n, at2 grid' i j (v + Z.of_nat n)%Z /\ counts (fun e => contains (snd e) p) eddies n.
Proof.
  intros g S. induction eddies as [|e eddies IH]; intros grid G R; cbn [map grid_count_pixel_in].
  - exists grid. split; [reflexivity|]. split; [exact R|]. intros i j p v _ A. exists 0. split; [replace (v + Z.of_nat 0)%Z with v by lia; exact A|]. exists []. split; [constructor|reflexivity].
  - pose proof (G e (or_introl eq_refl)) as GE. destruct (good_fits g e S GE _ (Qeq_refl _)) as [FI CO]. set (r := (Qmod (fst e - g_x0 g) 360 + g_x0 g - 180)%Q) in *.
    fold (moved r (snd e)). destruct GE as ((pp & qq & IP & IQ & NS) & GE').
    assert (DI : exists p q, In p (moved r (snd e)) /\ In q (moved r (snd e)) /\ ~ same p q).
    { exists ((Qmod (fst pp - r) 360 + r)%Q, snd pp), ((Qmod (fst qq - r) 360 + r)%Q, snd qq). split; [apply in_map_iff; exists pp; split; [reflexivity|exact IP]|]. split; [apply in_map_iff; exists qq; split; [reflexivity|exact IQ]|].
      intros [S1 S2]. cbn [fst snd] in *. apply NS. split; [|exact S2]. destruct GE' as (_ & L & m & k & EL & RL & F).
      assert (HB : forall v, In v (map (shift k) (snd e)) -> (-180 < fst v - L < 180)%Q). { intros v I. destruct (g_circular g); [destruct F as (F & _)|destruct F as (F & _)]; specialize (F v I); lra. }
      pose proof (HB (shift k pp) (in_map _ _ _ IP)) as H1. pose proof (HB (shift k qq) (in_map _ _ _ IQ)) as H2. cbn [fst shift] in H1, H2.
      destruct (Qmod_turn (fst pp - r)) as (k1 & K1 & _). destruct (Qmod_turn (fst qq - r)) as (k2 & K2 & _). rewrite K1, K2 in S1. assert (k1 - k2 = 0)%Z by (apply no_turn; rewrite inject_Z_minus; lra). assert (k1 = k2) by lia. subst k2. lra. }
    destruct (reduce_fits g _ FI DI) as (v & EV & FV). rewrite EV. cbn [bind]. destruct (search_fits g v S FV) as (ps & EP & (l & -> & ND & LI)). rewrite EP. cbn [bind].
    assert (BD : forall q, In q l -> fst q < length (g_x g) /\ snd q < length (g_y g)). { intros [i j] I. apply LI in I as (p & C & _). cbn [fst snd]. eapply centre_lt. exact C. }
    destruct (grid_count_spec _ _ l grid R ND BD) as (g1 & E1 & R1 & V1). rewrite E1. cbn [bind]. destruct (IH g1 (fun e' I => G e' (or_intror I)) R1) as (g2 & E2 & R2 & V2).
    exists g2. split; [exact E2|]. split; [exact R2|]. intros i j p w C A. destruct (V1 i j w A) as [VY VN].
    assert (IL : In (i, j) l <-> contains (snd e) p).
    { rewrite LI, <- CO. assert (CV : forall p', contains v p' <-> contains (moved r (snd e)) p') by (intros p'; unfold contains; split; intros [k I]; exists k; [apply (proj1 (inside_reduce _ _ _ EV)) in I|apply (proj2 (inside_reduce _ _ _ EV)) in I]; exact I).
      rewrite <- CV. split; [|intros H; exists p; split; assumption]. intros (p' & C' & H). destruct C as [C1 C2], C' as [C1' C2']. rewrite C1 in C1'. rewrite C2 in C2'. injection C1' as X. injection C2' as Y. destruct p, p'. cbn [fst snd] in *. subst. exact H. }
    assert (DEC : In (i, j) l \/ ~ In (i, j) l) by (destruct (in_dec pair_dec (i, j) l); [left|right]; assumption).
    destruct DEC as [I|I].
    + destruct (V2 i j p _ C (VY I)) as (n & AN & CN). exists (1 + n). split; [replace (w + Z.of_nat (1 + n))%Z with (w + 1 + Z.of_nat n)%Z by lia; exact AN|]. apply (counts_cons _ e) in CN. apply CN. apply IL. exact I.
    + destruct (V2 i j p _ C (VN I)) as (n & AN & CN). exists n. split; [exact AN|]. apply (counts_cons _ e) in CN. apply CN. intros H. apply I, IL, H.
Qed.
Theorem count_spec : forall g eddies, searchable g -> (forall e, In e eddies -> good_eddy g e) ->
  exists grid, grid_count g eddies = Some grid /\ same_shape g grid /\
  forall i j p, centre g i j p -> exists n, at2 grid i j (Z.of_nat n) /\ counts (fun e => contains (snd e) p) eddies n.
Proof.
  intros g eddies S G. unfold grid_count.
  assert (R : same_shape g (repeat (repeat 0%Z (length (g_y g))) (length (g_x g)))) by (split; [apply repeat_length|intros row I; apply repeat_spec in I; subst; apply repeat_length]).
  destruct (count_loop g S eddies _ G R) as (grid & E & R' & V). exists grid. split; [exact E|]. split; [exact R'|]. intros i j p C. destruct (centre_lt _ _ _ _ C) as [CI CJ].
  destruct (V i j p 0%Z C) as (n & A & B); [|exists n; split; [exact A|exact B]]. exists (repeat 0%Z (length (g_y g))). split; rewrite nth_error_repeat_lt.
  - destruct (Nat.ltb_spec i (length (g_x g))); [reflexivity|lia].
  - destruct (Nat.ltb_spec j (length (g_y g))); [reflexivity|lia].
Qed.
