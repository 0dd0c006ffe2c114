From Coq Require Import List Arith ZArith QArith Qabs Qround Bool Lia Lqa.
From Verif Require Import Base Qaux Spec Obs_model Grid_model Grid_path Poly_model Poly_spec Poly_wind Poly_pairs Poly_mesh TrackObs_more NetEvt_sel Pix_model Pix_spec Pix_proofs Pix_count.
Import ListNotations.
Local Close Scope Q_scope.
Local Open Scope nat_scope.

(** ** Statistics on a list of pixels *)
Lemma get2_nat : forall {A} (M : list (list A)) i j v, at2 M i j v -> get2 M (Z.of_nat i, Z.of_nat j) = Some v.
Proof. intros A M i j v (c & C & V). unfold get2. cbn [fst snd]. rewrite pyget_of_nat, C. cbn [bind]. rewrite pyget_of_nat. exact V. Qed.
Lemma at2_pick : forall M i j v, at2 M i j v -> pick M (i, j) = v.
Proof. intros M i j v (c & C & V). unfold pick. cbn [fst snd]. rewrite (nth_error_nth _ _ _ C). apply nth_error_nth. exact V. Qed.
Lemma at2_masked : forall M i j v, at2 M i j v -> masked M (i, j) = v.
Proof. intros M i j v (c & C & V). unfold masked. cbn [fst snd]. rewrite (nth_error_nth _ _ _ C). apply nth_error_nth. exact V. Qed.
Notation zp := (fun q : nat * nat => (Z.of_nat (fst q), Z.of_nat (snd q))).
Section Shape.
Variables (n m : nat) (grid : list (list Q)) (mask : list (list bool)).
Hypothesis RG : rect n m grid.
Hypothesis RM : rect n m mask.
Lemma stat_sum_spec : forall l s k, (forall q, In q l -> fst q < n /\ snd q < m) ->
  let u := filter (fun q => negb (masked mask q)) l in
  exists s' k', stat_sum grid mask (map zp l) s k = Some (s', k') /\ (s' == s + qsum (map (pick grid) u))%Q /\ (k' == k + qn (length u))%Q.
Proof.
  induction l as [|[i j] l IH]; intros s k B; cbn [map stat_sum filter].
  - exists s, k. split; [reflexivity|]. cbn. split; [ring|]. unfold qn. cbn. ring.
  - destruct (B (i, j) (or_introl eq_refl)) as [BI BJ]. cbn [fst snd] in *. destruct (rect_at2 n m mask i j RM BI BJ) as [b MB]. destruct (rect_at2 n m grid i j RG BI BJ) as [v GV].
    rewrite (get2_nat _ _ _ _ MB), (at2_masked _ _ _ _ MB). cbn [bind]. destruct b; cbn [negb].
    + apply IH. intros; apply B; right; assumption.
    + rewrite (get2_nat _ _ _ _ GV). cbn [bind]. destruct (IH (s + v)%Q (k + 1)%Q (fun q I => B q (or_intror I))) as (s' & k' & E & S' & K'). exists s', k'. split; [exact E|]. cbn [map length]. rewrite (at2_pick _ _ _ _ GV). unfold qsum in *. cbn [fold_right]. split; [rewrite S'; ring|].
      rewrite K'. unfold qn. rewrite Nat2Z.inj_succ. unfold Z.succ. rewrite inject_Z_plus. change (inject_Z 1) with 1%Q. ring.
Qed.
Lemma stat_max_spec : forall l a, (forall q, In q l -> fst q < n /\ snd q < m) ->
  exists v, stat_max grid (map zp l) a = Some v /\ (a <= v)%Q /\ (forall q, In q l -> (pick grid q <= v)%Q) /\ (v = a \/ exists q, In q l /\ v = pick grid q).
Proof.
  induction l as [|[i j] l IH]; intros a B; cbn [map stat_max].
  - exists a. split; [reflexivity|]. split; [lra|]. split; [intros q []|left; reflexivity].
  - destruct (B (i, j) (or_introl eq_refl)) as [BI BJ]. cbn [fst snd] in *. destruct (rect_at2 n m grid i j RG BI BJ) as [x GV]. rewrite (get2_nat _ _ _ _ GV). cbn [bind].
    destruct (IH (if Qlt_bool a x then x else a) (fun q I => B q (or_intror I))) as (v & E & L & A & O). exists v. split; [exact E|]. pose proof (at2_pick _ _ _ _ GV) as PV.
    destruct (Qlt_bool_iff' a x) as [H|H].
    + split; [lra|]. split; [intros q [<-|I]; [rewrite PV; exact L|apply A; exact I]|]. right. destruct O as [->|(q & I & Q)]; [exists (i, j); split; [left; reflexivity|symmetry; exact PV]|exists q; split; [right; exact I|exact Q]].
    + split; [lra|]. split; [intros q [<-|I]; [rewrite PV; lra|apply A; exact I]|]. destruct O as [->|(q & I & Q)]; [left; reflexivity|right; exists q; split; [right; exact I|exact Q]].
Qed.
End Shape.
Lemma rect_opp : forall n m (M : list (list Q)), rect n m M -> rect n m (map (map Qopp) M).
Proof. intros n m M [L R]. split; [rewrite map_length; exact L|]. intros row I. apply in_map_iff in I as (r & <- & I). rewrite map_length. apply R. exact I. Qed.
Lemma pick_opp : forall M q, (pick (map (map Qopp) M) q == - pick M q)%Q.
Proof.
  intros M [i j]. unfold pick. cbn [fst snd]. change (@nil Q) with (map Qopp []) at 1. rewrite map_nth.
  generalize (nth i M []). intros l. revert j. induction l as [|a l IH]; intros [|j]; cbn; try reflexivity. apply IH.
Qed.

(** ** The grid rebuilt from its centres *)
Definition own (g : rgrid) (cx0 cx1 cy0 cy1 : Q) : rgrid :=
  {| g_x0 := (cx0 - (cx1 - cx0) / 2)%Q; g_y0 := (cy0 - (cy1 - cy0) / 2)%Q; g_xstep := (cx1 - cx0)%Q; g_ystep := (cy1 - cy0)%Q; g_N := 1%Z;
     g_circular := g_circular g; g_x := g_x g; g_y := g_y g |}.
Lemma even_own : forall x0 s c a b, even_cells x0 s c -> nth_error c 0 = Some a -> nth_error c 1 = Some b -> (a - (b - a) / 2 == x0)%Q /\ (b - a == s)%Q.
Proof.
  intros x0 s c a b [P E] A B. apply E in A. apply E in B. change (inject_Z (Z.of_nat 0)) with 0%Q in A. change (inject_Z (Z.of_nat 1)) with 1%Q in B. unfold half in *. assert (D : (b - a == s)%Q) by lra. split; [|exact D].
  rewrite D. setoid_replace (s / 2)%Q with ((1 # 2) * s)%Q by field. lra.
Qed.
Lemma even_comp : forall x0 s x0' s' c, even_cells x0 s c -> (x0' == x0)%Q -> (s' == s)%Q -> even_cells x0' s' c.
Proof. intros x0 s x0' s' c [P E] A B. split; [rewrite B; exact P|]. intros i x X. rewrite (E i x X), A, B. reflexivity. Qed.
Section Own.
Variables (g : rgrid) (cx0 cx1 cy0 cy1 : Q).
Hypothesis SE : searchable g.
Hypothesis (A0 : nth_error (g_x g) 0 = Some cx0) (A1 : nth_error (g_x g) 1 = Some cx1) (B0 : nth_error (g_y g) 0 = Some cy0) (B1 : nth_error (g_y g) 1 = Some cy1).
Lemma own_x : (g_x0 (own g cx0 cx1 cy0 cy1) == g_x0 g)%Q /\ (g_xstep (own g cx0 cx1 cy0 cy1) == g_xstep g)%Q.
Proof. destruct SE as [(GX & _) _]. exact (even_own _ _ _ _ _ GX A0 A1). Qed.
Lemma own_y : (g_y0 (own g cx0 cx1 cy0 cy1) == g_y0 g)%Q /\ (g_ystep (own g cx0 cx1 cy0 cy1) == g_ystep g)%Q.
Proof. destruct SE as [(_ & GY & _) _]. exact (even_own _ _ _ _ _ GY B0 B1). Qed.
Lemma own_searchable : searchable (own g cx0 cx1 cy0 cy1).
Proof.
  destruct own_x as [X0 XS]. destruct own_y as [Y0 YS]. destruct SE as [(GX & GY & GN) W]. split; [split; [|split]|].
  - eapply even_comp; [exact GX|exact X0|exact XS].
  - eapply even_comp; [exact GY|exact Y0|exact YS].
  - cbn. lia.
  - change (g_circular (own g cx0 cx1 cy0 cy1)) with (g_circular g). change (g_x (own g cx0 cx1 cy0 cy1)) with (g_x g). destruct (g_circular g).
    + destruct W as [W1 W2]. rewrite XS. split; [exact W1|]. change (inject_Z (g_N (own g cx0 cx1 cy0 cy1))) with 1%Q. destruct GX as [GP _].
      assert (1 <= inject_Z (g_N g))%Q by (change 1%Q with (inject_Z 1); apply inject_Z_le_iff; exact GN). assert (((2 * 1 + 2) * g_xstep g <= (2 * inject_Z (g_N g) + 2) * g_xstep g)%Q) by (apply Qmult_le_compat_r; lra). lra.
    + intros i x X. rewrite X0. exact (W i x X).
Qed.
Lemma own_eddy : forall e, good_eddy g e -> good_eddy (own g cx0 cx1 cy0 cy1) e.
Proof.
  intros e (D & M & L & m & k & EL & RL & F). destruct own_x as [X0 XS]. destruct own_y as [Y0 YS]. destruct SE as [(GX & GY & GN) W]. split; [exact D|]. split.
  - intros v I. specialize (M v I). rewrite Y0, YS. change (inject_Z (g_N (own g cx0 cx1 cy0 cy1))) with 1%Q. destruct GY as [GP _].
    assert (1 <= inject_Z (g_N g))%Q by (change 1%Q with (inject_Z 1); apply inject_Z_le_iff; exact GN). assert (((1 - half) * g_ystep g <= (inject_Z (g_N g) - half) * g_ystep g)%Q) by (apply Qmult_le_compat_r; lra). lra.
  - exists L, m, k. split; [exact EL|]. split; [rewrite X0; exact RL|]. cbv zeta. change (g_circular (own g cx0 cx1 cy0 cy1)) with (g_circular g). destruct (g_circular g); [exact F|]. destruct F as [F1 F2]. split; [exact F1|]. intros v I. rewrite X0. exact (F2 v I).
Qed.
End Own.

Theorem interp_spec : forall g lowest m grid mask e, searchable g -> 2 <= length (g_x g) -> 2 <= length (g_y g) -> same_shape g grid -> same_shape g mask -> good_eddy g e ->
  exists r l, interp_contour g lowest m grid mask e = Some r /\ NoDup l /\ (forall i j, In (i, j) l <-> exists p, centre g i j p /\ contains (snd e) p) /\
  statistic lowest m grid mask l r.
Proof.
  intros g lowest m grid mask e S LX LY RG RM GE. unfold interp_contour.
  destruct (nth_error_lt_Some (g_x g) 0 ltac:(lia)) as [cx0 A0]. destruct (nth_error_lt_Some (g_x g) 1 ltac:(lia)) as [cx1 A1]. destruct (nth_error_lt_Some (g_y g) 0 ltac:(lia)) as [cy0 B0]. destruct (nth_error_lt_Some (g_y g) 1 ltac:(lia)) as [cy1 B1].
  rewrite A0, A1, B0, B1. cbn [bind]. cbv zeta. set (r := (Qmod (fst e - g_x0 g) 360 + g_x0 g - 180)%Q). fold (moved r (snd e)). fold (own g cx0 cx1 cy0 cy1).
  pose proof (own_searchable g cx0 cx1 cy0 cy1 S A0 A1 B0 B1) as SO. pose proof (own_eddy g cx0 cx1 cy0 cy1 S A0 A1 B0 B1 e GE) as GO. destruct (own_x g cx0 cx1 cy0 cy1 S A0 A1) as [X0 _].
  assert (ER : (r == Qmod (fst e - g_x0 (own g cx0 cx1 cy0 cy1)) 360 + g_x0 (own g cx0 cx1 cy0 cy1) - 180)%Q).
  { destruct GO as (_ & _ & L & mm & k & EL & RL & _). rewrite (turn_of _ _ _ _ EL RL). unfold r. rewrite X0 in RL. rewrite (turn_of _ _ _ _ EL RL). reflexivity. }
  destruct (good_fits _ e SO GO r ER) as [FI CO]. destruct (search_fits _ _ SO FI) as (ps & EP & (l & -> & ND & LI)). rewrite EP. cbn [bind].
  assert (BD : forall q, In q l -> fst q < length (g_x g) /\ snd q < length (g_y g)). { intros [i j] I. apply LI in I as (p & C & _). cbn [fst snd]. exact (centre_lt _ _ _ _ C). }
  assert (LI' : forall i j, In (i, j) l <-> exists p, centre g i j p /\ contains (snd e) p). { intros i j. rewrite LI. split; intros (p & C & H); exists p; (split; [exact C|]); apply CO; exact H. }
  destruct m.
  - exists (Some (stat_count (map zp l))), l. split; [reflexivity|]. split; [exact ND|]. split; [exact LI'|]. cbn [statistic]. unfold stat_count, qn. rewrite map_length. reflexivity.
  - unfold stat_mean. destruct (stat_sum_spec _ _ grid mask RG RM l 0%Q 0%Q BD) as (s & k & E & ES & EK). rewrite E. cbn [bind snd fst]. eexists. exists l. split; [reflexivity|]. split; [exact ND|]. split; [exact LI'|]. cbn [statistic].
    set (u := filter (fun q => negb (masked mask q)) l) in *. destruct (Qeq_bool k 0) eqn:K0.
    + apply Qeq_bool_iff in K0. rewrite EK in K0. destruct u; [reflexivity|]. exfalso. unfold qn in K0. assert (0 < inject_Z (Z.of_nat (length (p :: u))))%Q by (change 0%Q with (inject_Z 0); apply inject_Z_lt_iff; cbn; lia). lra.
    + apply Qeq_bool_neq in K0. split; [intros U; apply K0; rewrite EK, U; unfold qn; cbn; ring|]. rewrite <- (Qplus_0_l (qn _)), <- EK, <- (Qplus_0_l (qsum _)), <- ES. field. exact K0.
  - destruct (stat_max_spec _ _ grid RG l lowest BD) as (v & E & L & A & O). rewrite E. cbn [bind]. exists (Some v), l. split; [reflexivity|]. split; [exact ND|]. split; [exact LI'|]. cbn [statistic]. exists v. split; [reflexivity|]. split; [exact L|]. split; [exact A|].
    destruct O as [O|(q & I & O)]; [left; exact O|right; exists q; split; [exact I|rewrite O; reflexivity]].
  - destruct (stat_max_spec _ _ _ (rect_opp _ _ _ RG) l lowest BD) as (v & E & L & A & O). rewrite E. cbn [bind]. exists (Some (- v)%Q), l. split; [reflexivity|]. split; [exact ND|]. split; [exact LI'|]. cbn [statistic]. exists (- v)%Q. split; [reflexivity|]. split; [lra|]. split.
    + intros q I. specialize (A q I). rewrite pick_opp in A. lra.
    + destruct O as [O|(q & I & O)]; [left; rewrite O; reflexivity|right; exists q; split; [exact I|]]. pose proof (pick_opp grid q) as PO. rewrite <- O in PO. lra.
Qed.
Theorem interps_spec : forall g lowest m grid mask eddies, searchable g -> 2 <= length (g_x g) -> 2 <= length (g_y g) -> same_shape g grid -> same_shape g mask -> (forall e, In e eddies -> good_eddy g e) ->
  exists rs, interp_contours g lowest m grid mask eddies = Some rs /\ length rs = length eddies /\
  forall n e, nth_error eddies n = Some e -> exists r l, nth_error rs n = Some r /\ NoDup l /\ (forall i j, In (i, j) l <-> exists p, centre g i j p /\ contains (snd e) p) /\
  statistic lowest m grid mask l r.
Proof.
  intros g lowest m grid mask eddies S LX LY RG RM. induction eddies as [|e eddies IH]; intros G; cbn [interp_contours].
  - exists []. split; [reflexivity|]. split; [reflexivity|]. intros [|n] e H; discriminate H.
  - destruct (interp_spec g lowest m grid mask e S LX LY RG RM (G e (or_introl eq_refl))) as (r & l & E & REST). rewrite E. cbn [bind]. destruct (IH (fun e' I => G e' (or_intror I))) as (rs & ER & LR & NR). rewrite ER. cbn [bind].
    exists (r :: rs). split; [reflexivity|]. split; [cbn [length]; rewrite LR; reflexivity|]. intros [|n] e' N; cbn [nth_error] in *; [injection N as <-; exists r, l; split; [reflexivity|exact REST]|]. exact (NR n e' N).
Qed.
