(** Properties C03-C10: the tracking run and what is built from it. *)
From Coq Require Import List Arith ZArith Bool QArith Lia.
From Verif Require Import Base Spec Generic_model Generic_proofs Solver_model Solver_props
  Corr_model Corr_spec Corr_proofs Corr_merge Corr_more.
Import ListNotations.
Local Close Scope Q_scope.
Local Open Scope nat_scope.

Lemma track_run : forall {Obs V} as_obs extrapolate prolong associate nbv, one_to_one associate ->
  forall d ds, exists st : @state Obs V,
    track as_obs extrapolate prolong associate nbv (d :: ds) = Some st /\ inv nbv st /\
    bounded associate nbv (s_links st) (rev (d :: ds)) /\
    length (s_links st) = length ds.
Proof.
  intros Obs V as_obs ex pr associate nbv HA d ds.
  destruct (track_inv as_obs ex pr associate nbv HA d ds) as (st & E & I & B).
  exists st. split; auto. split; auto. split; auto.
  apply bounded_at in B as [L _]. rewrite rev_length in L. simpl in L. lia.
Qed.

(** The default solver meets the requirement put on the association. *)
Theorem C03_solver_is_one_to_one : forall {Obs} (cost : Obs -> Obs -> option Q),
  one_to_one (solver_associate cost).
Proof.
  intros Obs cost p c. unfold solver_associate.
  set (M := map (fun a => map (cost a) c) p).
  assert (SH : rect (length p) (length c) M).
  { split; [unfold M; apply map_length|]. intros row H. unfold M in H. apply in_map_iff in H as (a & <- & _). apply map_length. }
  destruct (C01_association_one_to_one _ _ M SH) as (links & E & N1 & N2 & CE & _). rewrite E. cbn [bind].
  assert (G : forall l, In l links -> exists q, get M (fst l) (snd l) = Some (Some q) /\
      fst l < length p /\ snd l < length c).
  { intros [i j] H. destruct (CE i j H) as (q & r & A & B). exists q. simpl. unfold get. rewrite A. split; auto.
    pose proof (nth_error_Some_lt _ _ _ A) as L1. pose proof (nth_error_Some_lt _ _ _ B) as L2.
    destruct SH as [S1 S2]. rewrite (S2 r (nth_error_In _ _ A)) in L2. lia. }
  set (f := fun l : nat * nat => option_map (fun q => (fst l, snd l, q)) (match get M (fst l) (snd l) with Some q => q | None => None end)).
  assert (exists out, sequence (map f links) = Some out /\
     map (fun l => fst (fst l)) out = map fst links /\ map (fun l => snd (fst l)) out = map snd links /\
     forall i o q, In (i, o, q) out -> In (i, o) links) as (out & EO & M1 & M2 & M3).
  { clear - G. induction links as [|l links IH]; [exists []; repeat split; auto|].
    destruct IH as (out & EO & M1 & M2 & M3); [intros; apply G; right; auto|].
    destruct (G l (or_introl eq_refl)) as (q & Gq & _).
    exists ((fst l, snd l, q) :: out). cbn [map sequence]. unfold f at 1. rewrite Gq. cbn [option_map bind]. rewrite EO. cbn [bind].
    split; auto. simpl. split; [congruence|]. split; [congruence|].
    intros i o q' [H|H]; [|right; eapply M3; eauto]. injection H as <- <- _. left. now destruct l. }
  exists out. split; auto. rewrite M1, M2. split; auto. split; auto.
  intros i o q H. destruct (G _ (M3 _ _ _ H)) as (_ & _ & X). exact X.
Qed.
Print Assumptions C03_solver_is_one_to_one.

(** C03. A run over any dates ends; it has one step by pair of consecutive dates,
    holding the links found by the association; the numbers of a step are
    pairwise distinct, a link starting where the previous step arrived keeps the
    number, and any other link from a real eddy has a number never seen before. *)
Theorem C03_track_numbers : forall {Obs V} as_obs extrapolate prolong associate nbv,
  one_to_one associate ->
  forall d ds, exists st : @state Obs V,
    track as_obs extrapolate prolong associate nbv (d :: ds) = Some st /\
    let H := rev (s_links st) in
    length H = length ds /\
    (forall t s, nth_error H t = Some s -> exists real next extra,
       nth_error (d :: ds) t = Some real /\ nth_error (d :: ds) (S t) = Some next /\
       associate (real ++ extra) next = Some (map (fun c => (c_in c, c_out c, c_cost c)) s) /\
       (nbv = 0 -> extra = []) /\
       (forall c, In c s -> (c_virtual c = true <-> length real <= c_in c))) /\
    (forall t s, nth_error H t = Some s -> NoDup (map c_id s)) /\
    (forall t c c', link_at H t c' -> link_at H (S t) c -> c_in c = c_out c' -> c_id c = c_id c') /\
    (forall t c, link_at H t c -> c_virtual c = false ->
       (forall t' c', S t' = t -> link_at H t' c' -> c_out c' <> c_in c) ->
       forall t', t' < t -> ~ seen H t' (c_id c)) /\
    (forall id, id < s_id st <-> exists t, seen H t id).
Proof.
  intros Obs V as_obs ex pr associate nbv HA d ds.
  destruct (track_run as_obs ex pr associate nbv HA d ds) as (st & E & (HH & DD & _) & B & LL).
  exists st. split; auto. cbv zeta.
  split; [now rewrite rev_length|].
  split; [|split; [|split; [|split]]].
  - intros t s Hs. destruct (bounded_at associate nbv _ _ B) as [_ BA].
    assert (Lt : t < length (s_links st)) by (apply nth_error_Some_lt in Hs; now rewrite rev_length in Hs).
    destruct (BA t Lt) as (s' & real & next & A1 & A2 & A3 & (A4 & extra & A5 & A6)).
    rewrite Hs in A1. injection A1 as <-. rewrite rev_involutive in *.
    exists real, next, extra. split; auto. split; auto. split; auto. split.
    + intros ->. now apply A6.
    + intros c Hc. now apply A4.
  - intros t s Hs. destruct (hist_at nbv _ HH t s Hs) as (h' & _ & OK & _). apply (ok_ids _ _ _ OK).
  - intros t c c' Hc' (s & Es & Hc) EI.
    destruct (hist_at nbv _ HH (S t) s Es) as (h' & Hh' & OK & Lh & LK).
    assert (N : In c' (newest h')).
    { apply newest_link. rewrite Lh. split; [lia|]. replace (S t - 1) with t by lia. apply LK; auto. }
    destruct (ok_kind _ _ _ OK c Hc) as [(_ & _ & X)|[(_ & c1 & X1 & X2 & X3)|(_ & _ & X)]].
    + exfalso. apply (X c' N). auto.
    + assert (ND : NoDup (map c_out (newest h'))).
      { destruct h' as [|s' h']; [constructor|]. inversion Hh' as [|? ? ? OK']; subst. apply (ok_outs _ _ _ OK'). }
      assert (c1 = c').
      { clear - ND X1 X3 N EI. induction (newest h') as [|a l IH]; [contradiction|]. simpl in *.
        inversion ND as [|? ? P1 P2]; subst. destruct X1 as [->|X1], N as [->|N]; auto.
        - exfalso. apply P1. rewrite X3, EI. now apply in_map.
        - exfalso. apply P1. rewrite <- EI, <- X3. now apply in_map. }
      congruence.
    + exfalso. apply (X c' N). auto.
  - intros t c (s & Es & Hc) Vf NO t' Lt S.
    destruct (hist_at nbv _ HH t s Es) as (h' & Hh' & OK & Lh & LK).
    destruct (ok_kind _ _ _ OK c Hc) as [(_ & X & _)|[(_ & c1 & X1 & X2 & X3)|(X & _)]].
    + destruct S as (c0 & S1 & S2). apply (proj1 (gap_None_links _ _) X t' c0); auto. apply LK; auto.
    + apply newest_link in X1 as [L X1]. rewrite Lh in *.
      apply (NO (t - 1) c1); auto; [lia|]. apply LK; [lia|auto].
    + congruence.
  - intros id. now apply dense_seen.
Qed.
Print Assumptions C03_track_numbers.

(** The example used below: eddies on a line, paired within a distance of 1, the
    virtual ones moving on at constant speed. *)
Definition near (a b : Q) : option Q :=
  let d := (if Qle_bool a b then b - a else a - b)%Q in if Qle_bool d 1 then Some d else None.
Definition line_track (nbv : nat) (ds : list (list Q)) : option (@state Q (Q * Q)) :=
  track (fun v => fst v) (fun a b => (b + (b - a), b - a)%Q) (fun v => (fst v + snd v, snd v)%Q) (solver_associate near) nbv ds.
Definition line_dates : list (list Q) :=
  [[0; 10]; [10; 1]; [2; 10; 20]; [10; 20]; [20; 4]; [5; 20; 30]; [6; 30]]%Q.
Definition line_links (nbv : nat) : list (list corr) :=
  match line_track nbv line_dates with Some st => rev (s_links st) | None => [] end.
(** The second track stops; the first one is missed at one date and found again
    as a virtual observation of length 1; without virtual observations it starts again. *)
Example C03_case : one_to_one (solver_associate near) /\
  map (map (fun c => (c_in c, c_out c, c_id c, c_virtual c))) (line_links 2) =
    [[(0, 1, 0, false); (1, 0, 1, false)]; [(0, 1, 1, false); (1, 0, 0, false)];
     [(1, 0, 1, false); (2, 1, 2, false)]; [(1, 0, 2, false); (2, 1, 0, true)];
     [(0, 1, 2, false); (1, 0, 0, false)]; [(0, 0, 0, false); (2, 1, 3, false)]] /\
  map (map (fun c => (c_in c, c_out c, c_id c))) (line_links 0) =
    [[(0, 1, 0); (1, 0, 1)]; [(0, 1, 1); (1, 0, 0)]; [(1, 0, 1); (2, 1, 2)]; [(1, 0, 2)];
     [(0, 1, 2); (1, 0, 3)]; [(0, 0, 3); (2, 1, 4)]].
Proof. split; [apply C03_solver_is_one_to_one|]. split; reflexivity. Qed.

(** C04. With nb_virtual at most 127: a link from a virtual eddy records exactly
    the number [k] of missing dates, between 1 and nb_virtual; no track has two
    consecutive eddies further apart; the virtual eddies kept at the end of the
    run are those of the tracks missing for 1 to nb_virtual dates, once each. *)
Theorem C04_virtual_memory : forall {Obs V} as_obs extrapolate prolong associate nbv,
  one_to_one associate -> nbv <= 127 ->
  forall d ds, exists st : @state Obs V,
    track as_obs extrapolate prolong associate nbv (d :: ds) = Some st /\
    let H := rev (s_links st) in
    (forall t c, link_at H t c -> c_virtual c = true -> exists k,
       1 <= k <= nbv /\ c_vlen c = k /\ k < t /\ seen H (t - 1 - k) (c_id c) /\
       forall t', t - 1 - k < t' < t -> ~ seen H t' (c_id c)) /\
    (forall id t t', seen H t id -> seen H t' id -> t < t' ->
       (forall u, t < u < t' -> ~ seen H u id) -> t' - t - 1 <= nbv) /\
    (forall vs, s_virt st = Some vs ->
       NoDup (map (@v_track V) vs) /\
       forall id k, (exists v, In v vs /\ v_track v = id /\ v_size v = Z.of_nat k) <->
         (1 <= k <= nbv /\ exists l, last_link H id l /\ l + 1 + k = length H)).
Proof.
  intros Obs V as_obs ex pr associate nbv HA LN d ds.
  destruct (track_run as_obs ex pr associate nbv HA d ds) as (st & E & (HH & DD & REST) & B & LL).
  exists st. split; auto. cbv zeta.
  assert (LAST : forall h id t s c, hist nbv h -> step_ok nbv h s -> In c s -> c_id c = id -> length h = t ->
     (exists g, gap h id = Some g /\ g <= nbv) \/ gap h id = None).
  { intros h id t s c Hh OK Hc Ei Lh. destruct (ok_kind _ _ _ OK c Hc) as [(_ & X & _)|[(_ & c1 & X1 & X2 & X3)|(_ & (g & X1 & X2 & X3 & X4) & _)]].
    - right. now rewrite <- Ei.
    - left. exists 0. split; [|lia]. apply gap_0. rewrite <- Ei, <- X2. now apply in_map.
    - left. exists g. rewrite <- Ei. split; auto. }
  split; [|split].
  - intros t c (s & Es & Hc) Vt.
    destruct (hist_at nbv _ HH t s Es) as (h' & Hh' & OK & Lh & LK).
    destruct (ok_kind _ _ _ OK c Hc) as [(X & _)|[(X & _)|(_ & (g & X1 & X2 & X3 & X4) & _)]]; try congruence.
    specialize (X4 LN). pose proof X1 as X1'. apply gap_seen in X1' as (Y1 & Y2 & Y3). rewrite Lh in *.
    exists g. split; auto. split; [rewrite X3; apply u1_small; lia|].
    split; [lia|]. split.
    + destruct Y2 as (c0 & Z1 & Z2). exists c0. split; auto. apply LK; auto. lia.
    + intros t' Lt (c0 & Z1 & Z2). apply (Y3 t'); [lia|]. exists c0. split; auto. apply LK; [lia|auto].
  - intros id t t' S1 (c & (s & Es & Hc) & Ei) Lt NB.
    destruct (hist_at nbv _ HH t' s Es) as (h' & Hh' & OK & Lh & LK).
    destruct (LAST h' id t' s c Hh' OK Hc Ei Lh) as [(g & G1 & G2)|G].
    + apply gap_seen in G1 as (Y1 & Y2 & Y3). rewrite Lh in *.
      destruct (Nat.lt_trichotomy t (t' - 1 - g)) as [X|[X|X]]; [|lia|].
      * exfalso. apply (NB (t' - 1 - g)); [lia|]. destruct Y2 as (c0 & Z1 & Z2). exists c0. split; auto. apply LK; auto. lia.
      * exfalso. apply (Y3 t X). destruct S1 as (c0 & Z1 & Z2). exists c0. split; auto. apply LK; auto.
    + exfalso. rewrite gap_None_seen in G. apply (G t). destruct S1 as (c0 & Z1 & Z2). exists c0. split; auto. apply LK; auto.
  - intros vs Ev.
    destruct (s_links st) as [|s [|s2 h]] eqn:EL.
    + destruct REST as (_ & X & _). congruence.
    + destruct REST as (_ & _ & X & _). congruence.
    + destruct REST as (_ & _ & R). destruct (virtual nbv); [|destruct R; congruence].
      destruct R as ((vs' & R1 & (R2 & R3 & R4)) & _). rewrite Ev in R1. injection R1 as <-. split; auto.
      rewrite <- EL in *. intros id k. rewrite rev_length. split.
      * intros (v & Hv & <- & Ek). destruct (R3 v Hv) as (g & G1 & G2 & G3 & G4). specialize (G4 LN).
        rewrite G3, i8_small in Ek by lia. assert (g = k) by lia. subst g. split; auto.
        exists (length (s_links st) - 1 - k). pose proof G1 as G1'. apply gap_seen in G1' as (Y1 & _ & _).
        split; [|lia]. apply last_link_gap. split; [lia|]. rewrite G1. f_equal. lia.
      * intros (K & l & Ll & El). apply last_link_gap in Ll as (L1 & L2).
        replace (length (s_links st) - 1 - l) with k in L2 by lia.
        destruct (R4 id k L2 ltac:(lia) ltac:(lia)) as (v & Hv & Vt). exists v. split; auto. split; auto.
        destruct (R3 v Hv) as (g & G1 & G2 & G3 & G4). rewrite Vt in G1. rewrite L2 in G1. injection G1 as <-.
        rewrite G3. apply i8_small. lia.
Qed.
Print Assumptions C04_virtual_memory.

Example C04_case : 2 <= 127 /\
  exists st, line_track 2 line_dates = Some st /\
    (exists c, link_at (rev (s_links st)) 3 c /\ c_virtual c = true /\ c_vlen c = 1) /\
    option_map (map (fun v => (v_track v, v_size v))) (s_virt st) = Some [(2, 1%Z)].
Proof.
  split; [lia|]. eexists. split; [vm_compute; reflexivity|]. split; [|reflexivity].
  eexists. split; [eexists; split; [reflexivity|right; left; reflexivity]|]. split; reflexivity.
Qed.

(** Above 127 the bound is lost: the size of a virtual eddy is a signed byte, it
    becomes negative before it reaches 128.  With nb_virtual = 128 a motionless
    eddy missing for 130 dates is found again under the same number, and the
    recorded length is 130. *)
Definition lost_dates (n : nat) : list (list Q) := [[0]; [0]]%Q ++ repeat [] n ++ [[0]]%Q.
Theorem C04_refuted : exists st, line_track 128 (lost_dates 130) = Some st /\
  exists c, link_at (rev (s_links st)) 131 c /\ c_id c = 0 /\ c_virtual c = true /\ c_vlen c = 130 /\
    seen (rev (s_links st)) 0 0 /\ forall t, 0 < t < 131 -> ~ seen (rev (s_links st)) t 0.
Proof.
  destruct (line_track 128 (lost_dates 130)) as [st|] eqn:E; [|vm_compute in E; discriminate].
  exists st. split; auto.
  assert (EH : rev (s_links st) = [mkcorr 0 0 0 0 false 255] :: repeat [] 130 ++ [[mkcorr 0 0 0 0 true 130]]).
  { apply (f_equal (option_map (fun s => rev (s_links s)))) in E. cbn [option_map] in E.
    symmetry. apply Some_inj. rewrite <- E. vm_compute. reflexivity. }
  rewrite EH. exists (mkcorr 0 0 0 0 true 130). split; [|split; [|split; [|split; [|split]]]]; try reflexivity.
  - exists [mkcorr 0 0 0 0 true 130]. split; [|left; reflexivity]. reflexivity.
  - exists (mkcorr 0 0 0 0 false 255). split; [|reflexivity]. exists [mkcorr 0 0 0 0 false 255]. split; [reflexivity|left; reflexivity].
  - intros t Lt (c & (s & Es & Hc) & _). destruct t as [|t]; [lia|]. cbn [nth_error] in Es.
    rewrite nth_error_app1 in Es by (rewrite repeat_length; lia).
    rewrite nth_error_repeat_lt in Es. rewrite (proj2 (Nat.ltb_lt t 130)) in Es by lia. injection Es as <-. contradiction.
Qed.
Print Assumptions C04_refuted.

(** Common part of C05 and C06. *)
Lemma run_merge : forall {Obs V} as_obs extrapolate prolong associate nbv,
  one_to_one associate -> nbv <= 127 ->
  forall d ds, exists st : @state Obs V,
    track as_obs extrapolate prolong associate nbv (d :: ds) = Some st /\ inv nbv st /\
    wfh (s_links st) /\ no_virtual (0 <? nbv) (s_links st) /\
    exists nb rows, nb_obs_by_tracks (0 <? nbv) (s_id st) (rev (s_links st)) = Some nb /\
      merge (0 <? nbv) nb (rev (s_links st)) = Some rows /\
      length nb = s_id st /\ length rows = sum_list nb /\
      (forall id, id < s_id st -> nth_error nb id = Some (cntr (s_links st) id) /\ 0 < cntr (s_links st) id) /\
      (forall id k, id < s_id st -> k < cntr (s_links st) id ->
         nth_error rows (block nb id + k) = Some (mkrow id k (slot (s_links st) id k) (cslot (s_links st) id k))).
Proof.
  intros Obs V as_obs ex pr associate nbv HA LN d ds.
  destruct (track_run as_obs ex pr associate nbv HA d ds) as (st & E & I & B & LL).
  exists st. split; auto. split; auto. destruct I as (HH & DD & REST).
  assert (W : wfh (s_links st)) by (eapply hist_wfh; eauto).
  assert (NV : no_virtual (0 <? nbv) (s_links st)).
  { intros F. apply Nat.ltb_ge in F. assert (nbv = 0) by lia. subst nbv. now apply hist_no_virtual. }
  split; auto. split; auto.
  destruct (nb_obs_spec (0 <? nbv) _ _ W DD NV) as (nb & EN & LN' & HN).
  destruct (merge_spec (0 <? nbv) _ _ nb W DD NV LN') as (rows & ER & LR & HR).
  { intros id Hid. now apply HN. }
  exists nb, rows. auto 7.
Qed.

Lemma span : forall h id f l, wfh h -> first_link (rev h) id f -> last_link (rev h) id l ->
  cntr h id = l + 2 - f /\ f <= l.
Proof.
  intros h id f l W F L. pose proof F as [F1 _]. pose proof L as [_ L2].
  apply first_link_firstr in F. apply last_link_gap in L as [L0 L1].
  destruct (cntr_span h W id _ _ L1 F) as [X1 X2]. specialize (L2 _ F1). split; lia.
Qed.

(** C05. The number of observations reserved for a track is the number of dates
    from its first to its last eddy, and in the merged output the eddy of date
    [t + 1] sits [t + 1 - f] rows after the first row of its track. *)
Theorem C05_length_is_time_span : forall {Obs V} as_obs extrapolate prolong associate nbv,
  one_to_one associate -> nbv <= 127 ->
  forall d ds, exists st : @state Obs V,
    track as_obs extrapolate prolong associate nbv (d :: ds) = Some st /\
    let H := rev (s_links st) in
    exists nb rows, nb_obs_by_tracks (0 <? nbv) (s_id st) H = Some nb /\
      merge (0 <? nbv) nb H = Some rows /\
      (forall id f l, first_link H id f -> last_link H id l -> nth_error nb id = Some (l + 1 - f + 1)) /\
      (forall f t c, link_at H t c -> first_link H (c_id c) f ->
         exists r, nth_error rows (block nb (c_id c) + (t + 1 - f)) = Some r /\
           r_track r = c_id c /\ r_obs r = Some (t + 1, c_out c) /\
           (t = f -> exists r0, nth_error rows (block nb (c_id c)) = Some r0 /\
              r_track r0 = c_id c /\ r_obs r0 = Some (f, c_in c))).
Proof.
  intros Obs V as_obs ex pr associate nbv HA LN d ds.
  destruct (run_merge as_obs ex pr associate nbv HA LN d ds) as (st & E & (HH & DD & _) & W & NV & nb & rows & EN & ER & LNB & LR & HN & HR).
  exists st. split; auto. cbv zeta. exists nb, rows. split; auto. split; auto. split.
  - intros id f l F L. destruct (span _ _ _ _ W F L) as [S1 S2].
    assert (Hid : id < s_id st) by (apply (dense_seen _ _ _ DD); destruct F as [F _]; eauto).
    rewrite (proj1 (HN id Hid)), S1. f_equal. lia.
  - intros f t c LK F.
    assert (SE : seen (rev (s_links st)) t (c_id c)) by (exists c; auto).
    assert (Hid : c_id c < s_id st) by (apply (dense_seen _ _ _ DD); eauto).
    destruct (seen_first_last _ _ _ SE) as (f' & l & F' & L).
    assert (f' = f). { apply first_link_firstr in F, F'. congruence. } subst f'.
    destruct (span _ _ _ _ W F L) as [S1 S2].
    pose proof (proj2 L t SE) as T1. pose proof (proj2 F t SE) as T2.
    pose proof (slot_spec _ W _ _ (proj1 (first_link_firstr _ _ _) F)) as SL.
    exists (mkrow (c_id c) (t + 1 - f) (slot (s_links st) (c_id c) (t + 1 - f)) (cslot (s_links st) (c_id c) (t + 1 - f))).
    split; [apply HR; auto; lia|]. split; [reflexivity|]. split.
    + cbn [r_obs]. apply SL. right. exists t, c. split; auto. split; auto. split; [lia|auto].
    + intros ->. exists (mkrow (c_id c) 0 (slot (s_links st) (c_id c) 0) (cslot (s_links st) (c_id c) 0)).
      split; [rewrite <- (Nat.add_0_r (block nb (c_id c))); apply HR; auto; lia|]. split; [reflexivity|].
      cbn [r_obs]. apply SL. left. split; auto. exists c. auto.
Qed.
Print Assumptions C05_length_is_time_span.

(** C06. The merged output is made of one block of rows by track, in the order of
    the numbers and without gap; a row of the block holds the eddy of its date when
    the track has one, and is left empty otherwise (virtual observation). *)
Theorem C06_merge_rows : forall {Obs V} as_obs extrapolate prolong associate nbv,
  one_to_one associate -> nbv <= 127 ->
  forall d ds, exists st : @state Obs V,
    track as_obs extrapolate prolong associate nbv (d :: ds) = Some st /\
    let H := rev (s_links st) in
    exists nb rows, nb_obs_by_tracks (0 <? nbv) (s_id st) H = Some nb /\
      merge (0 <? nbv) nb H = Some rows /\
      length nb = s_id st /\ length rows = sum_list nb /\
      (forall i, i < length rows -> exists id k n, nth_error nb id = Some n /\ k < n /\ i = block nb id + k) /\
      forall id n k f, nth_error nb id = Some n -> k < n -> first_link H id f ->
        exists r, nth_error rows (block nb id + k) = Some r /\ r_track r = id /\ r_n r = k /\
          (forall date x, r_obs r = Some (date, x) <->
             date = f + k /\
             ((exists c, link_at H date c /\ c_id c = id /\ k = 0 /\ c_in c = x) \/
              (exists t c, link_at H t c /\ c_id c = id /\ date = t + 1 /\ c_out c = x))) /\
          (forall q, r_cost r = Some q <-> exists c, link_at H (f + k) c /\ c_id c = id /\ c_cost c = q).
Proof.
  intros Obs V as_obs ex pr associate nbv HA LN d ds.
  destruct (run_merge as_obs ex pr associate nbv HA LN d ds) as (st & E & (HH & DD & _) & W & NV & nb & rows & EN & ER & LNB & LR & HN & HR).
  exists st. split; auto. cbv zeta. exists nb, rows. split; auto. split; auto. split; auto. split; auto. split.
  - intros i Hi. apply block_cover. lia.
  - intros id n k f En Hk F.
    assert (Hid : id < s_id st) by (rewrite <- LNB; eapply nth_error_Some_lt; eauto).
    rewrite (proj1 (HN id Hid)) in En. injection En as <-.
    exists (mkrow id k (slot (s_links st) id k) (cslot (s_links st) id k)).
    split; [apply HR; auto|]. split; [reflexivity|]. split; [reflexivity|]. cbn [r_obs r_cost].
    pose proof (proj1 (first_link_firstr _ _ _) F) as F'. split.
    + intros date x. rewrite (slot_spec _ W _ _ F' k (date, x)). split.
      * intros [(-> & c & A & B & D)|(t & c & A & B & D & G)].
        -- injection D as -> ->. split; [lia|]. left. exists c. auto.
        -- injection G as -> ->. split; [lia|]. right. exists t, c. auto.
      * intros (D & [(c & A & B & K & X)|(t & c & A & B & D' & X)]).
        -- left. split; auto. exists c. subst k. rewrite Nat.add_0_r in D. subst. auto.
        -- right. exists t, c. subst. split; auto.
    + intros q. rewrite (cslot_spec _ W _ _ F' k q). split; intros (c & A & B & D); exists c; auto.
Qed.
Print Assumptions C06_merge_rows.

(** The row of the missed date is empty, and the costs stand on the row before
    the eddy they lead to. *)
Example C05_C06_case :
  match line_track 2 line_dates with
  | Some st =>
      match nb_obs_by_tracks true (s_id st) (rev (s_links st)) with
      | Some nb => nb = [7; 4; 4; 2] /\
          option_map (map (fun r => (r_track r, r_n r, r_obs r))) (merge true nb (rev (s_links st))) =
            Some [(0, 0, Some (0, 0)); (0, 1, Some (1, 1)); (0, 2, Some (2, 0)); (0, 3, None);
                  (0, 4, Some (4, 1)); (0, 5, Some (5, 0)); (0, 6, Some (6, 0));
                  (1, 0, Some (0, 1)); (1, 1, Some (1, 0)); (1, 2, Some (2, 1)); (1, 3, Some (3, 0));
                  (2, 0, Some (2, 2)); (2, 1, Some (3, 1)); (2, 2, Some (4, 0)); (2, 3, Some (5, 1));
                  (3, 0, Some (5, 2)); (3, 1, Some (6, 1))]
      | None => False
      end
  | None => False
  end.
Proof. vm_compute. split; reflexivity. Qed.

(** C07. The observations reported as unused for a date are, in increasing order,
    those from which no link starts and at which no link arrives. *)
Theorem C07_unused_is_complement : forall {Obs V} as_obs extrapolate prolong associate nbv,
  one_to_one associate ->
  forall d ds, ds <> [] -> exists st : @state Obs V,
    track as_obs extrapolate prolong associate nbv (d :: ds) = Some st /\
    let H := rev (s_links st) in
    forall i obs, nth_error (d :: ds) i = Some obs ->
    exists unused, unused_at H (length (d :: ds)) i (length obs) = Some unused /\
      (forall a b u v, a < b -> nth_error unused a = Some u -> nth_error unused b = Some v -> u < v) /\
      forall x, In x unused <->
        x < length obs /\
        (forall c, link_at H i c -> c_virtual c = false -> c_in c <> x) /\
        (forall t c, S t = i -> link_at H t c -> c_out c <> x).
Proof.
  intros Obs V as_obs ex pr associate nbv HA d ds NE.
  destruct (track_run as_obs ex pr associate nbv HA d ds) as (st & E & (HH & DD & _) & B & LL).
  exists st. split; auto. cbv zeta. intros i obs Hi.
  destruct (bounded_at associate nbv _ _ B) as [_ BA]. rewrite rev_involutive in BA.
  pose proof (nth_error_Some_lt _ _ _ Hi) as Li. cbn [length] in Li.
  assert (LH : length (rev (s_links st)) = length ds) by now rewrite rev_length.
  assert (L1 : 0 < length ds) by (destruct ds; [congruence|simpl; lia]).
  assert (STEP : forall t, t < length ds -> exists s, nth_error (rev (s_links st)) t = Some s).
  { intros t Ht. apply nth_error_lt_Some. lia. }
  assert (INS : forall s c, nth_error (rev (s_links st)) i = Some s -> In c s -> c_virtual c = false -> c_in c < length obs).
  { intros s c Es Hc Vf. pose proof (nth_error_Some_lt _ _ _ Es) as L.
    destruct (BA i ltac:(lia)) as (s' & r & nx & A1 & A2 & A3 & (A4 & _)). rewrite Es in A1. injection A1 as <-.
    rewrite Hi in A2. injection A2 as <-. destruct (A4 c Hc) as [_ X]. rewrite Vf in X.
    destruct (Nat.lt_ge_cases (c_in c) (length obs)) as [Y|Y]; auto. apply X in Y. discriminate. }
  assert (OUTS : forall t s c, S t = i -> nth_error (rev (s_links st)) t = Some s -> In c s -> c_out c < length obs).
  { intros t s c Et Es Hc. pose proof (nth_error_Some_lt _ _ _ Es) as L.
    destruct (BA t ltac:(lia)) as (s' & r & nx & A1 & A2 & A3 & (A4 & _)). rewrite Es in A1. injection A1 as <-.
    rewrite Et, Hi in A3. injection A3 as <-. now destruct (A4 c Hc). }
  assert (USED : exists used, unused_at (rev (s_links st)) (length (d :: ds)) i (length obs) = reverse_index used (length obs) /\
     (forall x, In x used <-> (exists c, link_at (rev (s_links st)) i c /\ c_virtual c = false /\ c_in c = x) \/
                               (exists t c, S t = i /\ link_at (rev (s_links st)) t c /\ c_out c = x)) /\
     forall x, In x used -> x < length obs).
  { unfold unused_at. cbn [length].
    replace (S (length ds) - 1) with (length ds) by lia.
    destruct (Nat.eqb_spec i 0) as [->|N0].
    - destruct (STEP 0 L1) as [s Es]. rewrite Es. cbn [bind]. exists (map c_in s). split; auto.
      assert (RV : forall c, In c s -> c_virtual c = false) by (apply (first_step_real nbv _ _ HH Es)).
      split.
      + intros x. rewrite in_map_iff. split.
        * intros (c & Ex & Hc). left. exists c. split; [exists s; auto|]. split; auto.
        * intros [(c & (s' & Es' & Hc) & _ & Ex)|(t & c & Et & _)]; [|lia]. rewrite Es in Es'. injection Es' as <-. eauto.
      + intros x Hx. apply in_map_iff in Hx as (c & <- & Hc). eapply INS; eauto.
    - destruct (Nat.eqb_spec i (length ds)) as [El|Nl].
      + destruct (STEP (i - 1)) as [s Es]; [lia|]. rewrite Es. cbn [bind]. exists (map c_out s). split; auto. split.
        * intros x. rewrite in_map_iff. split.
          -- intros (c & Ex & Hc). right. exists (i - 1), c. split; [lia|]. split; auto. exists s. auto.
          -- intros [(c & (s' & Es' & Hc) & _)|(t & c & Et & (s' & Es' & Hc) & Ex)].
             ++ apply nth_error_Some_lt in Es'. lia.
             ++ replace (i - 1) with t in Es by lia. rewrite Es in Es'. injection Es' as <-. eauto.
        * intros x Hx. apply in_map_iff in Hx as (c & <- & Hc). eapply (OUTS (i - 1)); eauto. lia.
      + destruct (STEP (i - 1)) as [sa Ea]; [lia|]. destruct (STEP i) as [sb Eb]; [lia|]. rewrite Ea. cbn [bind]. rewrite Eb. cbn [bind].
        eexists. split; [reflexivity|]. split.
        * intros x. rewrite In_usort, in_app_iff, !in_map_iff. split.
          -- intros [(c & Ex & Hc)|(c & Ex & Hc)].
             ++ right. exists (i - 1), c. split; [lia|]. split; auto. exists sa. auto.
             ++ apply filter_In in Hc as [Hc Vf]. left. exists c. split; [exists sb; auto|].
                destruct (c_virtual c); [discriminate|auto].
          -- intros [(c & (s' & Es' & Hc) & Vf & Ex)|(t & c & Et & (s' & Es' & Hc) & Ex)].
             ++ rewrite Eb in Es'. injection Es' as <-. right. exists c. split; auto. apply filter_In. now rewrite Vf.
             ++ replace (i - 1) with t in Ea by lia. rewrite Ea in Es'. injection Es' as <-. eauto.
        * intros x Hx. apply In_usort, in_app_iff in Hx as [Hx|Hx]; apply in_map_iff in Hx as (c & <- & Hc).
          -- eapply (OUTS (i - 1)); eauto. lia.
          -- apply filter_In in Hc as [Hc Vf]. eapply INS; eauto. destruct (c_virtual c); [discriminate|auto]. }
  destruct USED as (used & EU & US & UB).
  destruct (reverse_index_complement used (length obs) UB) as (r & Er & IN & CO).
  exists r. rewrite EU. split; auto. split; auto. intros x. rewrite (CO x). split.
  - intros [Lx N]. split; auto. rewrite US in N. split.
    + intros c LK Vf Ex. apply N. left. eauto.
    + intros t c Et LK Ex. apply N. right. eauto.
  - intros (Lx & N1 & N2). split; auto. rewrite US. intros [(c & LK & Vf & Ex)|(t & c & Et & LK & Ex)].
    + eapply N1; eauto.
    + eapply N2; eauto.
Qed.
Print Assumptions C07_unused_is_complement.

Example C07_case :
  map (fun i => unused_at (line_links 2) 7 i (length (nth i line_dates []))) (seq 0 7) =
    [Some []; Some []; Some []; Some []; Some []; Some []; Some []] /\
  match line_track 2 [[0; 10]; [1; 50; 60]; [70; 2; 80]]%Q with
  | Some st => map (fun p => unused_at (rev (s_links st)) 3 (fst p) (snd p)) [(0, 2); (1, 3); (2, 3)]
               = [Some [1]; Some [1; 2]; Some [0; 2]]
  | None => False
  end.
Proof. split; vm_compute; reflexivity. Qed.

Lemma kept_renumbered : forall keep s, renumbered keep s (kept keep s).
Proof.
  intros keep s. unfold renumbered, kept.
  change (fun c : corr => existsb (Nat.eqb (c_id c)) keep) with (fun c : corr => mem (c_id c) keep).
  assert (H : forall c, In c (filter (fun c => mem (c_id c) keep) s) -> In (c_id c) keep).
  { intros c Hc. apply filter_In in Hc as [_ Hc]. now apply mem_In. }
  induction (filter (fun c => mem (c_id c) keep) s) as [|c l IH]; simpl; constructor.
  - exists (rank keep (c_id c)). split; [apply rank_nth, H; left; auto|reflexivity].
  - apply IH. intros c' Hc. apply H. now right.
Qed.
Lemma Forall2_map_r : forall {A B} (R : A -> B -> Prop) f l, (forall a, R a (f a)) -> Forall2 R l (map f l).
Proof. induction l; simpl; constructor; auto. Qed.

(** C08. The tracks of at least [n] observations and those of fewer than [n] are
    complementary; each selection keeps the lengths and the links of its tracks,
    numbered 0, 1, 2... in their order.  With no track long enough the first
    selection changes nothing, with no track short enough the second one raises. *)
Theorem C08_selections_partition : forall n nb links,
  let long := filter (fun id => n <=? nth id nb 0) (seq 0 (length nb)) in
  let short := filter (fun id => nth id nb 0 <? n) (seq 0 (length nb)) in
  (forall id, id < length nb -> (In id long <-> ~ In id short)) /\
  (long <> [] -> exists links', longer_than n nb links = Some (map (fun id => nth id nb 0) long, links') /\
     Forall2 (renumbered long) links links') /\
  (long = [] -> longer_than n nb links = Some (nb, links)) /\
  (short <> [] -> exists links', shorter_than n nb links = Some (map (fun id => nth id nb 0) short, links') /\
     Forall2 (renumbered short) links links') /\
  (short = [] -> shorter_than n nb links = None).
Proof.
  intros n nb links long short.
  destruct (longer_than_spec n nb links) as [A1 A2]. destruct (shorter_than_spec n nb links) as [B1 B2].
  split; [|split; [|split; [|split]]].
  - intros id L. unfold long, short. rewrite !filter_In, !in_seq, Nat.leb_le, Nat.ltb_lt. lia.
  - intros N. exists (map (kept long) links). split; [apply A1, N|]. apply Forall2_map_r, kept_renumbered.
  - exact A2.
  - intros N. exists (map (kept short) links). split; [apply B1, N|]. apply Forall2_map_r, kept_renumbered.
  - exact B2.
Qed.
Print Assumptions C08_selections_partition.

Lemma selection_rows : forall virtual h cur nb keep,
  wfh h -> dense cur h -> no_virtual virtual h ->
  (forall id, id < cur -> nth_error nb id = Some (cntr h id)) -> length nb = cur ->
  NoDup keep -> (forall x, In x keep -> x < cur) ->
  let nb' := map (fun id => nth id nb 0) keep in
  exists rows rows', merge virtual nb (rev h) = Some rows /\
    nb_obs_by_tracks virtual (length keep) (rev (map (kept keep) h)) = Some nb' /\
    merge virtual nb' (rev (map (kept keep) h)) = Some rows' /\
    length rows' = sum_list nb' /\
    forall j id k n, nth_error keep j = Some id -> nth_error nb id = Some n -> k < n ->
      exists r, nth_error rows (block nb id + k) = Some r /\
        nth_error rows' (block nb' j + k) = Some (mkrow j (r_n r) (r_obs r) (r_cost r)).
Proof.
  intros virtual h cur nb keep W D NV HN LN ND BK nb'.
  destruct (merge_spec virtual h cur nb W D NV LN HN) as (rows & ER & LR & HR).
  pose proof (wfh_kept keep ND h W) as W'. pose proof (dense_kept keep ND h cur D BK) as D'.
  pose proof (no_virtual_kept keep virtual h NV) as NV'.
  assert (HN' : forall j, j < length keep -> nth_error nb' j = Some (cntr (map (kept keep) h) j)).
  { intros j Lj. destruct (nth_error_lt_Some keep j Lj) as [id Ej]. unfold nb'. rewrite nth_error_map, Ej. simpl.
    rewrite (cntr_kept keep ND h j id Ej). rewrite (nth_error_nth nb id 0 (HN id (BK id (nth_error_In _ _ Ej)))). reflexivity. }
  assert (LN' : length nb' = length keep) by apply map_length.
  destruct (nb_obs_spec virtual _ _ W' D' NV') as (nb2 & E2 & L2 & H2).
  assert (nb2 = nb').
  { apply nth_error_ext. intros j. destruct (Nat.lt_ge_cases j (length keep)) as [L|L].
    - rewrite HN' by auto. now apply H2.
    - rewrite (proj2 (nth_error_None nb2 j)) by lia. rewrite (proj2 (nth_error_None nb' j)) by lia. reflexivity. }
  subst nb2.
  destruct (merge_spec virtual _ _ nb' W' D' NV' LN' HN') as (rows' & ER' & LR' & HR').
  exists rows, rows'. split; auto. split; auto. split; auto. split; auto.
  intros j id k n Ej En Hk. pose proof (BK id (nth_error_In _ _ Ej)) as Hid.
  rewrite (HN id Hid) in En. injection En as <-.
  eexists. split; [apply HR; auto|]. cbn [r_n r_obs r_cost].
  unfold block. rewrite HR'.
  - rewrite (slot_kept keep ND h j id k Ej), (cslot_kept keep ND h j id k Ej). reflexivity.
  - eapply nth_error_Some_lt; eauto.
  - now rewrite (cntr_kept keep ND h j id Ej).
Qed.

(** ... and after a run, recounting the selected links gives the selected
    lengths, and merging them gives the blocks of the selected tracks unchanged. *)
Theorem C08_selection_keeps_tracks : forall {Obs V} as_obs extrapolate prolong associate nbv,
  one_to_one associate -> nbv <= 127 ->
  forall d ds n, exists st : @state Obs V,
    track as_obs extrapolate prolong associate nbv (d :: ds) = Some st /\
    let H := rev (s_links st) in
    exists nb rows, nb_obs_by_tracks (0 <? nbv) (s_id st) H = Some nb /\ merge (0 <? nbv) nb H = Some rows /\
    forall keep nb' H',
      (keep = filter (fun id => n <=? nth id nb 0) (seq 0 (length nb)) /\ keep <> [] /\
         longer_than n nb H = Some (nb', H')) \/
      (keep = filter (fun id => nth id nb 0 <? n) (seq 0 (length nb)) /\
         shorter_than n nb H = Some (nb', H')) ->
      exists rows', nb_obs_by_tracks (0 <? nbv) (length keep) H' = Some nb' /\
        merge (0 <? nbv) nb' H' = Some rows' /\ length rows' = sum_list nb' /\
        forall j id k len, nth_error keep j = Some id -> nth_error nb id = Some len -> k < len ->
          exists r, nth_error rows (block nb id + k) = Some r /\
            nth_error rows' (block nb' j + k) = Some (mkrow j (r_n r) (r_obs r) (r_cost r)).
Proof.
  intros Obs V as_obs ex pr associate nbv HA LN d ds n.
  destruct (run_merge as_obs ex pr associate nbv HA LN d ds) as (st & E & (HH & DD & _) & W & NV & nb & rows & EN & ER & LNB & LR & HN & HR).
  exists st. split; auto. cbv zeta. exists nb, rows. split; auto. split; auto.
  intros keep nb' H' SEL.
  assert (EQ : exists p, keep = filter p (seq 0 (length nb)) /\ nb' = map (fun id => nth id nb 0) keep /\
             H' = map (kept keep) (rev (s_links st))).
  { destruct SEL as [(K & N & S)|(K & S)]; subst keep.
    - eexists. split; [reflexivity|].
      rewrite (proj1 (longer_than_spec n nb (rev (s_links st))) N) in S. injection S as <- <-. auto.
    - eexists. split; [reflexivity|]. destruct (shorter_than_spec n nb (rev (s_links st))) as [B1 B2].
      assert (NS : short_ids n nb <> []) by (intros C; rewrite (B2 C) in S; discriminate).
      rewrite (B1 NS) in S. injection S as <- <-. auto. }
  destruct EQ as (p & EK & -> & ->).
  assert (ND : NoDup keep) by (rewrite EK; apply NoDup_filter, seq_NoDup).
  assert (BK : forall x, In x keep -> x < s_id st).
  { intros x Hx. rewrite EK in Hx. apply filter_In in Hx as [Hx _]. apply in_seq in Hx. lia. }
  destruct (selection_rows (0 <? nbv) (s_links st) (s_id st) nb keep W DD NV) as (rows1 & rows' & R1 & R2 & R3 & R4 & R5); auto.
  { intros id Hid. now apply HN. }
  rewrite ER in R1. injection R1 as <-. rewrite map_rev. exists rows'. auto.
Qed.
Print Assumptions C08_selection_keeps_tracks.

Example C08_case :
  match line_track 2 line_dates with
  | Some st =>
      match nb_obs_by_tracks true (s_id st) (rev (s_links st)) with
      | Some nb =>
          option_map fst (longer_than 4 nb (rev (s_links st))) = Some [7; 4; 4] /\
          option_map fst (shorter_than 4 nb (rev (s_links st))) = Some [2] /\
          option_map (fun x => map (map (fun c => (c_in c, c_out c, c_id c))) (snd x)) (shorter_than 5 nb (rev (s_links st))) =
            Some [[(1, 0, 0)]; [(0, 1, 0)]; [(1, 0, 0); (2, 1, 1)]; [(1, 0, 1)]; [(0, 1, 1)]; [(2, 1, 2)]] /\
          longer_than 8 nb (rev (s_links st)) = Some (nb, rev (s_links st)) /\
          shorter_than 2 nb (rev (s_links st)) = None
      | None => False
      end
  | None => False
  end.
Proof. vm_compute. repeat split; reflexivity. Qed.

(** C09. Stopping after the dates [ds1], saving and resuming over all the dates
    gives the run over all the dates: same links, numbers, virtual observations
    and virtual flag, whatever the association does (success or exception). *)
Theorem C09_resume_equals_full_run : forall {Obs V} as_obs extrapolate prolong associate nbv
  (ds1 ds2 : list (list Obs)) (st1 : @state Obs V),
  track as_obs extrapolate prolong associate nbv ds1 = Some st1 ->
  1 <= length (s_links st1) -> (0 < nbv -> 3 <= length (s_links st1)) ->
  (forall s, In s (s_links st1) -> s <> []) ->
  let result (st : @state Obs V) := (s_links st, s_id st, s_prev st, s_cur st, s_virt st, s_pvirt st, s_flg st) in
  exists f, save st1 = Some f /\
    option_map result (resume as_obs extrapolate prolong associate nbv f (ds1 ++ ds2)) =
    option_map result (track as_obs extrapolate prolong associate nbv (ds1 ++ ds2)).
Proof.
  intros Obs V as_obs ex pr associate nbv ds1 ds2 st1 T L1 L3 NE result.
  destruct (resume_spec as_obs ex pr associate nbv ds1 ds2 st1 T) as (f & S & R); auto.
  { intros C. rewrite C in L1. simpl in L1. lia. }
  { intros Vt. apply L3. now apply Nat.ltb_lt in Vt. }
  exists f. split; auto. rewrite R.
  assert (T2 : track as_obs ex pr associate nbv (ds1 ++ ds2) = steps as_obs ex pr associate nbv st1 ds2).
  { destruct ds1 as [|d ds1]; [discriminate|]. simpl in *. rewrite steps_app, T. reflexivity. }
  rewrite T2. destruct ds2 as [|d2 ds2]; [reflexivity|]. rewrite steps_prev2 by discriminate. reflexivity.
Qed.
Print Assumptions C09_resume_equals_full_run.

Example C09_case :
  match line_track 2 (firstn 4 line_dates) with
  | Some st => length (s_links st) = 3 /\ (forall s, In s (s_links st) -> s <> []) /\
      match save st with
      | Some f => option_map (fun s => rev (s_links s)) (resume (fun v => fst v) (fun a b => (b + (b - a), b - a)%Q)
           (fun v => (fst v + snd v, snd v)%Q) (solver_associate near) 2 f line_dates) = Some (line_links 2)
      | None => False
      end
  | None => False
  end.
Proof.
  vm_compute. split; auto. split; [|reflexivity]. intros s [<-|[<-|[<-|[]]]]; discriminate.
Qed.

(** With virtual observations a run stopped after two links cannot be saved, and
    one stopped after a single link cannot be resumed. *)
Theorem C09_early_stop_refuted :
  (exists st, line_track 2 (firstn 3 line_dates) = Some st /\ save st = None) /\
  (exists st f, line_track 2 (firstn 2 line_dates) = Some st /\ save st = Some f /\
     resume (fun v => fst v) (fun a b => (b + (b - a), b - a)%Q)
        (fun v => (fst v + snd v, snd v)%Q) (solver_associate near) 2 f line_dates = None).
Proof.
  split.
  - eexists. split; [vm_compute; reflexivity|reflexivity].
  - eexists. eexists. split; [vm_compute; reflexivity|]. split; reflexivity.
Qed.
Print Assumptions C09_early_stop_refuted.

(** C10. [nb_max] is the greatest number at the junction.  When every link after
    the junction belongs to a track alive at the junction or to one with a
    greater number, and such a greater number exists, the two runs are joined: the
    links of the later run are added unchanged but for their number; tracks alive
    at the junction take the number they have in the first run, the others get
    numbers from [self_id] on; two links share a number after if and only if they
    shared one before. *)
Theorem C10_join : forall self self_last self_id other other_last other_id i nb_max,
  nth_error self (length self - 1) = Some self_last ->
  1 <= i -> nth_error other (i - 1) = Some other_last ->
  length self_last = length other_last ->
  NoDup (map c_id other_last) -> NoDup (map c_id self_last) ->
  (forall c, In c self_last -> c_id c < self_id) ->
  In nb_max (map c_id other_last) -> (forall c, In c other_last -> c_id c <= nb_max) ->
  nb_max + 1 < other_id ->
  (forall t c, i <= t -> link_at other t c -> c_id c < other_id) ->
  (forall t c, i <= t -> link_at other t c -> In (c_id c) (map c_id other_last) \/ nb_max < c_id c) ->
  exists tail (number : nat -> nat),
    merge_correspondance self self_id other other_id i = Some (self ++ tail, self_id + (other_id - nb_max - 1)) /\
    tail = map (map (fun c => mkcorr (c_in c) (c_out c) (number (c_id c)) (c_cost c) (c_virtual c) (c_vlen c))) (skipn i other) /\
    (forall p c c', nth_error other_last p = Some c -> nth_error self_last p = Some c' -> number (c_id c) = c_id c') /\
    (forall id, nb_max < id -> number id = self_id + (id - nb_max - 1)) /\
    (forall t c t' c', i <= t -> i <= t' -> link_at other t c -> link_at other t' c' ->
       (c_id c = c_id c' <-> number (c_id c) = number (c_id c'))) /\
    (forall t c, i <= t -> link_at other t c -> number (c_id c) < self_id + (other_id - nb_max - 1)).
Proof.
  intros self sl sid other ol oid i nb ES Hi EO LL ND1 ND2 B INM MX NEW BD KD.
  assert (SK : forall s c, In s (skipn i other) -> In c s -> exists t, i <= t /\ link_at other t c).
  { intros s c Hs Hc. apply In_nth_error in Hs as [k Hk]. exists (i + k). split; [lia|]. exists s. split; auto.
    rewrite <- (firstn_skipn i other). rewrite nth_error_app2; rewrite firstn_length; [|lia].
    apply nth_error_Some_lt in EO. replace (i + k - Nat.min i (length other)) with k by lia. exact Hk. }
  assert (MX' : forall id, In id (map c_id ol) -> id <= nb).
  { intros id H. apply in_map_iff in H as (c & <- & Hc). auto. }
  destruct (join_spec self sl sid other ol oid i nb) as (tail & EM & F); auto.
  { intros s c Hs Hc. destruct (SK s c Hs Hc) as (t & T1 & T2). eauto. }
  { intros s c Hs Hc. destruct (SK s c Hs Hc) as (t & T1 & T2). eauto. }
  pose proof (joined_inj sl ol sid nb ND1 ND2 B MX') as INJ.
  set (number := fun id => if nb <? id then sid + (id - nb - 1)
                           else match find_index id (map c_id ol) with
                                | Some p => match nth_error sl p with Some c => c_id c | None => 0 end
                                | None => 0 end).
  assert (NJ : forall id, In id (map c_id ol) \/ nb < id -> joined sl ol sid nb id (number id)).
  { intros id H. unfold number. destruct (Nat.ltb_spec nb id) as [L|L]; [right; auto|].
    destruct H as [H|H]; [|lia]. destruct (find_index_Some id _ H) as (p & Ep & Ep'). rewrite Ep.
    rewrite nth_error_map in Ep'. destruct (nth_error ol p) as [c|] eqn:Ec; [|discriminate]. injection Ep' as Ei.
    destruct (nth_error_lt_Some sl p) as [c' Hc']; [rewrite LL; eapply nth_error_Some_lt; eauto|].
    rewrite Hc'. left. exists p, c, c'. auto. }
  exists tail, number. split; auto. split; [|split; [|split; [|split]]].
  - assert (G : forall l l', Forall2 (Forall2 (fun c c' => exists new, joined sl ol sid nb (c_id c) new /\ c' = with_id c new)) l l' ->
       (forall s c, In s l -> In c s -> In (c_id c) (map c_id ol) \/ nb < c_id c) ->
       l' = map (map (fun c => mkcorr (c_in c) (c_out c) (number (c_id c)) (c_cost c) (c_virtual c) (c_vlen c))) l).
    { clear - NJ INJ. induction 1 as [|s s' l l' F1 F2 IH]; intros K; simpl; auto. f_equal.
      - assert (K' : forall c, In c s -> In (c_id c) (map c_id ol) \/ nb < c_id c) by (intros c Hc; apply (K s c); simpl; auto).
        clear - NJ INJ F1 K'. induction F1 as [|c c' s s' (new & J & ->) F IH]; simpl; auto. f_equal.
        + unfold with_id. f_equal. apply (proj1 (INJ _ _ _ _ J (NJ _ (K' c (or_introl eq_refl)))) eq_refl).
        + apply IH. intros c0 Hc0. apply K'. now right.
      - apply IH. intros s0 c Hs. apply K. now right. }
    apply (G _ _ F). intros s c Hs Hc. destruct (SK s c Hs Hc) as (t & T1 & T2). eauto.
  - intros p c c' Hc Hc'.
    assert (IN : In (c_id c) (map c_id ol)) by (apply in_map; eapply nth_error_In; eauto).
    apply (proj1 (INJ _ _ _ _ (NJ _ (or_introl IN)) (or_introl (ex_intro _ p (ex_intro _ c (ex_intro _ c' (conj Hc (conj Hc' (conj eq_refl eq_refl)))))))) eq_refl).
  - intros id L. unfold number. now rewrite (proj2 (Nat.ltb_lt nb id) L).
  - intros t c t' c' T1 T2 L1 L2. apply INJ; apply NJ; eauto.
  - intros t c T1 L1. pose proof (BD t c T1 L1) as B1.
    destruct (NJ (c_id c) (KD t c T1 L1)) as [(p & c0 & c' & A1 & A2 & A3 & <-)|(A1 & ->)].
    + pose proof (B c' (nth_error_In _ _ A2)). lia.
    + lia.
Qed.
Print Assumptions C10_join.

(** The run over the dates 0-3 joined to the run over the dates 2-6. *)
Definition first_part := match line_track 0 (firstn 4 line_dates) with Some st => (rev (s_links st), s_id st) | None => ([], 0) end.
Definition last_part := match line_track 0 (skipn 2 line_dates) with Some st => (rev (s_links st), s_id st) | None => ([], 0) end.
Example C10_case :
  option_map (fun x => (map (map (fun c => (c_in c, c_out c, c_id c))) (fst x), snd x))
    (merge_correspondance (fst first_part) (snd first_part) (fst last_part) (snd last_part) 1) =
  Some (map (map (fun c => (c_in c, c_out c, c_id c))) (line_links 0), 5) /\
  nth_error (fst last_part) 0 = Some [mkcorr 1 0 0 0 false 255; mkcorr 2 1 1 0 false 255] /\
  nth_error (fst first_part) 2 = Some [mkcorr 1 0 1 0 false 255; mkcorr 2 1 2 0 false 255] /\
  snd last_part = 4.
Proof. vm_compute. repeat split; reflexivity. Qed.

(** Outside these conditions the join goes wrong: with no new track after the
    junction the next number can be one already in use; a track of the later run
    reborn from a virtual observation has no number; and a junction on the first
    date of the later run reads its last step instead. *)
Theorem C10_refuted :
  let c i o id := mkcorr i o id 0 false 255 in
  (exists links n, merge_correspondance [[c 0 0 0; c 1 1 1]; [c 0 1 0]] 2 [[c 0 0 0]; [c 0 0 0]] 1 1 = Some (links, n) /\
     n = 1 /\ exists s x, In s links /\ In x s /\ c_id x = 1) /\
  merge_correspondance [[c 0 0 0]; [c 1 0 1]] 2 [[c 0 0 0; c 1 1 1]; [c 1 0 1]; [c 0 0 0; c 1 1 2]] 3 2 = None /\
  (exists links n x y, merge_correspondance [[c 0 0 0]] 1 [[c 1 1 0]; [c 1 1 0]] 1 0 = Some (links, n) /\
     link_at links 0 x /\ link_at links 1 y /\ c_id x = c_id y /\ c_out x = 0 /\ c_in y = 1).
Proof.
  cbv zeta. split; [|split].
  - eexists. eexists. split; [reflexivity|]. split; [reflexivity|].
    eexists. eexists. split; [left; reflexivity|]. split; [right; left; reflexivity|reflexivity].
  - reflexivity.
  - do 4 eexists. split; [reflexivity|]. split; [eexists; split; [reflexivity|left; reflexivity]|].
    split; [eexists; split; [reflexivity|left; reflexivity]|]. repeat split; reflexivity.
Qed.
Print Assumptions C10_refuted.
