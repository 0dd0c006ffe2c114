(** Properties C21-C28, C50 and C69-C73: track datasets. *)
From Coq Require Import List Arith ZArith Bool QArith Qabs Qround Lia Lqa.
Import ListNotations.
From Verif Require Import Base Qaux Spec Corr_model TrackObs_model TrackObs_spec TrackObs_proofs TrackObs_more TrackObs_filter.
Local Close Scope Q_scope.
Local Open Scope nat_scope.

(** ** C21 *)
Theorem C21_index_tables : forall tracks, tracks <> [] -> grouped tracks ->
  exists index number, compute_index tracks = Some (index, number) /\
    length index = S (list_max tracks) /\ length number = S (list_max tracks) /\
    forall t, t <= list_max tracks ->
      exists f, nth_error index t = Some f /\ nth_error number t = Some (count t tracks) /\
        (~ In t tracks -> f = (-1)%Z) /\
        forall i, nth_error tracks i = Some t <-> (f <= Z.of_nat i < f + Z.of_nat (count t tracks))%Z.
Proof.
  intros tracks NE G. destruct (compute_index_spec tracks NE G) as (index & number & E & L1 & L2 & T).
  exists index, number. split; [exact E|]. split; [exact L1|]. split; [exact L2|].
  intros t Ht. destruct (T t ltac:(lia)) as (N & f & F1 & F2 & _ & F3). exists f.
  split; [exact F1|]. split; [exact N|]. split; [intros X; apply F2, count_0, X|exact F3].
Qed.
Print Assumptions C21_index_tables.

Theorem C21_selected_tracks : forall tracks ids, tracks <> [] -> grouped tracks ->
  (forall t, In t ids -> t <= list_max tracks) ->
  exists m, get_mask_from_id tracks ids = Some m /\
    mask_is m (length tracks) (fun i => exists t, nth_error tracks i = Some t /\ In t ids).
Proof.
  intros tracks ids NE G B. destruct (get_mask_spec tracks ids NE G) as (m & R & L & M); [auto|].
  exists m. split; [exact R|]. split; [exact L|]. intros i Hi. destruct (nth_error_lt_Some tracks i Hi) as [t Ht].
  rewrite (M i t Ht). split; [eauto|]. intros (t' & E & I). rewrite Ht in E. apply Some_inj in E. now subst.
Qed.
Print Assumptions C21_selected_tracks.

Example C21_example :
  compute_index [5; 5; 2; 0; 0; 0] = Some ([3; -1; 2; -1; -1; 0]%Z, [3; 0; 1; 0; 0; 2]) /\
  get_mask_from_id [5; 5; 2; 0; 0; 0] [2; 3; 0] = Some [false; false; true; true; true; true].
Proof. split; reflexivity. Qed.
(** Not grouped: the table forgets the first run. *)
Theorem C21_not_grouped_refuted :
  get_mask_from_id [0; 1; 0] [0] = Some [false; false; true] /\ ~ grouped [0; 1; 0].
Proof.
  split; [reflexivity|]. intros G. specialize (G 0 1 2 0 ltac:(lia) ltac:(lia) eq_refl eq_refl). discriminate.
Qed.

(** ** C22 *)
Theorem C22_plain : forall {A} tracks virtual (rows : list A) mask rv,
  length rows = length tracks -> length mask = length tracks -> length virtual = length tracks ->
  exists tr rw, extract_with_mask tracks virtual rows mask false false false rv = Some (tr, rw) /\
    kept tracks (fun i => nth_error mask i = Some true) tr /\
    kept rows (fun i => nth_error mask i = Some true) rw.
Proof.
  intros A tracks virtual rows mask rv LR LM LV.
  destruct (extract_plain A tracks virtual rows mask LR LM LV rv) as ([tr rw] & E & K1 & K2). eauto.
Qed.
Print Assumptions C22_plain.

Theorem C22_full_path : forall {A} tracks virtual (rows : list A) mask ri rv,
  tracks <> [] -> grouped tracks ->
  length rows = length tracks -> length mask = length tracks -> length virtual = length tracks ->
  exists tr rw, extract_with_mask tracks virtual rows mask true ri false rv = Some (tr, rw) /\
    let P i := exists j, nth_error tracks j = nth_error tracks i /\ nth_error mask j = Some true /\
                         (rv = true -> nth_error virtual j = Some false) in
    kept tracks P tr /\ kept rows P rw.
Proof.
  intros A tracks virtual rows mask ri rv NE G LR LM LV.
  destruct (extract_full A tracks virtual rows mask NE G LR LM LV ri rv) as ([tr rw] & E & K1 & K2).
  exists tr, rw. split; [exact E|]. cbv zeta in *. unfold sel in *. cbn [fst snd] in *.
  assert (W : forall {B} (l r : list B) P P', (forall i, P i <-> P' i) -> kept l P r -> kept l P' r).
  { intros B l r P P' H (pos & A1 & A2 & A3 & A4). exists pos. split; [exact A1|]. split; [exact A2|]. split; [|exact A4].
    intros i. rewrite A3, H. tauto. }
  split; (eapply W; [|eassumption]); intros i; cbn beta; split; intros (j & X); exists j; tauto.
Qed.
Print Assumptions C22_full_path.

Theorem C22_remove_incomplete : forall {A} tracks virtual (rows : list A) mask rv,
  tracks <> [] -> grouped tracks ->
  length rows = length tracks -> length mask = length tracks -> length virtual = length tracks ->
  exists tr rw, extract_with_mask tracks virtual rows mask false true false rv = Some (tr, rw) /\
    let P i := forall j, nth_error tracks j = nth_error tracks i -> nth_error mask j = Some true in
    kept tracks P tr /\ kept rows P rw.
Proof.
  intros A tracks virtual rows mask rv NE G LR LM LV.
  destruct (extract_complete A tracks virtual rows mask NE G LR LM LV rv) as ([tr rw] & E & K1 & K2). eauto.
Qed.
Print Assumptions C22_remove_incomplete.

Example C22_example :
  let t := [3; 3; 3; 7; 7; 4] in
  let v := [false; true; false; false; false; true] in
  let m := [false; true; false; true; true; true] in
  extract_with_mask t v [10; 11; 12; 13; 14; 15] m true false false false = Some (t, [10; 11; 12; 13; 14; 15]) /\
  extract_with_mask t v [10; 11; 12; 13; 14; 15] m true false false true = Some ([7; 7], [13; 14]) /\
  extract_with_mask t v [10; 11; 12; 13; 14; 15] m false true false false = Some ([7; 7; 4], [13; 14; 15]).
Proof. repeat split; reflexivity. Qed.

(** ** C23 *)
Theorem C23_compressed_numbers : forall {A} tracks virtual (rows : list A) mask fp ri rv tr rw,
  extract_with_mask tracks virtual rows mask fp ri false rv = Some (tr, rw) ->
  exists tr', extract_with_mask tracks virtual rows mask fp ri true rv = Some (tr', rw) /\
    length tr' = length tr /\
    (forall i j a b a' b', nth_error tr i = Some a -> nth_error tr j = Some b ->
       nth_error tr' i = Some a' -> nth_error tr' j = Some b' ->
       (a' = b' <-> a = b) /\ (a' < b' <-> a < b)) /\
    (forall v, In v tr' <-> 1 <= v <= length (nodup Nat.eq_dec tr)).
Proof.
  intros A tracks virtual rows mask fp ri rv tr rw H.
  destruct (extract_compress tracks virtual rows mask fp ri rv tr rw H) as (tr' & E & L & O & I).
  exists tr'. split; [exact E|]. split; [exact L|]. split; [|exact I].
  intros i j a b a' b' H1 H2 H3 H4. pose proof (O i j a b a' b' H1 H2 H3 H4).
  pose proof (O j i b a b' a' H2 H1 H4 H3). lia.
Qed.
Print Assumptions C23_compressed_numbers.
(** The field track of the records (given by the items of the dataset, and
    written in the files) keeps the old numbers. *)
Theorem C23_stored_refuted : forall tracks virtual mask fp ri rv tr' field,
  extract_with_mask tracks virtual tracks mask fp ri true rv = Some (tr', field) ->
  extract_with_mask tracks virtual tracks mask fp ri false rv = Some (field, field) /\
  (tr' = field -> forall v, In v field <-> 1 <= v <= length (nodup Nat.eq_dec field)).
Proof.
  intros tracks virtual mask fp ri rv tr' field H.
  assert (F : extract_with_mask tracks virtual tracks mask fp ri false rv = Some (field, field)).
  { revert H. unfold extract_with_mask. destruct (if fp then _ else _) as [m|]; [|discriminate]. cbn [bind].
    destruct (select m tracks) as [|t l]; [intros X; injection X as _ <-; reflexivity|].
    destruct (compress_id (t :: l)) as [r|]; [|discriminate]. cbn [bind]. intros X. injection X as _ <-. reflexivity. }
  split; [exact F|]. intros E. subst tr'. destruct (C23_compressed_numbers _ _ _ _ _ _ _ _ _ F) as (t & T & _ & _ & I).
  rewrite H in T. injection T as <-. exact I.
Qed.
Print Assumptions C23_stored_refuted.
(** extract_longer_eddies keeps the observations of the long tracks without
    compress_id, and is always an error with it. *)
Theorem C23_longer : forall {A} (rows : list A) nb_min nb_obs, length nb_obs = length rows ->
  exists r, extract_longer_eddies rows nb_min nb_obs false = Some r /\
    kept rows (fun i => exists k, nth_error nb_obs i = Some k /\ nb_min <= k) r.
Proof.
  intros A rows nb_min nb_obs L. unfold extract_longer_eddies. rewrite L, Nat.eqb_refl. cbn [negb].
  eexists. split; [reflexivity|]. apply select_kept. split; [rewrite map_length; exact L|].
  intros i H. rewrite nth_error_map. destruct (nth_error nb_obs i) as [k|]; cbn [option_map]; [|split; [discriminate|intros (k & K & _); discriminate K]].
  destruct (Nat.leb_spec nb_min k); split; try discriminate; try reflexivity; [eauto|]. intros (k' & K & X). injection K as <-. lia.
Qed.
Print Assumptions C23_longer.
Theorem C23_longer_refuted : forall {A} (rows : list A) nb_min nb_obs, extract_longer_eddies rows nb_min nb_obs true = None.
Proof. intros. unfold extract_longer_eddies. destruct (negb _); reflexivity. Qed.
Print Assumptions C23_longer_refuted.
Example C23_longer_example : extract_longer_eddies [10; 11; 12; 13] 2 [2; 2; 1; 5] false = Some [10; 11; 13].
Proof. reflexivity. Qed.
Example C23_stored_example :
  extract_with_mask [3; 3; 9; 7; 7; 4] [] [3; 3; 9; 7; 7; 4] [true; true; true; true; false; false] false false true false
  = Some ([1; 1; 3; 2], [3; 3; 9; 7]).
Proof. reflexivity. Qed.
Example C23_example :
  extract_with_mask [3; 3; 9; 7; 7; 4] [] [0; 1; 2; 3; 4; 5] [true; true; true; true; false; false] false false true false
  = Some ([1; 1; 3; 2], [0; 1; 2; 3]).
Proof. reflexivity. Qed.

(** ** C24 *)
Theorem C24_concatenation : forall {A} (obs : list (list nat * list A)),
  obs <> [] -> (forall o, In o obs -> fst o <> []) ->
  exists tr, concatenate obs = Some (tr, concat (map snd obs)) /\
    length tr = length (concat (map fst obs)) /\
    forall d d' o o' i i' a b,
      nth_error obs d = Some o -> nth_error obs d' = Some o' ->
      nth_error (fst o) i = Some a -> nth_error (fst o') i' = Some b ->
      let row d i := length (concat (map fst (firstn d obs))) + i in
      exists a' b', nth_error tr (row d i) = Some a' /\ nth_error tr (row d' i') = Some b' /\
        (a' = b' <-> d = d' /\ a = b).
Proof.
  intros A obs NE NO. unfold concatenate. destruct obs as [|o obs]; [congruence|].
  destruct (concatenate_loop_spec (o :: obs) 0 NO) as (tr & E & L & _ & J). exists tr. split; [exact E|]. split; [exact L|].
  exact J.
Qed.
Print Assumptions C24_concatenation.
Example C24_example :
  concatenate [([0; 0; 4], [10; 11; 12]); ([0; 3], [13; 14]); ([1], [15])]
  = Some ([0; 0; 4; 5; 8; 10], [10; 11; 12; 13; 14; 15]).
Proof. reflexivity. Qed.
(** An empty dataset in the list makes the concatenation fail. *)
Theorem C24_empty_refuted : concatenate [([0; 0], [1; 2]); ([], [])] = None.
Proof. reflexivity. Qed.

(** ** C25 *)
Theorem C25_length_bounds : forall tracks b0 b1, nsorted tracks ->
  (0 <= b0 \/ b0 = -1 /\ 0 <= b1)%Z ->
  exists m, length_mask tracks b0 b1 = Some m /\
    mask_is m (length tracks) (fun i => exists t, nth_error tracks i = Some t /\
      (b0 = -1 \/ b0 <= Z.of_nat (count t tracks))%Z /\ (b1 = -1 \/ Z.of_nat (count t tracks) <= b1)%Z).
Proof. exact length_mask_spec. Qed.
Print Assumptions C25_length_bounds.
(** Any other pair of bounds is refused. *)
Theorem C25_bad_bounds : forall tracks b0 b1, tracks <> [] -> nsorted tracks ->
  ~ (0 <= b0 \/ b0 = -1 /\ 0 <= b1)%Z -> length_mask tracks b0 b1 = None.
Proof. intros. apply length_mask_error; auto. apply grouped_sorted; auto. Qed.
Print Assumptions C25_bad_bounds.
Theorem C25_partition : forall tracks b, nsorted tracks -> (1 <= b)%Z ->
  exists long short, length_mask tracks b (-1) = Some long /\ length_mask tracks (-1) (b - 1) = Some short /\
    length long = length tracks /\ length short = length tracks /\
    forall i, i < length tracks -> (nth_error long i = Some true <-> nth_error short i <> Some true).
Proof.
  intros tracks b S Hb.
  destruct (length_mask_spec tracks b (-1) S ltac:(lia)) as (m1 & E1 & L1 & M1).
  destruct (length_mask_spec tracks (-1) (b - 1) S ltac:(lia)) as (m2 & E2 & L2 & M2).
  exists m1, m2. repeat (split; [assumption|]). intros i Hi. rewrite (M1 i Hi), (M2 i Hi).
  destruct (nth_error_lt_Some tracks i Hi) as [t Ht]. split.
  - intros (t1 & T1 & B1 & _) (t2 & T2 & _ & B2). rewrite T1 in T2. apply Some_inj in T2. subst. lia.
  - intros N. exists t. split; [exact Ht|]. split; [|lia].
    destruct (Z_le_gt_dec b (Z.of_nat (count t tracks))); [lia|]. exfalso. apply N. exists t. split; [exact Ht|]. lia.
Qed.
Print Assumptions C25_partition.
Example C25_example :
  length_mask [1; 1; 1; 4; 6; 6] 2 2 = Some [false; false; false; false; true; true] /\
  length_mask [1; 1; 1; 4; 6; 6] 2 (-1) = Some [true; true; true; false; true; true] /\
  length_mask [1; 1; 1; 4; 6; 6] (-1) 1 = Some [false; false; false; true; false; false].
Proof. repeat split; reflexivity. Qed.

(** ** C26 *)
Theorem C26_distance_to_next : forall (P : Type) (dist : P -> P -> Q) tracks pts,
  tracks <> [] -> nsorted tracks -> (forall t, t <= list_max tracks -> In t tracks) ->
  length pts = length tracks ->
  exists d, distance_to_next P dist tracks pts = Some d /\ length d = length tracks /\
    nth_error d (length tracks - 1) = Some 0%Q /\
    forall i p q, nth_error pts i = Some p -> nth_error pts (S i) = Some q ->
      (nth_error tracks i <> nth_error tracks (S i) -> nth_error d i = Some 0%Q) /\
      (nth_error tracks i = nth_error tracks (S i) -> nth_error d i = Some (dist p q)).
Proof.
  intros P dist tracks pts NE S F LP.
  assert (F0 : nth_error tracks 0 = Some 0).
  { destruct tracks as [|a l]; [congruence|]. simpl. f_equal.
    pose proof (F 0 ltac:(lia)) as [I|I]; auto. apply nsorted_cons in S as [_ B]. apply B in I. lia. }
  destruct (distance_exact P dist tracks pts NE S LP ltac:(right; exact F) ltac:(right; exact F0)) as (d & E & L & Z0 & V).
  exists d. split; [exact E|]. split; [exact L|]. split; [exact Z0|].
  intros i p q Hp Hq. destruct (V i p q Hp Hq) as [V1 V2]. split.
  - intros N. apply V1. left. exact N.
  - intros N. apply V2. intros [C|[[_ C]|[_ (t & B & C)]]]; [congruence|congruence|]. apply C, F. lia.
Qed.
Print Assumptions C26_distance_to_next.
(** Exact result for every sorted dataset of at least three observations:
    the step before the last one is also lost when the first track is not 0,
    the one before it when some number is not used. *)
Theorem C26_distance_exact : forall (P : Type) (dist : P -> P -> Q) tracks pts,
  nsorted tracks -> 3 <= length tracks -> length pts = length tracks ->
  exists d, distance_to_next P dist tracks pts = Some d /\ length d = length tracks /\
    nth_error d (length tracks - 1) = Some 0%Q /\
    forall i p q, nth_error pts i = Some p -> nth_error pts (S i) = Some q ->
      let lost := nth_error tracks i <> nth_error tracks (S i) \/
        (i + 2 = length tracks /\ nth_error tracks 0 <> Some 0) \/
        (i + 3 = length tracks /\ exists t, 1 <= t <= list_max tracks /\ ~ In t tracks) in
      (lost -> nth_error d i = Some 0%Q) /\ (~ lost -> nth_error d i = Some (dist p q)).
Proof.
  intros P dist tracks pts S L3 LP.
  exact (distance_exact P dist tracks pts ltac:(intros ->; simpl in L3; lia) S LP ltac:(left; exact L3) ltac:(left; lia)).
Qed.
Print Assumptions C26_distance_exact.
Example C26_example :
  distance_to_next Q (fun a b => b - a)%Q [0; 0; 0; 1; 1] [1; 3; 6; 10; 15]%Q = Some [3 - 1; 6 - 3; 0; 15 - 10; 0]%Q.
Proof. reflexivity. Qed.
(** Numbers starting at 1 (as after compress_id) or with a gap lose a step
    inside a track; add_distance fails for more than one observation. *)
Theorem C26_refuted :
  distance_to_next Q (fun a b => b - a)%Q [1; 1; 1; 1] [1; 3; 6; 10]%Q = Some [3 - 1; 6 - 3; 0; 0]%Q /\
  distance_to_next Q (fun a b => b - a)%Q [0; 0; 0; 0; 2] [1; 3; 6; 10; 15]%Q = Some [3 - 1; 6 - 3; 0; 0; 0]%Q /\
  add_distance Q (fun a b => b - a)%Q [0; 0] [1; 3]%Q = None.
Proof. repeat split; reflexivity. Qed.

(** ** C27 *)
Theorem C27_median_window : forall {Y} (med : list Y -> Y) hw x (y : list Y) track,
  (0 <= hw)%Q -> length x = length track -> length y = length track -> grouped track -> growing track x ->
  exists r, track_median_filter med hw x y track = Some r /\ length r = length y /\
    forall i, i < length y -> exists w,
      kept y (fun j => nth_error track j = nth_error track i /\
                forall a b, nth_error x i = Some a -> nth_error x j = Some b -> (a - hw <= b)%Q /\ (b <= a + hw)%Q) w /\
      nth_error r i = Some (med w).
Proof. intros Y med hw x y track. exact (median_filter_spec med hw x y track). Qed.
Print Assumptions C27_median_window.
(** The median used on rationals has at most half of the values on each side. *)
Theorem C27_median : forall l, l <> [] ->
  2 * length (filter (fun a => Qlt_bool a (np_median l)) l) <= length l /\
  2 * length (filter (fun a => Qlt_bool (np_median l) a) l) <= length l.
Proof. exact np_median_spec. Qed.
Print Assumptions C27_median.
Example C27_example :
  option_map (map Qred) (track_median_filter np_median 2 [0; 1; 3; 0; 5]%Q [10; 11; 17; 13; 14]%Q [4; 4; 4; 2; 2])
  = Some [21 # 2; 11; 14; 13; 14]%Q /\
  (np_median [5; 1; 4; 2] == 3)%Q.
Proof. split; reflexivity. Qed.

(** ** C28 *)
Theorem C28_loess_weighted_mean : forall hw x y track,
  length x = length track -> length y = length track -> grouped track -> growing track x ->
  exists r, track_loess_filter hw x y track = Some r /\ length r = length y /\
    forall i v, nth_error r i = Some v ->
      let X j := nth j x 0%Q in
      let d j := Qabs (X i - X j) in
      let w j := let u := (1 - (d j / hw) * (d j / hw) * (d j / hw))%Q in (u * u * u)%Q in
      exists W, NoDup W /\
        (forall j, In j W <-> j = i \/
           (j < length y /\ (nth_error track j = nth_error track i /\ (d j < hw)%Q) /\ j <> 0 /\ j <> length y - 1)) /\
        (forall j, In j W -> (0 < w j)%Q /\ (w j <= 1)%Q) /\
        (v * Qsum (map w W) == Qsum (map (fun j => w j * nth j y 0) W))%Q.
Proof.
  intros hw x y track LX LY G GR.
  destruct (loess_filter_spec hw x y track LX LY G GR) as (r & R & L & S).
  exists r. split; [exact R|]. split; [exact L|]. intros i v Hv. destruct (S i v Hv) as (W & N & U & P & E).
  cbv zeta. exists W. split; [exact N|]. split; [exact U|]. split; [|exact E].
  intros j I. apply U in I. destruct I as [->|(_ & J & _)].
  - pose proof (weight_self hw x i) as X. unfold weight, tricube, qn in X. cbv zeta in X. rewrite X. split; lra.
  - exact (weight_range hw x track i j J).
Qed.
Print Assumptions C28_loess_weighted_mean.
Theorem C28_loess_bounds : forall hw x y track r i v lo hi,
  (0 <= hw)%Q -> length x = length track -> length y = length track -> grouped track -> growing track x ->
  track_loess_filter hw x y track = Some r -> nth_error r i = Some v ->
  (forall j a, nth_error y j = Some a -> nth_error track j = nth_error track i ->
     (Qabs (nth i x 0 - nth j x 0) <= hw)%Q -> (lo <= a)%Q /\ (a <= hi)%Q) ->
  (lo <= v)%Q /\ (v <= hi)%Q.
Proof.
  intros hw x y track r i v lo hi HW LX LY G GR R Hv B.
  exact (loess_bounds hw x y track LX LY HW G GR r i v lo hi R Hv B).
Qed.
Print Assumptions C28_loess_bounds.
Example C28_example :
  option_map (map Qred) (track_loess_filter 2 [0; 1; 2; 0; 1; 2]%Q [10; 20; 60; 0; 8; 16]%Q [3; 3; 3; 5; 5; 5])
  = Some [2396 # 171; 6164 # 171; 7516 # 171; 2744 # 855; 4096 # 855; 10936 # 855]%Q.
Proof. vm_compute. reflexivity. Qed.

(** ** C50 *)
Theorem C50_period : forall time p_min p_max lo hi,
  (In lo time /\ forall t, In t time -> (lo <= t)%Z) -> (In hi time /\ forall t, In t time -> (t <= hi)%Z) ->
  mask_is (period_mask time p_min p_max) (length time) (fun i => exists t, nth_error time i = Some t /\
    ((0 < p_min -> p_min <= t) /\ (p_min < 0 -> lo + Z.abs p_min <= t) /\
     (0 < p_max -> t <= p_max) /\ (p_max < 0 -> t <= hi - Z.abs p_max))%Z).
Proof. exact period_mask_spec. Qed.
Print Assumptions C50_period.
Example C50_example :
  period_mask [10; 20; 30; 40]%Z (-5) 0 = [false; true; true; true] /\
  period_mask [10; 20; 30; 40]%Z 15 (-10) = [false; true; true; false].
Proof. split; reflexivity. Qed.

(** ** C69: merge of two datasets *)
Theorem C69_merge_keeps_tracks_apart : forall a b, a <> [] -> nsorted a ->
  exists r, merge_tracks a b = Some r /\ length r = length a + length b /\
    (forall i, i < length a -> nth_error r i = nth_error a i) /\
    (forall i t, nth_error b i = Some t -> exists t', nth_error r (length a + i) = Some t' /\
       (forall j u, nth_error a j = Some u -> u <> t') /\
       forall j u u', nth_error b j = Some u -> nth_error r (length a + j) = Some u' -> (u' = t' <-> u = t)).
Proof. exact merge_tracks_spec. Qed.
Print Assumptions C69_merge_keeps_tracks_apart.
Example C69_example : merge_tracks [0; 0; 2] [0; 1; 1] = Some [0; 0; 2; 3; 4; 4].
Proof. reflexivity. Qed.
(** When the last row does not hold the largest number, two tracks become one. *)
Theorem C69_unsorted_refuted : merge_tracks [5; 5; 1] [3; 3] = Some [5; 5; 1; 5; 5].
Proof. reflexivity. Qed.

(** ** C70: longitudes *)
Theorem C70_normalized_longitude : forall tracks lon, nsorted tracks -> length lon = length tracks ->
  exists new, normalize_lon tracks lon = Some new /\ length new = length lon /\
    forall i f a b l0, nth_error lon i = Some a -> nth_error new i = Some b ->
      first_of tracks i f -> nth_error lon f = Some l0 ->
      (l0 - 180 <= b)%Q /\ (b < l0 + 180)%Q /\ exists k, (b == a + 360 * inject_Z k)%Q.
Proof.
  intros tracks lon S L. destruct (normalize_spec tracks lon S L) as (new & E & LN & V). exists new.
  split; [exact E|]. split; [exact LN|]. intros i f a b l0 Ha Hb F Hl.
  destruct (V i f a b l0 Ha Hb F Hl) as (B1 & B2 & k & K). split; [exact B1|]. split; [exact B2|].
  exists k. lra.
Qed.
Print Assumptions C70_normalized_longitude.
Theorem C70_normalized_field : forall field lon, length field = length lon ->
  length (normalize_rel field lon) = length lon /\
  forall i a l b, nth_error field i = Some a -> nth_error lon i = Some l ->
    nth_error (normalize_rel field lon) i = Some b ->
    (l - 180 <= b)%Q /\ (b < l + 180)%Q /\ exists k, (b == a + 360 * inject_Z k)%Q.
Proof.
  intros field lon L. destruct (normalize_rel_spec field lon L) as [LN V]. split; [exact LN|].
  intros i a l b Ha Hl Hb. destruct (V i a l b Ha Hl Hb) as (B1 & B2 & k & K). split; [exact B1|]. split; [exact B2|].
  exists k. lra.
Qed.
Print Assumptions C70_normalized_field.
Example C70_example :
  option_map (map Qred) (normalize_lon [1; 1; 2; 2] [359; 1; 0; 350]%Q) = Some [359; 361; 0; -10]%Q.
Proof. reflexivity. Qed.

(** ** C71: directions *)
Theorem C71_toward_direction : forall tracks lon west delta,
  nsorted tracks -> length lon = length tracks -> 2 <= length tracks ->
  exists m, toward_mask tracks lon west delta = Some m /\
    mask_is m (length tracks) (fun i => forall f g x y, first_of tracks i f -> last_of tracks i g ->
      nth_error lon f = Some x -> nth_error lon g = Some y ->
      (if west then (y < x)%Q else (x < y)%Q) /\
      (forall v, delta = Some v -> (v < y - x)%Q)).
Proof. exact toward_spec. Qed.
Print Assumptions C71_toward_direction.
(** Westward tracks with a minimal span: nothing is ever selected. *)
Theorem C71_west_span_refuted : forall tracks lon v m i,
  nsorted tracks -> length lon = length tracks -> 2 <= length tracks -> (0 <= v)%Q ->
  toward_mask tracks lon true (Some v) = Some m -> nth_error m i <> Some true.
Proof.
  intros tracks lon v m i S L N2 V E H.
  destruct (toward_spec tracks lon true (Some v) S L N2) as (m' & E' & LM & M).
  assert (m' = m) by congruence. subst m'.
  assert (Hi : i < length tracks) by (rewrite <- LM; eapply nth_error_Some_lt; eauto).
  rewrite (M i Hi) in H. destruct (nth_error_lt_Some tracks i Hi) as [t Ht].
  destruct (sorted_tables tracks ltac:(intros ->; simpl in N2; lia) S) as (index & number & _ & T).
  destruct (track_ends _ _ _ _ i t T Ht (below_max _ _ (nth_error_In _ _ Ht))) as (f & g & _ & _ & _ & F & G).
  destruct (nth_error_lt_Some lon f) as [x Hx]. { destruct F as (_ & ? & _). lia. }
  destruct (nth_error_lt_Some lon g) as [y Hy]. { destruct G as (_ & ? & _). lia. }
  destruct (H f g x y F G Hx Hy) as [H1 H2]. specialize (H2 v eq_refl). lra.
Qed.
Print Assumptions C71_west_span_refuted.
Theorem C71_direction_latitude : forall tracks lon lat dir value, (dir = South \/ dir = North) ->
  nsorted tracks -> length lat = length tracks -> 2 <= length tracks ->
  exists m, direction_mask tracks lon lat dir value = Some m /\
    mask_is m (length tracks) (fun i => forall f g x y, first_of tracks i f -> last_of tracks i g ->
      nth_error lat f = Some x -> nth_error lat g = Some y ->
      match dir with South => (y < x)%Q | _ => (x < y)%Q end /\ (value < Qabs (y - x))%Q).
Proof. exact direction_lat_spec. Qed.
Print Assumptions C71_direction_latitude.
(** [d] is the displacement taken the short way round. *)
Theorem C71_direction_longitude : forall tracks lon lat dir value, (dir = West \/ dir = East) ->
  nsorted tracks -> length lon = length tracks -> 2 <= length tracks ->
  exists m, direction_mask tracks lon lat dir value = Some m /\
    mask_is m (length tracks) (fun i => forall f g x y d, first_of tracks i f -> last_of tracks i g ->
      nth_error lon f = Some x -> nth_error lon g = Some y ->
      ((exists k, d == y - x + 360 * inject_Z k)%Q /\ (-180 <= d)%Q /\ (d < 180)%Q) ->
      match dir with West => (d < 0)%Q | _ => (0 < d)%Q end /\ (value < Qabs d)%Q).
Proof.
  intros tracks lon lat dir value D S L N2.
  destruct (direction_lon_spec tracks lon lat dir value D S L N2) as (m & E & LM & M).
  exists m. split; [exact E|]. split; [exact LM|]. intros i Hi. rewrite (M i Hi).
  assert (W : forall x y d, lon_shift x y d <-> ((exists k, d == y - x + 360 * inject_Z k)%Q /\ (-180 <= d)%Q /\ (d < 180)%Q)).
  { intros x y d. unfold lon_shift, Qcong. split; intros [[k K] B]; (split; [exists k|exact B]); lra. }
  split; intros H f g x y d F G Hx Hy Hd; apply (H f g x y d F G Hx Hy); apply W; exact Hd.
Qed.
Print Assumptions C71_direction_longitude.
Example C71_example :
  toward_mask [1; 1; 1; 2; 2] [10; 7; 5; 3; 4]%Q true None = Some [true; true; true; false; false] /\
  toward_mask [1; 1; 1; 2; 2] [10; 7; 5; 3; 4]%Q false (Some (1#2)%Q) = Some [false; false; false; true; true] /\
  direction_mask [1; 1; 2; 2] [359; 1; 5; 2]%Q [] East 1 = Some [true; true; false; false] /\
  direction_mask [1; 1; 2; 2] [] [0; -3; 5; 4]%Q South 2 = Some [true; true; false; false].
Proof. repeat split; reflexivity. Qed.
(** A dataset of one observation whose number is not 0 makes the call fail. *)
Theorem C71_single_refuted : toward_mask [3] [10]%Q true None = None.
Proof. reflexivity. Qed.

(** ** C72: first observation in each box *)
Theorem C72_first_in_box : forall res tracks lon lat, (0 < res)%Q ->
  length lon = length tracks -> length lat = length tracks ->
  mask_is (first_in_box_mask res tracks lon lat) (length tracks) (fun i =>
    forall j a b x y, j < i -> nth_error tracks j = nth_error tracks i ->
      nth_error lon i = Some a -> nth_error lon j = Some b -> nth_error lat i = Some x -> nth_error lat j = Some y ->
      ~ (Qfloor (a / res) = Qfloor (b / res) /\ Qfloor (x / res) = Qfloor (y / res))).
Proof. exact first_in_box_spec. Qed.
Print Assumptions C72_first_in_box.
Example C72_example :
  first_in_box_mask 2 [1; 1; 1; 2; 2] [0; 1; 2; 1; 0]%Q [0; 1; 1; 1; 0]%Q = [true; false; true; true; false].
Proof. reflexivity. Qed.

(** ** C73: counts *)
Theorem C73_lifetime : forall tracks, tracks <> [] -> nsorted tracks ->
  exists r, lifetime tracks = Some r /\ length r = length tracks /\
    forall i t, nth_error tracks i = Some t -> nth_error r i = Some (count t tracks).
Proof. exact lifetime_spec. Qed.
Print Assumptions C73_lifetime.
Theorem C73_count_by_track : forall tracks mask, tracks <> [] -> length mask = length tracks ->
  exists r, count_by_track tracks mask = Some r /\ length r = S (list_max tracks) /\
    forall t, t <= list_max tracks ->
      nth_error r t = Some (length (filter (fun i => match nth_error tracks i, nth_error mask i with
         | Some u, Some b => (u =? t) && b | _, _ => false end) (seq 0 (length tracks)))).
Proof.
  intros tracks mask NE L. destruct (count_by_track_spec tracks mask NE L) as (r & R & LR & V).
  exists r. split; [exact R|]. split; [exact LR|]. intros t Ht. rewrite (V t Ht). f_equal. clear -L.
  assert (E : forall k, length (filter (fun i => match nth_error tracks (i - k), nth_error mask (i - k) with
         | Some u, Some b => (u =? t) && b | _, _ => false end) (seq k (length tracks))) = count t (select mask tracks)).
  { revert mask L. induction tracks as [|u tracks IH]; intros [|b mask] L k; try discriminate; [reflexivity|].
    injection L as L. cbn [length seq filter select]. rewrite Nat.sub_diag. cbn [nth_error].
    assert (X : filter (fun i => match nth_error (u :: tracks) (i - k), nth_error (b :: mask) (i - k) with
         | Some u, Some b => (u =? t) && b | _, _ => false end) (seq (S k) (length tracks))
       = filter (fun i => match nth_error tracks (i - S k), nth_error mask (i - S k) with
         | Some u, Some b => (u =? t) && b | _, _ => false end) (seq (S k) (length tracks))).
    { apply filter_ext_in. intros i Hi. apply in_seq in Hi. replace (i - k) with (S (i - S k)) by lia. reflexivity. }
    specialize (IH mask L (S k)).
    destruct b; [|rewrite andb_false_r]; [rewrite andb_true_r, count_cons; destruct (u =? t); cbn [length]|];
      rewrite X, IH; reflexivity. }
  rewrite <- (E 0). f_equal. apply filter_ext. intros i. rewrite Nat.sub_0_r. reflexivity.
Qed.
Print Assumptions C73_count_by_track.
Example C73_example :
  lifetime [1; 1; 4; 4; 4] = Some [2; 2; 3; 3; 3] /\
  count_by_track [1; 1; 4; 4; 4] [true; false; true; true; false] = Some [0; 1; 0; 0; 2].
Proof. split; reflexivity. Qed.
