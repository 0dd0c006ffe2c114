(** Properties C48, C49, C79 and C80: virtual observations, targets of particles,
    tracks selected by date and atlas of targets. *)
From Coq Require Import List Arith ZArith QArith Qround Bool Lia Lqa Permutation.
From Verif Require Import Base Spec Qaux Generic_model TrackObs_model TrackObs_spec Split_model Split_net Obs_model Obs_spec Obs_props NetEvt_model Net_links Corr_spec Corr_merge Grp_model Grp_spec Grp_proofs Grp_more Grp_targets Grp_tracks.
Import ListNotations.
Local Close Scope Q_scope.
Local Open Scope nat_scope.

(** ** C48: virtual observations *)

(** One value per row in each field. *)
Definition well_shaped (d : vdata) : Prop :=
  vd_time d <> [] /\ length (vd_track d) = length (vd_time d) /\
  (forall c, In c (vd_fields d) -> length c = length (vd_time d)) /\ (forall c, In c (vd_other d) -> length c = length (vd_time d)).
(** [dt] is the median of the differences of dates of consecutive rows, of all
    the tracks; any value if there is one row only. *)
Definition usual_step (time : list Q) (dt : Q) : Prop := length time = 1 \/ (dt == np_median (differences time))%Q.

Lemma usual_step_spec : forall time dt, usual_step time dt -> exists dt', (dt' == dt)%Q /\ forall x, differences time <> [] -> np_median (differences time) = x -> x = dt'.
Proof.
  intros time dt [L|L].
  - exists dt. split; [lra|]. intros x N E. destruct time as [|a [|b r]]; try discriminate. simpl in N. congruence.
  - exists (np_median (differences time)). split; [lra|auto].
Qed.
Lemma gap_eq : forall f dt dt' time track i m, (dt' == dt)%Q -> gap f dt' time track i m -> gap f dt time track i m.
Proof.
  intros f dt dt' time track i m E [(t0 & t1 & g & A & B & C & D & F & X & Y & Z)|[M H]].
  - left. exists t0, t1, g. rewrite E in X, Y, Z. auto 10.
  - right. split; [auto|]. intros t0 t1 g A B C D F. rewrite <- E. eauto.
Qed.

Theorem C48_insert_virtual : forall network d dt, well_shaped d -> usual_step (vd_time d) dt -> (0 < dt)%Q ->
  exists d' gaps, insert_virtual network d = Some d' /\ length gaps = length (vd_time d) /\
    (forall i m, nth_error gaps i = Some m -> gap network dt (vd_time d) (vd_track d) i m) /\
    (forall i m, nth_error gaps i = Some m -> nth_error (vd_virtual d') (moved gaps i) = Some false /\ forall k, 1 <= k <= m -> nth_error (vd_virtual d') (moved gaps i + k) = Some true) /\
    length (vd_virtual d') = length (vd_time d) + sum_list gaps /\
    inserted gaps (vd_track d) (vd_track d') (fun _ _ x => x = 0) /\
    inserted gaps (vd_time d) (vd_time d') (spaced gaps (vd_time d)) /\
    (length (vd_fields d') = length (vd_fields d) /\ forall f c c', nth_error (vd_fields d) f = Some c -> nth_error (vd_fields d') f = Some c' -> inserted gaps c c' (spaced gaps c)) /\
    (length (vd_other d') = length (vd_other d) /\ forall f c c', nth_error (vd_other d) f = Some c -> nth_error (vd_other d') f = Some c' -> inserted gaps c c' (fun _ _ x => x = 0%Z)).
Proof.
  intros network d dt (A & B & C & D) U P. destruct (usual_step_spec _ _ U) as (dt' & E & H). rewrite <- E in P. destruct (insert_virtual_spec network d dt' A B C D H P) as (d' & gaps & X1 & X2 & X3 & X). exists d', gaps.
  split; [auto|]. split; [auto|]. split; [intros i m M; apply (gap_eq _ _ _ _ _ _ _ E); auto|auto].
Qed.
Print Assumptions C48_insert_virtual.
Definition example_vdata : vdata := VData [1; 2; 5; 6; 1; 2; 3; 4]%Q [4; 4; 4; 4; 7; 7; 7; 7] [[10; 20; 50; 60; 0; 1; 2; 3]%Q] (repeat false 8) [[1; 2; 3; 4; 5; 6; 7; 8]%Z].
Example C48_example : (well_shaped example_vdata /\ usual_step (vd_time example_vdata) 1%Q /\ (0 < 1)%Q) /\
  exists d', insert_virtual false example_vdata = Some d' /\ map Qred (vd_time d') = [1; 2; 3; 4; 5; 6; 1; 2; 3; 4]%Q /\
    vd_virtual d' = [false; false; true; true; false; false; false; false; false; false] /\ map (map Qred) (vd_fields d') = [[10; 20; 30; 40; 50; 60; 0; 1; 2; 3]%Q].
Proof.
  split; [split; [|split; [right; reflexivity|reflexivity]]|].
  - split; [discriminate|]. split; [reflexivity|]. split; intros c [<-|[]]; reflexivity.
  - eexists. split; [reflexivity|]. split; [reflexivity|]. split; reflexivity.
Qed.
(** So a row which is inserted does not belong to the track of its gap. *)
Theorem C48_track_refuted : exists d d' i, well_shaped d /\ usual_step (vd_time d) 1%Q /\ insert_virtual false d = Some d' /\
  nth_error (vd_virtual d') i = Some true /\ nth_error (vd_track d') i = Some 0 /\ ~ In 0 (vd_track d).
Proof.
  exists example_vdata. eexists. exists 2. split; [apply C48_example|]. split; [apply C48_example|]. split; [reflexivity|]. split; [reflexivity|]. split; [reflexivity|]. vm_compute. intuition discriminate.
Qed.
Print Assumptions C48_track_refuted.
(** Rows already virtual lose their flag. *)
Theorem C48_flags_refuted : exists d d', well_shaped d /\ usual_step (vd_time d) 1%Q /\ insert_virtual false d = Some d' /\
  vd_virtual d = [false; true; false; false] /\ map Qred (vd_time d') = vd_time d /\ vd_virtual d' = [false; false; false; false].
Proof.
  exists (VData [1; 2; 3; 4]%Q [4; 4; 4; 4] [] [false; true; false; false] []). eexists. split; [|split; [right; reflexivity|split; [reflexivity|auto]]].
  split; [discriminate|]. split; [reflexivity|]. split; intros c [].
Qed.
Print Assumptions C48_flags_refuted.
(** In a network gaps are searched between consecutive rows of a network number,
    whatever their segments: here the two last rows are the last of a segment and the
    first of the next one, which starts later. *)
Theorem C48_segments_refuted : let time := [1; 2; 3; 9]%Q in let segment := [1; 1; 1; 2] in
  virtual_mask true time [5; 5; 5; 5] = Some [false; false; false; true; true; true; true; true; false] /\
  virtual_mask true time segment = Some [false; false; false; false].
Proof. split; reflexivity. Qed.
Print Assumptions C48_segments_refuted.

(** Links of a network: around a gap they follow the rows; the other links are
    copied as they are, in the numbers of rows of the old dataset. *)
Theorem C48_links : forall network time track next previous dt, time <> [] -> length track = length time -> length next = length time -> length previous = length time ->
  usual_step time dt -> (0 < dt)%Q ->
  exists next' previous' gaps, insert_links network time track next previous = Some (next', previous') /\ length gaps = length time /\
    (forall i m, nth_error gaps i = Some m -> gap network dt time track i m) /\
    (forall i, nth_error gaps i = Some 0 -> nth_error next' (moved gaps i) = nth_error next i /\ nth_error previous' (moved gaps (S i)) = nth_error previous (S i)) /\
    (forall i m, nth_error gaps i = Some m -> 0 < m -> forall k, k <= m ->
       nth_error next' (moved gaps i + k) = Some (Z.of_nat (moved gaps i + k + 1)) /\ nth_error previous' (moved gaps i + k + 1) = Some (Z.of_nat (moved gaps i + k))) /\
    nth_error previous' 0 = nth_error previous 0.
Proof.
  intros network time track next previous dt NE L1 L2 L3 U P. destruct (usual_step_spec _ _ U) as (dt' & E & H). rewrite <- E in P. destruct (insert_links_spec network time track next previous dt' (length time) NE L1 L2 L3 eq_refl H P) as (n & p & gaps & X1 & X2 & X3 & X). exists n, p, gaps.
  split; [auto|]. split; [auto|]. split; [intros i m M; apply (gap_eq _ _ _ _ _ _ _ E); auto|auto].
Qed.
Print Assumptions C48_links.
Example C48_links_example : insert_links true [1; 2; 5; 6]%Q [4; 4; 4; 4] [1; 2; 3; -1]%Z [-1; 0; 1; 2]%Z = Some ([1; 2; 3; 4; 3; -1], [-1; 0; 1; 2; 3; 2])%Z.
Proof. reflexivity. Qed.
(** The row after the gap is row 4 of the new dataset: its next row is row 5, but
    its link is still 3, which is an inserted row. *)
Theorem C48_links_refuted : exists next' previous', insert_links true [1; 2; 5; 6]%Q [4; 4; 4; 4] [1; 2; 3; -1]%Z [-1; 0; 1; 2]%Z = Some (next', previous') /\
  nth_error next' 4 = Some 3%Z /\ nth_error previous' 5 = Some 2%Z.
Proof. do 2 eexists. split; [reflexivity|]. split; reflexivity. Qed.
Print Assumptions C48_links_refuted.

(** ** C49: targets of particles *)
Lemma percent_bounds : forall i_start i_end i j, 0 < from_to i_start i_end i j -> (0 < percent i_start i_end i j)%Q /\ (percent i_start i_end i j <= 100)%Q.
Proof.
  intros i_start i_end i j R. unfold percent. pose proof (from_to_le i_start i_end i j) as L. set (a := from_to _ _ _ _) in *. set (b := from_eddy _ _) in *. clearbody a b.
  assert (A : (0 < inject_Z (Z.of_nat a))%Q) by (change 0%Q with (inject_Z 0); apply inject_Z_lt_iff; lia). assert (B : (0 < inject_Z (Z.of_nat b))%Q) by (change 0%Q with (inject_Z 0); apply inject_Z_lt_iff; lia).
  assert (C : (inject_Z (Z.of_nat a) <= inject_Z (Z.of_nat b))%Q) by (apply inject_Z_le_iff; lia). assert (D : (inject_Z (Z.of_nat a) / inject_Z (Z.of_nat b) <= 1)%Q) by (apply Qle_shift_div_r; lra). assert (E : (0 < inject_Z (Z.of_nat a) / inject_Z (Z.of_nat b))%Q) by (apply Qlt_shift_div_l; lra). lra.
Qed.
Lemma percent_sum : forall i_start i_end i a b, a <> b -> 0 < from_to i_start i_end i a -> (percent i_start i_end i a + percent i_start i_end i b <= 100)%Q.
Proof.
  intros i_start i_end i a b N R. unfold percent. pose proof (from_to_two i_start i_end i a b N) as L. set (x := from_to _ _ _ a) in *. set (y := from_to _ _ _ b) in *. set (n := from_eddy _ _) in *. clearbody x y n.
  assert (B : (0 < inject_Z (Z.of_nat n))%Q) by (change 0%Q with (inject_Z 0); apply inject_Z_lt_iff; lia). assert (C : (inject_Z (Z.of_nat x + Z.of_nat y) <= inject_Z (Z.of_nat n))%Q) by (apply inject_Z_le_iff; lia). rewrite inject_Z_plus in C.
  assert (D : (inject_Z (Z.of_nat x) / inject_Z (Z.of_nat n) + inject_Z (Z.of_nat y) / inject_Z (Z.of_nat n) <= 1)%Q). { assert (E : (inject_Z (Z.of_nat x) / inject_Z (Z.of_nat n) + inject_Z (Z.of_nat y) / inject_Z (Z.of_nat n) == (inject_Z (Z.of_nat x) + inject_Z (Z.of_nat y)) / inject_Z (Z.of_nat n))%Q) by (field; lra). rewrite E. apply Qle_shift_div_r; lra. } lra.
Qed.
(** Percentages of the targets given by [p] when [t] are the targets. *)
Definition percentages_ok (b : best2) : Prop := (0 <= b_p1 b)%Q /\ (b_p1 b <= b_p0 b)%Q /\ (b_p0 b + b_p1 b <= 100)%Q /\ (b_t0 b <> None -> (0 < b_p0 b)%Q) /\ (b_t1 b <> None -> (0 < b_p1 b)%Q).

Theorem C49_targets : forall nb_start nb_end i_start i_end, length i_start = length i_end ->
  (forall s, In s i_start -> s < nb_start) -> (forall e, In (Some e) i_end -> e < nb_end) ->
  exists l, get_targets nb_start nb_end i_start i_end = Some l /\ length l = nb_start /\
    forall i b, nth_error l i = Some b -> two_best (fun x => x) (reached i_start i_end nb_end i) (percent i_start i_end i) b /\ percentages_ok b.
Proof.
  intros nb_start nb_end i_start i_end L BS BE. destruct (get_targets_spec nb_start nb_end i_start i_end L BS BE) as (l & E & LL & H). exists l. split; [auto|]. split; [auto|]. intros i b B. specialize (H i b B). split; [auto|]. unfold percentages_ok, two_best in *.
  destruct (b_t0 b) as [a|]; [|destruct H as (_ & -> & -> & ->); repeat split; try lra; congruence]. destruct H as ([_ RA] & -> & M1 & _ & H). destruct (percent_bounds _ _ _ _ RA) as [A1 A2].
  destruct (b_t1 b) as [c|]; [|destruct H as (_ & ->); repeat split; try lra; congruence]. destruct H as (NC & RC & -> & _). specialize (M1 c RC). destruct RC as [_ RC]. destruct (percent_bounds _ _ _ _ RC) as [C1 C2]. pose proof (percent_sum i_start i_end i a c (not_eq_sym NC) RA). repeat split; lra.
Qed.
Print Assumptions C49_targets.
Example C49_example : get_targets 2 3 [0; 0; 0; 0; 1; 0; 0; 0] [Some 2; Some 0; Some 2; None; None; Some 0; Some 2; Some 1] =
  Some [Best2 (Some 2) (inject_Z 3 / inject_Z 7 * 100)%Q (Some 0) (inject_Z 2 / inject_Z 7 * 100)%Q; no_target].
Proof. reflexivity. Qed.
(** One step of the atlas: the same targets, with the integer parts. *)
Theorem C49_step : forall nb_start nb_end i_start i_end, length i_start = length i_end ->
  (forall s, In s i_start -> s < nb_start) -> (forall e, In (Some e) i_end -> e < nb_end) ->
  exists l, candidate_step nb_start nb_end i_start i_end = Some l /\ length l = nb_start /\
    forall i b, nth_error l i = Some b -> targets_below nb_end b /\
      exists b', two_best (fun x => x) (reached i_start i_end nb_end i) (percent i_start i_end i) b' /\ b_t0 b = b_t0 b' /\ b_t1 b = b_t1 b' /\
        exists n0 n1, b_p0 b = inject_Z n0 /\ b_p1 b = inject_Z n1 /\ (inject_Z n0 <= b_p0 b' < inject_Z n0 + 1)%Q /\ (inject_Z n1 <= b_p1 b' < inject_Z n1 + 1)%Q.
Proof.
  intros nb_start nb_end i_start i_end L BS BE. destruct (C49_targets nb_start nb_end i_start i_end L BS BE) as (l & E & LL & H). unfold candidate_step. rewrite E. cbn [bind]. eexists. split; [reflexivity|]. split; [rewrite map_length; auto|].
  intros i b B. rewrite nth_error_map in B. destruct (nth_error l i) as [b'|] eqn:N; [|discriminate]. injection B as <-. destruct (H i b' N) as [T (P1 & P2 & P3 & _)]. split.
  - unfold targets_below, two_best in *. cbn [b_t0 b_t1]. destruct (b_t0 b') as [a|]; [|destruct T as (_ & _ & -> & _); split; discriminate]. destruct T as ([RA _] & _ & _ & _ & T). split; [intros j J; injection J as <-; auto|]. intros j J. rewrite J in T. apply T.
  - exists b'. split; [auto|]. split; [reflexivity|]. split; [reflexivity|]. exists (trunc (b_p0 b')), (trunc (b_p1 b')). split; [reflexivity|]. split; [reflexivity|]. split; apply trunc_bounds; lra.
Qed.
Print Assumptions C49_step.
Example C49_step_example : candidate_step 2 3 [0; 0; 0; 0; 1; 0; 0; 0] [Some 2; Some 0; Some 2; None; None; Some 0; Some 2; Some 1] =
  Some [Best2 (Some 2) 42%Q (Some 0) 28%Q; no_target].
Proof. reflexivity. Qed.

(** Targets written in the full dataset: percentages are compared with the
    integer parts already stored, so a target is best for the integer part
    only. *)
Theorem C49_matrix : forall i_start i_end translate_start translate_end all, length i_start = length i_end -> NoDup translate_start ->
  (forall s, In s i_start -> s < length translate_start) -> (forall e, In (Some e) i_end -> e < length translate_end) ->
  (forall s, In s translate_start -> nth_error all s = Some no_target) ->
  exists all', get_matrix i_start i_end translate_start translate_end all = Some all' /\ length all' = length all /\
    (forall i s, nth_error translate_start i = Some s -> exists b, nth_error all' s = Some (renamed translate_end b) /\
       two_best whole (reached i_start i_end (length translate_end) i) (percent i_start i_end i) b) /\
    (forall s, ~ In s translate_start -> nth_error all' s = nth_error all s).
Proof. exact get_matrix_spec. Qed.
Print Assumptions C49_matrix.
Example C49_matrix_example : get_matrix [0; 0; 0; 1] [Some 1; Some 0; Some 1; None] [2; 0] [5; 3] (repeat no_target 6) =
  Some [no_target; no_target; Best2 (Some 3) 66%Q (Some 5) 33%Q; no_target; no_target; no_target].
Proof. reflexivity. Qed.
(** Eddy 0 receives 101 of 300 particles and eddy 1 100 of them, but the first
    target is eddy 1. *)
Theorem C49_matrix_refuted : let i_start := repeat 0 300 in let i_end := repeat (Some 0) 101 ++ repeat (Some 1) 100 ++ repeat None 99 in
  get_matrix i_start i_end [0] [0; 1] [no_target] = Some [Best2 (Some 1) 33%Q (Some 0) 33%Q] /\ from_to i_start i_end 0 0 = 101 /\ from_to i_start i_end 0 1 = 100.
Proof. split; [vm_compute; reflexivity|]. split; vm_compute; reflexivity. Qed.
Print Assumptions C49_matrix_refuted.

Theorem C49_merge : forall all local i_origin i_end, length local = length i_origin -> NoDup i_origin -> (forall p, In p i_origin -> p < length all) ->
  (forall b, In b local -> targets_below (length i_end) b) ->
  exists all', merge_particle_result all local i_origin i_end = Some all' /\ length all' = length all /\
    (forall k p b, nth_error i_origin k = Some p -> nth_error local k = Some b -> nth_error all' p = Some (renamed i_end b)) /\
    (forall p, ~ In p i_origin -> nth_error all' p = nth_error all p).
Proof. exact merge_result_spec. Qed.
Print Assumptions C49_merge.
Example C49_merge_example : merge_particle_result (repeat no_target 4) [Best2 (Some 1) 60%Q None 0%Q; Best2 (Some 0) 30%Q (Some 1) 20%Q] [3; 0] [1; 2] =
  Some [Best2 (Some 1) 30%Q (Some 2) 20%Q; no_target; no_target; Best2 (Some 2) 60%Q None 0%Q].
Proof. reflexivity. Qed.

(** ** C79: tracks which live at two dates *)
Theorem C79_keep_tracks : forall argsort unsigned tracks time date nb_days, tracks <> [] -> length time = length tracks -> (unsigned = false /\ sorts argsort) \/ nsorted tracks ->
  exists m, keep_tracks_by_date argsort unsigned tracks time date nb_days = Some m /\ length m = length tracks /\
    forall k, nth_error m k = Some true <-> exists t, nth_error tracks k = Some t /\ lives tracks time t date /\ lives tracks time t (date + nb_days)%Q.
Proof. exact keep_tracks_spec. Qed.
Print Assumptions C79_keep_tracks.
Example C79_example : (nsorted [3; 3; 3; 5; 5; 6] /\ sorts zargsort) /\
  keep_tracks_by_date zargsort false [3; 3; 3; 5; 5; 6] [1; 2; 4; 2; 3; 2]%Q 2 1 = Some [false; false; false; true; true; false] /\
  keep_tracks_by_date zargsort false [3; 3; 3; 5; 5; 6] [1; 2; 4; 2; 3; 2]%Q 2 (-1) = Some [true; true; true; false; false; false].
Proof.
  split; [split; [|apply zargsort_sorts]|split; vm_compute; reflexivity].
  intros i j a b L A B. destruct i as [|[|[|[|[|[|i]]]]]]; destruct j as [|[|[|[|[|[|j]]]]]]; simpl in A, B; try (destruct i; discriminate); try (destruct j; discriminate); try lia; injection A as <-; injection B as <-; lia.
Qed.
(** With unsigned numbers which are not sorted the rows are taken as if they
    were: track 2 lives at dates 1 and 2 but its rows are not kept. *)
Theorem C79_unsorted_refuted : keep_tracks_by_date zargsort true [2; 1; 2] [1; 5; 2]%Q 1 1 = Some [false; false; false] /\
  lives [2; 1; 2] [1; 5; 2]%Q 2 1 /\ lives [2; 1; 2] [1; 5; 2]%Q 2 2.
Proof. split; [vm_compute; reflexivity|]. split; [exists 0, 1%Q|exists 2, 2%Q]; split; try reflexivity; split; reflexivity. Qed.
Print Assumptions C79_unsorted_refuted.
(** A dataset without any row raises an error. *)
Theorem C79_empty_refuted : forall argsort unsigned date nb_days, keep_tracks_by_date argsort unsigned [] [] date nb_days = None.
Proof. reflexivity. Qed.
Print Assumptions C79_empty_refuted.

(** ** C80: atlas of targets *)
Theorem C80_atlas : forall ds ord xs step dt lo hi, ds <> [] -> Permutation (seq 0 (length ds)) ord -> gather (map inject_Z ds) ord = Some xs -> qsorted xs ->
  (forall t i0 i1, i0 <> [] -> i1 <> [] -> exists local, step t i0 i1 = Some local /\ length local = length i0 /\ forall b, In b local -> targets_below (length i1) b) ->
  In lo ds -> (forall d, In d ds -> (lo <= d)%Z) -> In hi ds -> (forall d, In d ds -> (d <= hi)%Z) ->
  exists all, particle_candidate_atlas ord step (map inject_Z ds) dt = Some all /\ length all = length ds /\
    forall p d, nth_error ds p = Some d ->
      let used := if (0 <? dt)%Z then (lo <= d < hi - dt)%Z else (lo - dt <= d < hi)%Z in
      (used -> (exists q, nth_error ds q = Some (d + dt)%Z) -> exists b, nth_error all p = Some b /\ receives ds step dt d p b) /\
      (~ used \/ (forall q, nth_error ds q <> Some (d + dt)%Z) -> nth_error all p = Some no_target).
Proof. exact atlas_spec. Qed.
Print Assumptions C80_atlas.
(** The step of the code meets the hypothesis, whatever the particles. *)
Definition particles_step (particles : Z -> list nat -> list nat -> list nat * list (option nat)) (t : Z) (i0 i1 : list nat) : option (list best2) :=
  candidate_step (length i0) (length i1) (fst (particles t i0 i1)) (snd (particles t i0 i1)).
Theorem C80_step : forall particles,
  (forall t i0 i1, length (fst (particles t i0 i1)) = length (snd (particles t i0 i1)) /\ (forall s, In s (fst (particles t i0 i1)) -> s < length i0) /\ (forall e, In (Some e) (snd (particles t i0 i1)) -> e < length i1)) ->
  forall t i0 i1, i0 <> [] -> i1 <> [] -> exists local, particles_step particles t i0 i1 = Some local /\ length local = length i0 /\ forall b, In b local -> targets_below (length i1) b.
Proof.
  intros particles H t i0 i1 _ _. destruct (H t i0 i1) as (A & B & C). destruct (C49_step (length i0) (length i1) _ _ A B C) as (l & E & L & T). exists l. split; [auto|]. split; [auto|]. intros b I. apply In_nth_error in I as (k & K). apply (T k b K).
Qed.
Print Assumptions C80_step.
(** All the particles of each eddy go in the first eddy of the end date. *)
Definition all_first (t : Z) (i0 i1 : list nat) : list nat * list (option nat) := (seq 0 (length i0), map (fun _ => if length i1 =? 0 then None else Some 0) i0).
Definition atlas_dates : list Z := [10; 10; 11; 12; 13]%Z.
Example C80_example : (Permutation (seq 0 5) (seq 0 5) /\ qsorted (map inject_Z atlas_dates)) /\
  (forall t i0 i1, length (fst (all_first t i0 i1)) = length (snd (all_first t i0 i1)) /\ (forall s, In s (fst (all_first t i0 i1)) -> s < length i0) /\ (forall e, In (Some e) (snd (all_first t i0 i1)) -> e < length i1)) /\
  particle_candidate_atlas (seq 0 5) (particles_step all_first) (map inject_Z atlas_dates) 1 =
    Some [Best2 (Some 2) 100%Q None 0%Q; Best2 (Some 2) 100%Q None 0%Q; Best2 (Some 3) 100%Q None 0%Q; no_target; no_target].
Proof.
  split; [split; [apply Permutation_refl|]|split].
  - intros i j a b L A B. unfold atlas_dates in *. destruct i as [|[|[|[|[|i]]]]]; destruct j as [|[|[|[|[|j]]]]]; simpl in A, B; try (destruct i; discriminate); try (destruct j; discriminate); try lia; injection A as <-; injection B as <-; apply inject_Z_le_iff; lia.
  - intros t i0 i1. unfold all_first. cbn [fst snd]. rewrite seq_length, map_length. split; [auto|]. split; [intros s I; apply in_seq in I; lia|]. intros e I. apply in_map_iff in I as (x & E & _). destruct (Nat.eqb_spec (length i1) 0); [discriminate|injection E as <-; lia].
  - vm_compute. reflexivity.
Qed.
(** The last start date for which the end date exists is not used: the
    observation of date 12 has no target although one observation of date 13
    receives its particles. *)
Theorem C80_last_date_refuted : exists all, particle_candidate_atlas (seq 0 5) (particles_step all_first) (map inject_Z atlas_dates) 1 = Some all /\
  nth_error atlas_dates 3 = Some 12%Z /\ nth_error atlas_dates 4 = Some 13%Z /\ nth_error all 3 = Some no_target /\
  particles_step all_first 12 [3] [4] = Some [Best2 (Some 0) 100%Q None 0%Q].
Proof. eexists. split; [vm_compute; reflexivity|]. repeat split. Qed.
Print Assumptions C80_last_date_refuted.
