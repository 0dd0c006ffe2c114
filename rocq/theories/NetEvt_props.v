(** Properties C45 and C74 to C77: events of a network and observations close
    to them, selections of networks, links of inserted rows. *)
From Coq Require Import List Arith ZArith Bool Lia Permutation.
From Verif Require Import Base Sort Generic_model Corr_model Corr_proofs Corr_more Solver_proofs Obs_spec Obs_props Obs_model Net_model Net_spec Net_sort Net_links Net_reach Net_props
  NetSeg_model NetSeg_spec NetSeg_proofs NetSeg_props NetEvt_model NetEvt_spec NetEvt_proofs NetEvt_more NetEvt_sel.
Import ListNotations.
Local Close Scope Q_scope.
Local Open Scope nat_scope.

(** ** C45: observations close to events *)
Theorem C45_follow : forall link time dt m indexs n, length link = n -> length time = n -> length m = n -> 0 < n ->
  (forall z, In z link -> link_ok n z) -> no_loop link -> (forall z, In z indexs -> (0 <= z < Z.of_nat n)%Z) ->
  exists m', mask_follow_obs m link time indexs dt = Some m' /\ length m' = n /\
    forall k, nth_error m' k = Some true <-> nth_error m k = Some true \/ exists i, In (Z.of_nat i) indexs /\ close_to link time dt i k.
Proof.
  intros link time dt m indexs n LN LT LM P LK NL B.
  destruct (follow_spec link time dt n LN LT LK NL P indexs m LM) as (m' & E & L & N). { intros z H. right. auto. }
  exists m'. split; [auto|]. split; [auto|]. intros k. rewrite N.
  assert (R : forall z, In z indexs -> Z.of_nat (row_of n z) = z). { intros z H. specialize (B z H). unfold row_of. destruct (Z.ltb_spec z 0); lia. }
  split; (intros [H|(z & Z & H)]; [auto|right]).
  - exists (row_of n z). rewrite R by auto. auto.
  - exists (Z.of_nat z). split; [auto|]. replace (row_of n (Z.of_nat z)) with z; [auto|]. specialize (R _ Z). lia.
Qed.
Print Assumptions C45_follow.
Lemma rising_no_loop : forall link (rank : nat -> Z), (forall i j, step link i j -> (rank i < rank j)%Z) -> no_loop link.
Proof.
  intros link rank H i j S R. assert (X : forall a b, reach (step link) a b -> (rank a <= rank b)%Z).
  { intros a b Q. induction Q as [a|a b c S' Q IH]; [lia|]. specialize (H a b S'). lia. }
  specialize (X j i R). specialize (H i j S). lia.
Qed.
Lemma next_rising : forall rows, forallb (fun i => match nth_error rows i with Some r => (nxt r <? 0)%Z || (Z.of_nat i <? nxt r)%Z | None => true end) (seq 0 (length rows)) = true -> no_loop (map nxt rows).
Proof.
  intros rows H. apply rising_no_loop with Z.of_nat. intros i j S. unfold step in S. rewrite nth_error_map in S. rewrite forallb_forall in H.
  destruct (nth_error rows i) as [r|] eqn:R; [|discriminate]. simpl in S. apply Some_inj in S. specialize (H i). rewrite in_seq, R in H.
  apply nth_error_Some_lt in R. specialize (H ltac:(lia)). rewrite S in H. apply orb_true_iff in H as [H|H]; apply Z.ltb_lt in H; lia.
Qed.
Lemma prev_falling : forall rows, forallb (fun i => match nth_error rows i with Some r => (prv r <? Z.of_nat i)%Z | None => true end) (seq 0 (length rows)) = true -> no_loop (map prv rows).
Proof.
  intros rows H. apply rising_no_loop with (fun i => - Z.of_nat i)%Z. intros i j S. unfold step in S. rewrite nth_error_map in S. rewrite forallb_forall in H.
  destruct (nth_error rows i) as [r|] eqn:R; [|discriminate]. simpl in S. apply Some_inj in S. specialize (H i). rewrite in_seq, R in H.
  apply nth_error_Some_lt in R. specialize (H ltac:(lia)). rewrite S in H. apply Z.ltb_lt in H; lia.
Qed.
Example C45_follow_example : no_loop (map nxt example_segs) /\ links_ok example_segs /\
  mask_follow_obs (repeat false 9) (map nxt example_segs) (map time example_segs) [2]%Z 3 = Some [false; false; true; true; false; true; false; false; false].
Proof. split; [apply next_rising; vm_compute; reflexivity|]. split; [apply example_segs_valid|vm_compute; reflexivity]. Qed.

(** The mask of the observations close to an event: from a merging back along
    the main path and along the segment which stops, and forward; from a
    splitting forward along the main path and along the segment which starts,
    and back. *)
Theorem C45_close_events : forall argsort rows dt merging spliting, sorts argsort -> rows <> [] -> segment_sorted rows -> links_ok rows ->
  no_loop (map nxt rows) -> no_loop (map prv rows) ->
  (forall i j r, merges_into rows i j -> nth_error rows j = Some r -> prv r <> (-1)%Z) ->
  (forall i j r, splits_from rows i j -> nth_error rows i = Some r -> nxt r <> (-1)%Z) ->
  exists m, mask_obs_close_event argsort merging spliting dt rows = Some m /\ length m = length rows /\
    forall k, nth_error m k = Some true <->
      (merging = true /\ exists i j p, merges_into rows i j /\ step (map prv rows) j p /\
         (close_to (map prv rows) (map time rows) dt p k \/ close_to (map prv rows) (map time rows) dt i k \/ close_to (map nxt rows) (map time rows) dt j k)) \/
      (spliting = true /\ exists i j q, splits_from rows i j /\ step (map nxt rows) i q /\
         (close_to (map nxt rows) (map time rows) dt q k \/ close_to (map nxt rows) (map time rows) dt j k \/ close_to (map prv rows) (map time rows) dt i k)).
Proof.
  intros argsort rows dt merging spliting SO NE SS LK AN AP MM PP.
  destruct (close_events_spec argsort rows dt SO NE SS LK AN AP merging spliting) as (m & E & L & N).
  exists m. split; [auto|]. split; [auto|]. intros k. rewrite N.
  assert (RO : forall z, link_ok (length rows) z -> z <> (-1)%Z -> Z.of_nat (row_of (length rows) z) = z).
  { intros z [->|B] Z; [congruence|]. unfold row_of. destruct (Z.ltb_spec z 0); lia. }
  assert (RN : forall s, row_of (length rows) (Z.of_nat s) = s) by (intros s; unfold row_of; destruct (Z.ltb_spec (Z.of_nat s) 0); [lia|apply Nat2Z.id]).
  split.
  - intros [(T & i & j & r & R & J & H)|(T & i & j & r & R & J & H)].
    + left. split; [auto|]. exists i, j, (row_of (length rows) (prv r)). split; [auto|]. split; [|auto].
      unfold step. rewrite nth_error_map, J. simpl. f_equal. symmetry. apply RO; [apply LK; eapply nth_error_In; eauto|eapply MM; eauto].
    + right. split; [auto|]. exists i, j, (row_of (length rows) (nxt r)). split; [auto|]. split; [|auto].
      unfold step. rewrite nth_error_map, J. simpl. f_equal. symmetry. apply RO; [apply LK; eapply nth_error_In; eauto|eapply PP; eauto].
  - intros [(T & i & j & p & R & S & H)|(T & i & j & p & R & S & H)]; unfold step in S; apply col_nth in S as (r & J & EQ).
    + left. split; [auto|]. exists i, j, r. rewrite EQ, RN. auto.
    + right. split; [auto|]. exists i, j, r. rewrite EQ, RN. auto.
Qed.
Print Assumptions C45_close_events.
Definition example_event : list nrow :=
  [Row 1 1 0 1 (-1) []; Row 1 1 1 2 0 []; Row 1 1 2 3 1 []; Row 1 1 3 4 2 []; Row 1 1 4 (-1) 3 []; Row 1 2 0 6 (-1) []; Row 1 2 1 2 5 []]%Z.
Lemma next_later : forall rows, forallb (fun r => (nxt r <? 0)%Z || match nth_error rows (Z.to_nat (nxt r)) with Some q => (time r <? time q)%Z | None => false end) rows = true -> no_loop (map nxt rows).
Proof.
  intros rows H. apply rising_no_loop with (fun i => match nth_error rows i with Some r => time r | None => 0%Z end). intros i j S. unfold step in S. rewrite nth_error_map in S. rewrite forallb_forall in H.
  destruct (nth_error rows i) as [r|] eqn:R; [|discriminate]. simpl in S. apply Some_inj in S. specialize (H r (nth_error_In _ _ R)). rewrite S, Nat2Z.id in H.
  apply orb_true_iff in H as [H|H]; [apply Z.ltb_lt in H; lia|]. destruct (nth_error rows j); [apply Z.ltb_lt in H; lia|discriminate].
Qed.
Example C45_close_example : (example_event <> [] /\ segment_sorted example_event /\ links_ok example_event /\ no_loop (map nxt example_event) /\ no_loop (map prv example_event)) /\
  (forall i j r, merges_into example_event i j -> nth_error example_event j = Some r -> prv r <> (-1)%Z) /\
  (forall i j r, splits_from example_event i j -> nth_error example_event i = Some r -> nxt r <> (-1)%Z) /\
  merges_into example_event 6 2 /\ mask_obs_close_event zargsort true true 2 example_event = Some [true; true; true; true; false; true; true].
Proof.
  assert (L6 : last_row example_event 6).
  { intros k (a & b & A & B & T & G). simpl in A. injection A as <-. destruct k as [|[|[|[|[|[|[|k]]]]]]]; simpl in B; try lia. destruct k; discriminate. }
  split; [split; [discriminate|split; [apply sorted_checked; vm_compute; reflexivity|split; [apply links_checked; vm_compute; reflexivity|split; [apply next_later; vm_compute; reflexivity|apply prev_falling; vm_compute; reflexivity]]]]|].
  assert (SAME : forall i, same_segment example_event i (S i) -> ~ last_row example_event i) by (intros i S L; specialize (L _ S); lia).
  split; [|split; [|split; [|vm_compute; reflexivity]]].
  - intros i j r (q & Q & L & N) J E. destruct i as [|[|[|[|[|[|[|i]]]]]]]; simpl in Q; try (injection Q as <-; simpl in N).
    1-4: exfalso; eapply SAME; [|exact L]; eexists; eexists; repeat split.
    1: lia. 1: (exfalso; eapply SAME; [|exact L]; eexists; eexists; repeat split).
    + assert (j = 2) by lia. subst j. simpl in J. injection J as <-. discriminate.
    + destruct i; discriminate.
  - intros i j r (q & Q & F & P) _ _. assert (P' : prv q = (-1)%Z \/ same_segment example_event (j - 1) j).
    { destruct j as [|[|[|[|[|[|[|j]]]]]]]; simpl in Q; try (injection Q as <-; simpl; auto; right; eexists; eexists; repeat split). destruct j; discriminate. }
    destruct P' as [P'|S]; [lia|]. apply same_sym in S. specialize (F _ S). destruct j as [|j]; [|lia]. simpl in Q. injection Q as <-. simpl in P. lia.
  - exists (Row 1 2 1 2 5 [])%Z. split; [reflexivity|]. split; [auto|reflexivity].
Qed.
(** When a segment splits from the last row of the main one, which has no next
    row, the last row of the dataset is marked although it is of another
    network. *)
Theorem C45_event_without_main_refuted : exists rows m, rows <> [] /\ segment_sorted rows /\ links_ok rows /\ no_loop (map nxt rows) /\ no_loop (map prv rows) /\
  mask_obs_close_event zargsort false true 2 rows = Some m /\ nth_error m 3 = Some true /\
  (exists r, nth_error rows 3 = Some r /\ track r = 2 /\ nxt r = (-1)%Z /\ prv r = (-1)%Z) /\ (forall i j, splits_from rows i j -> i <> 3 /\ j <> 3).
Proof.
  exists [Row 1 1 0 1 (-1) []; Row 1 1 1 (-1) 0 []; Row 1 2 2 (-1) 1 []; Row 2 1 90 (-1) (-1) []]%Z. eexists. split; [discriminate|].
  split; [apply sorted_checked; vm_compute; reflexivity|]. split; [apply links_checked; vm_compute; reflexivity|].
  split; [apply next_rising; vm_compute; reflexivity|]. split; [apply prev_falling; vm_compute; reflexivity|].
  split; [vm_compute; reflexivity|]. split; [reflexivity|]. split; [eexists; split; [reflexivity|auto]|].
  intros i j (r & R & F & P). destruct j as [|[|[|[|j]]]]; simpl in R; try (injection R as <-; simpl in P; lia). destruct j; discriminate.
Qed.
Print Assumptions C45_event_without_main_refuted.

(** ** C74: events *)
Theorem C74_merging : forall argsort rows, sorts argsort -> rows <> [] -> segment_sorted rows -> links_ok rows ->
  exists after before stopped, merging_event_triplet argsort rows = Some (after, before, stopped) /\ length before = length after /\ length stopped = length after /\
    (forall i j, merges_into rows i j <-> exists p, nth_error stopped p = Some (Z.of_nat i) /\ nth_error after p = Some (Z.of_nat j)) /\
    NoDup stopped /\
    (forall p j r, nth_error after p = Some (Z.of_nat j) -> nth_error rows j = Some r -> nth_error before p = Some (prv r)) /\
    (forall p q i j ri rj, p < q -> nth_error after p = Some (Z.of_nat i) -> nth_error after q = Some (Z.of_nat j) -> nth_error rows i = Some ri -> nth_error rows j = Some rj -> (time ri <= time rj)%Z) /\
    exists ix, merging_event argsort rows = Some ix /\ incr ix /\ forall j, In j ix <-> exists i, merges_into rows i j.
Proof.
  intros argsort rows SO NE SS LK. destruct (merging_spec argsort rows SO NE SS LK) as (a & b & c & E & TF). pose proof TF as (LB & LC & AB & CH & UN & CB & BO & OR).
  exists a, b, c. split; [auto|]. split; [auto|]. split; [auto|]. split; [auto|]. split.
  { apply NoDup_nth_error. intros p q L EQ. destruct (nth_error_lt_Some c p L) as [z Z]. apply (UN p q z); congruence. }
  split; [auto|]. split; [auto|]. exists (usort (map Z.to_nat a)). unfold merging_event. rewrite E. cbn [bind]. split; [auto|]. eapply triplet_targets; eauto.
Qed.
Print Assumptions C74_merging.
Theorem C74_splitting : forall argsort rows, sorts argsort -> rows <> [] -> segment_sorted rows -> links_ok rows ->
  exists before after started, splitting_event_triplet argsort rows = Some (before, after, started) /\ length after = length before /\ length started = length before /\
    (forall i j, splits_from rows i j <-> exists p, nth_error started p = Some (Z.of_nat j) /\ nth_error before p = Some (Z.of_nat i)) /\
    NoDup started /\
    (forall p j r, nth_error before p = Some (Z.of_nat j) -> nth_error rows j = Some r -> nth_error after p = Some (nxt r)) /\
    (forall p q i j ri rj, p < q -> nth_error before p = Some (Z.of_nat i) -> nth_error before q = Some (Z.of_nat j) -> nth_error rows i = Some ri -> nth_error rows j = Some rj -> (time ri <= time rj)%Z) /\
    exists ix, splitting_event argsort rows = Some ix /\ incr ix /\ forall i, In i ix <-> exists j, splits_from rows i j.
Proof.
  intros argsort rows SO NE SS LK. destruct (splitting_spec argsort rows SO NE SS LK) as (a & b & c & E & TF). pose proof TF as (LB & LC & AB & CH & UN & CB & BO & OR).
  exists a, b, c. split; [auto|]. split; [auto|]. split; [auto|]. split; [intros i j; rewrite (CH j i); split; intros (p & P); exists p; tauto|]. split.
  { apply NoDup_nth_error. intros p q L EQ. destruct (nth_error_lt_Some c p L) as [z Z]. apply (UN p q z); congruence. }
  split; [auto|]. split; [auto|]. exists (usort (map Z.to_nat a)). unfold splitting_event. rewrite E. cbn [bind]. split; [auto|].
  destruct (triplet_targets _ _ _ a b c TF) as [I T]. split; [auto|]. intros i. rewrite T. tauto.
Qed.
Print Assumptions C74_splitting.
Example C74_events_example : (example_segs <> [] /\ segment_sorted example_segs /\ links_ok example_segs) /\ sorts zargsort /\
  merging_event_triplet zargsort example_segs = Some ([5], [4], [3])%Z /\
  splitting_event_triplet zargsort example_segs = Some ([0; 5], [1; 6], [2; 7])%Z /\
  splitting_event zargsort example_segs = Some [0; 5].
Proof. split; [exact example_segs_valid|]. split; [exact zargsort_sorts|]. repeat split; vm_compute; reflexivity. Qed.
(** A segment which merges into the first row of a segment: the row before the
    merging is -1, that is the last row of the dataset. *)
Theorem C74_no_row_before_refuted : exists rows, rows <> [] /\ segment_sorted rows /\ links_ok rows /\
  merging_event_triplet zargsort rows = Some ([1], [-1], [0])%Z.
Proof.
  exists [Row 1 1 0 1 (-1) []; Row 1 2 1 2 (-1) []; Row 1 2 2 (-1) 1 []; Row 2 1 90 (-1) (-1) []]%Z.
  split; [discriminate|]. split; [apply sorted_checked; vm_compute; reflexivity|]. split; [apply links_checked; vm_compute; reflexivity|]. vm_compute. reflexivity.
Qed.
Print Assumptions C74_no_row_before_refuted.

Theorem C74_births : forall rows, rows <> [] -> segment_sorted rows ->
  (exists k r, same_segment rows 0 k /\ nth_error rows k = Some r /\ (prv r <> (-1)%Z \/ nxt r <> (-1)%Z)) ->
  exists ix, birth_event rows = Some ix /\ incr ix /\
    forall i, In i ix <-> exists r, nth_error rows i = Some r /\ first_row rows i /\ prv r = (-1)%Z.
Proof.
  intros rows NE SS (k & r & S & K & Z). destruct (birth_spec rows NE SS) as (ix & E & I & N). exists ix. split; [auto|]. split; [auto|]. intros i. rewrite N.
  assert (X : ~ lonely_start rows) by (intros X; destruct (X k r S K); tauto). tauto.
Qed.
Print Assumptions C74_births.
Theorem C74_deaths : forall rows, rows <> [] -> segment_sorted rows -> links_ok rows ->
  (exists k r, same_segment rows 0 k /\ nth_error rows k = Some r /\ (prv r <> (-1)%Z \/ nxt r <> (-1)%Z)) ->
  exists ix, death_event rows = Some ix /\ incr ix /\
    forall i, In i ix <-> exists r, nth_error rows i = Some r /\ last_row rows i /\ nxt r = (-1)%Z.
Proof.
  intros rows NE SS LK (k & r & S & K & Z). destruct (death_spec rows NE SS LK) as (ix & E & I & N). exists ix. split; [auto|]. split; [auto|]. intros i. rewrite N.
  assert (X : ~ lonely_start rows) by (intros X; destruct (X k r S K); tauto). tauto.
Qed.
Print Assumptions C74_deaths.
Example C74_births_example : (exists k r, same_segment example_segs 0 k /\ nth_error example_segs k = Some r /\ (prv r <> (-1)%Z \/ nxt r <> (-1)%Z)) /\
  birth_event example_segs = Some [0; 4; 8] /\ death_event example_segs = Some [1; 6; 7; 8].
Proof.
  split; [|split; vm_compute; reflexivity]. exists 0. eexists. split; [eexists; eexists; repeat split|]. split; [reflexivity|]. right. discriminate.
Qed.
(** Births and deaths of the first segment, and no other, are left out when no
    row of it has a link (it is taken as the trash). *)
Theorem C74_trash : forall rows, rows <> [] -> segment_sorted rows -> links_ok rows ->
  (forall k r, same_segment rows 0 k -> nth_error rows k = Some r -> prv r = (-1)%Z /\ nxt r = (-1)%Z) ->
  exists b d, birth_event rows = Some b /\ death_event rows = Some d /\ incr b /\ incr d /\
    (forall i, In i b <-> (exists r, nth_error rows i = Some r /\ first_row rows i /\ prv r = (-1)%Z) /\ ~ same_segment rows 0 i) /\
    (forall i, In i d <-> (exists r, nth_error rows i = Some r /\ last_row rows i /\ nxt r = (-1)%Z) /\ ~ same_segment rows 0 i).
Proof.
  intros rows NE SS LK LS. destruct (birth_spec rows NE SS) as (b & EB & IB & NB). destruct (death_spec rows NE SS LK) as (d & ED & ID & ND).
  exists b, d. split; [auto|]. split; [auto|]. split; [auto|]. split; [auto|]. change (lonely_start rows) in LS. split.
  - intros i. rewrite NB. split.
    + intros [(r & R & F & P) X]. split; [eauto|]. intros S. apply X. split; [auto|]. apply same_sym in S. specialize (F 0 S). lia.
    + intros [(r & R & F & P) X]. split; [eauto|]. intros [_ ->]. apply X. exists r, r. auto.
  - intros i. rewrite ND. split; (intros [H X]; split; [auto|]); tauto.
Qed.
Print Assumptions C74_trash.
(** The first segment of the first network, of one row and not in the trash
    (its network is 1), is not counted as a birth nor as a death. *)
Theorem C74_lonely_first_refuted : exists rows, rows <> [] /\ segment_sorted rows /\ links_ok rows /\ (forall r, In r rows -> track r = 1) /\
  birth_event rows = Some [1] /\ death_event rows = Some [1] /\ first_row rows 0 /\ nth_error (map prv rows) 0 = Some (-1)%Z.
Proof.
  exists [Row 1 1 0 (-1) (-1) []; Row 1 2 4 (-1) (-1) []]%Z. split; [discriminate|]. split; [apply sorted_checked; vm_compute; reflexivity|].
  split; [apply links_checked; vm_compute; reflexivity|]. split; [intros r [<-|[<-|[]]]; reflexivity|]. split; [vm_compute; reflexivity|]. split; [vm_compute; reflexivity|].
  split; [intros k _; lia|reflexivity].
Qed.
Print Assumptions C74_lonely_first_refuted.

(** ** C75: selection of networks by number and of segments by unique number *)
Theorem C75_networks : forall rows ids, rows <> [] -> segment_sorted rows -> links_ok rows ->
  (forall z, In z ids -> exists a b, In a rows /\ In b rows /\ (Z.of_nat (track a) <= z <= Z.of_nat (track b))%Z) ->
  exists ix new, networks rows ids = Some new /\ incr ix /\ rows_moved ix rows new /\
    forall k r, nth_error rows k = Some r -> (In k ix <-> In (Z.of_nat (track r)) ids).
Proof.
  intros rows ids NE SS LK B. destruct (networks_mask_spec rows ids NE SS B) as (m & E & L & N). destruct (extract_spec rows m LK L) as (new & X & M).
  exists (where_ m), new. unfold networks. rewrite E. cbn [bind]. split; [auto|]. split; [apply incr_where|]. split; [auto|]. intros k r K. rewrite In_where. apply N. auto.
Qed.
Print Assumptions C75_networks.
Theorem C75_segments : forall rows seg ids, rows <> [] -> segment_sorted rows -> segment_track_array rows = Some seg ->
  (forall z, In z ids -> exists s, In s seg /\ z = Z.of_nat s) ->
  exists m, networks_mask true rows ids = Some m /\ length m = length rows /\
    forall k s, nth_error seg k = Some s -> (nth_error m k = Some true <-> In (Z.of_nat s) ids).
Proof. exact segments_mask_spec. Qed.
Print Assumptions C75_segments.
Definition example_nets : list nrow :=
  [Row 2 1 0 1 (-1) [10]; Row 2 1 1 (-1) 0 [11]; Row 3 1 1 (-1) (-1) [20]; Row 6 1 0 4 (-1) [30]; Row 6 2 3 5 3 [31]; Row 6 2 4 (-1) 4 [32]]%Z.
Example C75_example : (example_nets <> [] /\ segment_sorted example_nets /\ links_ok example_nets) /\
  networks example_nets [6; 2; 4]%Z = Some [Row 2 1 0 1 (-1) [10]; Row 2 1 1 (-1) 0 [11]; Row 6 1 0 3 (-1) [30]; Row 6 2 3 4 2 [31]; Row 6 2 4 (-1) 3 [32]]%Z /\
  segment_track_array example_nets = Some [0; 0; 1; 2; 3; 3] /\ networks_mask true example_nets [3; 1]%Z = Some [false; false; true; false; true; true].
Proof.
  split; [split; [discriminate|split; [apply sorted_checked; vm_compute; reflexivity|apply links_checked; vm_compute; reflexivity]]|].
  split; [vm_compute; reflexivity|]. split; vm_compute; reflexivity.
Qed.
(** A number below the smallest one selects another network: asked for network
    1, which does not exist, the selection gives network 6; above the largest
    one the selection fails. *)
Theorem C75_outside_refuted : segment_sorted example_nets /\ links_ok example_nets /\
  networks_mask false example_nets [1]%Z = Some [false; false; false; true; true; true] /\
  networks_mask false example_nets [7]%Z = None.
Proof. split; [apply sorted_checked; vm_compute; reflexivity|]. split; [apply links_checked; vm_compute; reflexivity|]. split; vm_compute; reflexivity. Qed.
Print Assumptions C75_outside_refuted.

(** ** C76: selection of networks on duration, removal of the trash *)
Theorem C76_longer_than : forall rows mn mx, rows <> [] -> segment_sorted rows -> links_ok rows ->
  exists ix new, longer_than mn mx rows = Some new /\ incr ix /\ rows_moved ix rows new /\
    forall k r, nth_error rows k = Some r -> (In k ix <->
      exists a b, In a rows /\ In b rows /\ track a = track r /\ track b = track r /\
        (forall c, In c rows -> track c = track r -> (time a <= time c <= time b)%Z) /\
        (mn <= time b - time a + 1)%Z /\ (time b - time a + 1 <= if mx <? 0 then 1000000000000 else mx)%Z).
Proof.
  intros rows mn mx NE SS LK. destruct (longer_spec rows mn mx NE SS) as (m & E & L & N). destruct (extract_spec rows m LK L) as (new & X & M).
  exists (where_ m), new. unfold longer_than. rewrite E. cbn [bind]. split; [auto|]. split; [apply incr_where|]. split; [auto|]. intros k r K. rewrite In_where. apply N. auto.
Qed.
Print Assumptions C76_longer_than.
Example C76_example : (example_nets <> [] /\ segment_sorted example_nets /\ links_ok example_nets) /\
  mask_longer_than 2 (-1) example_nets = Some [true; true; false; true; true; true] /\ mask_longer_than (-1) 4 example_nets = Some [true; true; true; false; false; false].
Proof. split; [apply C75_example|]. split; vm_compute; reflexivity. Qed.

Theorem C76_remove_trash : forall rows, rows <> [] -> segment_sorted rows -> links_ok rows ->
  ((forall k r, same_segment rows 0 k -> nth_error rows k = Some r -> prv r = (-1)%Z /\ nxt r = (-1)%Z) ->
   exists ix new, remove_trash rows = Some new /\ incr ix /\ rows_moved ix rows new /\ forall k r, nth_error rows k = Some r -> (In k ix <-> track r <> 0)) /\
  ((exists k r, same_segment rows 0 k /\ nth_error rows k = Some r /\ (prv r <> (-1)%Z \/ nxt r <> (-1)%Z)) -> remove_trash rows = Some rows).
Proof.
  intros rows NE SS LK. destruct (first_is_trash_spec rows NE SS) as (b & E & H). unfold remove_trash. rewrite E. cbn [bind]. split.
  - intros LS. apply H in LS. subst b. destruct (extract_spec rows (map (fun r => negb (track r =? 0)) rows) LK) as (new & X & M); [apply map_length|].
    exists (where_ (map (fun r => negb (track r =? 0)) rows)), new. split; [auto|]. split; [apply incr_where|]. split; [auto|]. intros k r K. rewrite In_where, nth_error_map, K. simpl.
    destruct (Nat.eqb_spec (track r) 0) as [Z|Z]; simpl; split; intros Q; try congruence; contradiction.
  - intros (k & r & S & K & Z). destruct b; [|auto]. exfalso. destruct ((proj1 H eq_refl) k r S K). tauto.
Qed.
Print Assumptions C76_remove_trash.
Example C76_trash_example :
  let rows := [Row 0 0 0 (-1) (-1) [1]; Row 0 0 7 (-1) (-1) [2]; Row 1 1 0 3 (-1) [3]; Row 1 1 1 (-1) 2 [4]]%Z in
  rows <> [] /\ segment_sorted rows /\ links_ok rows /\ remove_trash rows = Some [Row 1 1 0 1 (-1) [3]; Row 1 1 1 (-1) 0 [4]]%Z.
Proof. split; [discriminate|]. split; [apply sorted_checked; vm_compute; reflexivity|]. split; [apply links_checked; vm_compute; reflexivity|]. vm_compute. reflexivity. Qed.
(** When no row is in the trash but the first segment of network 0 has no link,
    the whole network 0 is removed, linked rows too. *)
Theorem C76_trash_refuted : exists rows, rows <> [] /\ segment_sorted rows /\ links_ok rows /\
  remove_trash rows = Some [] /\ exists r, In r rows /\ nxt r <> (-1)%Z.
Proof.
  exists [Row 0 1 0 (-1) (-1) []; Row 0 2 1 2 (-1) []; Row 0 2 2 (-1) 1 []]%Z. split; [discriminate|]. split; [apply sorted_checked; vm_compute; reflexivity|].
  split; [apply links_checked; vm_compute; reflexivity|]. split; [vm_compute; reflexivity|]. eexists. split; [right; left; reflexivity|discriminate].
Qed.
Print Assumptions C76_trash_refuted.

(** ** C77: links around inserted rows *)
Theorem C77_fix_links : forall flags next previous n, length next = n -> length previous = n -> length flags = n ->
  nth_error flags 0 <> Some true -> nth_error flags (n - 1) <> Some true ->
  exists next' previous', fix_links 0 flags next previous = Some (next', previous') /\ length next' = n /\ length previous' = n /\
    (forall k, nth_error flags k = Some true \/ nth_error flags (k + 1) = Some true -> nth_error next' k = Some (Z.of_nat k + 1)%Z) /\
    (forall k, nth_error flags k <> Some true -> nth_error flags (k + 1) <> Some true -> nth_error next' k = nth_error next k) /\
    (forall k, nth_error flags k = Some true \/ (0 < k /\ nth_error flags (k - 1) = Some true) -> nth_error previous' k = Some (Z.of_nat k - 1)%Z) /\
    (forall k, nth_error flags k <> Some true -> (k = 0 \/ nth_error flags (k - 1) <> Some true) -> nth_error previous' k = nth_error previous k).
Proof.
  intros flags next previous n LN LP LF F0 FN.
  destruct (fix_links_spec flags 0 next previous n LN LP) as (nx & pv & E & L1 & L2 & N1 & N2 & P1 & P2); [lia| |].
  { intros k H. pose proof (nth_error_Some_lt _ _ _ H). split; [destruct k; [congruence|lia]|]. destruct (Nat.eq_dec k (n - 1)) as [->|D]; [congruence|lia]. }
  exists nx, pv. split; [auto|]. split; [auto|]. split; [auto|]. split; [|split; [|split]].
  - intros k [H|H]; [apply (N2 k k H); auto|apply (N2 k (k + 1) H); auto].
  - intros k H1 H2. apply N1. intros j J. split; intros EQ; cbn in EQ; subst j; auto.
  - intros k [H|[K H]]; [apply (P2 k k H); auto|apply (P2 k (k - 1) H); right; lia].
  - intros k H1 H2. apply P1. intros j J. split; intros EQ; cbn in EQ; [subst j; auto|]. destruct H2 as [->|H2]; [lia|]. apply H2. replace (k - 1) with j by lia. auto.
Qed.
Print Assumptions C77_fix_links.
Example C77_example : fix_links 0 [false; true; true; false; false] [4; 9; 9; -1; -1]%Z [-1; 9; 9; 0; 1]%Z = Some ([1; 2; 3; -1; -1], [-1; 0; 1; 2; 1])%Z.
Proof. reflexivity. Qed.
(** A virtual first row gives the last row of the arrays a next one, and a
    virtual last row goes out of the arrays. *)
Theorem C77_ends_refuted :
  fix_links 0 [true; false; false] [1; 2; -1]%Z [-1; 0; 1]%Z = Some ([1; 2; 0], [-1; 0; 1])%Z /\
  fix_links 0 [false; false; true] [1; 2; -1]%Z [-1; 0; 1]%Z = None.
Proof. split; reflexivity. Qed.
Print Assumptions C77_ends_refuted.
