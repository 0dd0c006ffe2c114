(** Property C29: splitting of groups in segments. *)
From Coq Require Import List Arith ZArith QArith Bool Lia Lqa.
From Verif Require Import Base Spec Qaux TrackObs_spec Split_model Split_spec Split_proofs Split_more Split_net.
Import ListNotations.
Local Close Scope Q_scope.
Local Open Scope nat_scope.

(** Overlap of [i] and [j], 0 when the boxes of the contours do not meet. *)
Definition overlap_cost (meet : nat -> nat -> bool) (overlap : nat -> nat -> Q) (i j : nat) : Q := if meet i j then overlap i j else 0%Q.

(** One group: the numbers and links are the ones specified, whatever the
    contours and the window. *)
Theorem C29_group : forall meet overlap rnd time window,
  time <> [] -> zsorted time -> (forall i j, (0 <= overlap i j)%Q) -> rounding rnd ->
  exists s, set_tracks meet overlap rnd time window (ids_init (length time)) = Some s /\
    segmented time (overlap_cost meet overlap) rnd window (i_track s) (i_prev s) (i_next s).
Proof.
  intros meet overlap rnd time window NE SO NN RN. destruct (set_tracks_spec meet overlap rnd time window NE SO NN RN) as (s & E & _ & _ & S). exists s. auto.
Qed.
Print Assumptions C29_group.

(** Times grow strictly along a segment: it has at most one observation of a
    date. *)
Lemma last_before : forall (track : list nat) t b, (exists a, a < b /\ nth_error track a = Some t) ->
  exists a, a < b /\ nth_error track a = Some t /\ forall q, a < q < b -> nth_error track q <> Some t.
Proof.
  intros track t b. induction b as [|b IH]; intros (a & L & N); [lia|].
  destruct (nth_error track b) as [u|] eqn:U; [destruct (Nat.eq_dec u t) as [->|NE]; [exists b; split; [lia|]; split; [auto|intros; lia]|]|].
  - destruct IH as (a' & L' & N' & B); [exists a; split; [|auto]; destruct (Nat.eq_dec a b) as [->|]; [congruence|lia]|]. exists a'. split; [lia|]. split; [auto|]. intros q Q. destruct (Nat.eq_dec q b) as [->|]; [congruence|apply B; lia].
  - destruct IH as (a' & L' & N' & B); [exists a; split; [|auto]; destruct (Nat.eq_dec a b) as [->|]; [congruence|lia]|]. exists a'. split; [lia|]. split; [auto|]. intros q Q. destruct (Nat.eq_dec q b) as [->|]; [congruence|apply B; lia].
Qed.
Lemma segmented_times : forall time cost rnd window track prev next, segmented time cost rnd window track prev next ->
  forall b a t, a < b -> nth_error track a = Some t -> nth_error track b = Some t -> forall ta tb, nth_error time a = Some ta -> nth_error time b = Some tb -> (ta < tb)%Z.
Proof.
  intros time cost rnd window track prev next (LT & _ & _ & NX & _ & _ & SEG & _). induction b as [b IH] using lt_wf_ind. intros a t L A B ta tb TA TB.
  destruct (last_before track t b) as (q & QB & Q & NB); [eauto|]. destruct (proj1 (SEG q b QB)) as [_ LK]; [eauto|]. apply NX in LK as (tq & tb' & TQ & TB' & R & _). rewrite TB in TB'. injection TB' as <-.
  destruct (Nat.lt_trichotomy a q) as [X|[X|X]].
  - specialize (IH q QB a t X A Q ta tq TA TQ). lia.
  - subst q. rewrite TA in TQ. injection TQ as <-. lia.
  - exfalso. apply (NB a); [lia|auto].
Qed.
Theorem C29_one_per_date : forall meet overlap rnd time window s,
  time <> [] -> zsorted time -> (forall i j, (0 <= overlap i j)%Q) -> rounding rnd ->
  set_tracks meet overlap rnd time window (ids_init (length time)) = Some s ->
  forall a b t ta tb, a < b -> nth_error (i_track s) a = Some t -> nth_error (i_track s) b = Some t -> nth_error time a = Some ta -> nth_error time b = Some tb -> (ta < tb)%Z.
Proof.
  intros meet overlap rnd time window s NE SO NN RN E a b t ta tb L A B TA TB. destruct (C29_group meet overlap rnd time window NE SO NN RN) as (s' & E' & S). rewrite E in E'. injection E' as <-.
  eapply (segmented_times _ _ _ _ _ _ _ S b a t); eauto.
Qed.
Print Assumptions C29_one_per_date.

(** A group of seven observations on four dates: 0 is followed by 1, 1 by 3;
    2 starts on the second date and overlaps 3 more than 1 does, so that it
    takes the end of the first segment; 4 comes from 2; 5 and 6 follow 3 and 4. *)
Definition example_meet (i j : nat) : bool := negb (i =? j).
Definition example_pairs : list (nat * nat * Q) := [(0, 1, (1 # 2)%Q); (1, 3, (1 # 4)%Q); (2, 3, (3 # 4)%Q); (4, 2, (1 # 3)%Q); (3, 5, (1 # 2)%Q); (4, 6, (1 # 2)%Q)].
Definition example_overlap (i j : nat) : Q :=
  match find (fun p => (fst (fst p) =? i) && (snd (fst p) =? j)) example_pairs with Some p => snd p | None => 0%Q end.
Lemma example_overlap_pos : forall i j, (0 <= example_overlap i j)%Q.
Proof.
  intros i j. unfold example_overlap. destruct (find _ example_pairs) as [p|] eqn:F; [|lra]. apply find_some in F as [I _].
  simpl in I. repeat destruct I as [<-|I]; try destruct I; cbn; lra.
Qed.
Lemma id_rounding : rounding (fun x => x).
Proof. split; [auto|]. split; [reflexivity|auto]. Qed.
Definition example_steps : list Z := [0; 1; 1; 2; 2; 3; 3]%Z.
Lemma example_steps_sorted : zsorted example_steps.
Proof.
  intros i j a b L A B. do 7 (destruct i as [|i]; [injection A as <-; do 7 (destruct j as [|j]; [injection B as <-; lia|]); destruct j; discriminate|]). destruct i; discriminate.
Qed.
Example C29_example : example_steps <> [] /\ zsorted example_steps /\ (forall i j, (0 <= example_overlap i j)%Q) /\ rounding (fun x => x) /\
  option_map (fun s => (i_track s, i_prev s, i_next s)) (set_tracks example_meet example_overlap (fun x => x) example_steps 2 (ids_init 7)) =
    Some ([1; 1; 2; 2; 3; 2; 3], [None; Some 0; None; Some 2; Some 2; Some 3; Some 4], [Some 1; Some 3; Some 3; Some 5; Some 6; None; None]).
Proof. split; [discriminate|]. split; [apply example_steps_sorted|]. split; [apply example_overlap_pos|]. split; [apply id_rounding|]. vm_compute. reflexivity. Qed.

(** The whole dataset: each group is split alone, the links are rows of the
    dataset; observations without group (0) are left alone. *)
Theorem C29_split_network : forall meet overlap rnd window tracks time dt,
  length time = length tracks -> nsorted tracks -> timestep_of time = Some dt ->
  (forall i j a b g, i < j -> nth_error tracks i = Some g -> nth_error tracks j = Some g -> nth_error time i = Some a -> nth_error time j = Some b -> (a <= b)%Q) ->
  (forall i j, (0 <= overlap i j)%Q) -> rounding rnd ->
  let steps := map (fun t => trunc (t / dt)) time in
  exists s, split_network meet overlap rnd window tracks time = Some (map (fun z => inject_Z z * dt)%Q steps, s) /\
    length (i_track s) = length tracks /\ length (i_prev s) = length tracks /\ length (i_next s) = length tracks /\
    (forall r, nth_error tracks r = Some 0 -> nth_error (i_track s) r = Some 0 /\ nth_error (i_prev s) r = Some None /\ nth_error (i_next s) r = Some None) /\
    (forall g a b, g <> 0 -> a < b -> (forall k, a <= k < b <-> nth_error tracks k = Some g) ->
       exists prev next, segmented (slice steps a b) (fun i j => overlap_cost meet overlap (a + i) (a + j)) rnd window (slice (i_track s) a b) prev next /\
         slice (i_prev s) a b = map (option_map (fun k => k + a)) prev /\ slice (i_next s) a b = map (option_map (fun k => k + a)) next).
Proof.
  intros meet overlap rnd window tracks time dt LT NS TS SO NN RN steps. destruct (split_network_spec meet overlap rnd window tracks time dt LT NS TS SO NN RN) as (s & E & (W1 & _ & _ & W4 & W5) & Z & G).
  exists s. split; [auto|]. split; [auto|]. split; [auto|]. split; [auto|]. split; [auto|]. exact G.
Qed.
Print Assumptions C29_split_network.
(** The step is positive and exists as soon as there are two dates. *)
Theorem C29_timestep : forall time t t', In t time -> In t' time -> ~ (t == t')%Q -> exists dt, timestep_of time = Some dt /\ (0 < dt)%Q.
Proof. intros time t t' I I' N. destruct (timestep_Some time t t' I I' N) as (dt & E). exists dt. split; [auto|]. eapply timestep_pos; eauto. Qed.
Print Assumptions C29_timestep.
Example C29_split_example :
  let tracks := [0; 3; 3; 3; 5; 5] in let time := [10; 10; 11; 12; 11; 12]%Q in
  nsorted tracks /\ timestep_of time = Some (2 # 2)%Q /\
  option_map (fun r => (i_track (snd r), i_prev (snd r), i_next (snd r))) (split_network example_meet (fun _ _ => 1 # 2)%Q (fun x => x) 1 tracks time) =
    Some ([0; 1; 1; 1; 1; 1], [None; None; Some 1; Some 2; None; Some 4], [None; Some 2; Some 3; None; Some 5; None]).
Proof.
  cbv zeta. split; [|split; vm_compute; reflexivity]. intros i j a b L A B.
  do 6 (destruct i as [|i]; [injection A as <-; do 6 (destruct j as [|j]; [injection B as <-; lia|]); destruct j; discriminate|]). destruct i; discriminate.
Qed.
(** The dates returned are whole numbers of steps: they differ from the dates
    given when these are not. *)
Theorem C29_dates_refuted : option_map (fun r => map Qred (fst r)) (split_network example_meet (fun _ _ => 1 # 2)%Q (fun x => x) 1 [1; 1; 1] [1 # 2; 3 # 2; 5 # 2]%Q) = Some [0; 1; 2]%Q.
Proof. vm_compute. reflexivity. Qed.
Print Assumptions C29_dates_refuted.
