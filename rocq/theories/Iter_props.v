(** Property C127: tracks of a dataset one by one, and the tables kept by the object. *)
From Coq Require Import List Arith ZArith Bool QArith Lia Lqa Sorted.
Import ListNotations.
From Verif Require Import Base Qaux Spec Corr_model Obs_model Obs_more TrackObs_model TrackObs_spec TrackObs_proofs TrackObs_more Match_props Iter_model.
Local Close Scope Q_scope.
Local Open Scope nat_scope.

(** ** Specification *)
(** The rows of track [t], in their order. *)
Definition rows_of {A} (t : nat) (l : list (nat * A)) : list (nat * A) := filter (fun r => fst r =? t) l.
Definition numbers {A} (l : list (nat * A)) : list nat := map fst l.
(** The tables kept, if any, are those of the rows. *)
Definition up_to_date {A} (d : ds A) : Prop :=
  (forall t, tables d = Some t -> TrackObs_model.compute_index (numbers (rows d)) = Some t) /\
  (forall n, nbt d = Some n -> exists d', nb_tracks (fresh (rows d)) = Some (n, d')).

Lemma slice_filter : forall {X} (P : X -> bool) l a b, (forall i x, nth_error l i = Some x -> (P x = true <-> a <= i < b)) -> Base.slice l a b = filter P l.
Proof.
  intros X P. unfold Base.slice. induction l as [|x l IH]; intros a b H.
  - rewrite skipn_nil, firstn_nil. reflexivity.
  - cbn [filter]. pose proof (H 0 x eq_refl) as H0. assert (T : forall a' b', (forall i, a' <= i < b' <-> a <= S i < b) -> forall i y, nth_error l i = Some y -> (P y = true <-> a' <= i < b')) by (intros a' b' E i y Hy; rewrite E; apply (H (S i) y Hy)).
    destruct a as [|a].
    + destruct b as [|b].
      * assert (F : P x = false) by (destruct (P x); [exfalso; destruct (proj1 H0 eq_refl); lia|reflexivity]). rewrite F. cbn [Nat.sub firstn]. rewrite <- (IH 0 0); [reflexivity|]. apply T. intros; lia.
      * assert (F : P x = true) by (apply H0; lia). rewrite F. cbn [Nat.sub skipn firstn]. f_equal. rewrite <- (IH 0 b); [rewrite Nat.sub_0_r; reflexivity|]. apply T. intros; lia.
    + assert (F : P x = false) by (destruct (P x); [exfalso; destruct (proj1 H0 eq_refl); lia|reflexivity]). rewrite F. cbn [skipn]. destruct b as [|b].
      * cbn [Nat.sub firstn]. rewrite <- (IH a a); [rewrite Nat.sub_diag; reflexivity|]. apply T. intros; lia.
      * cbn [Nat.sub]. apply IH. apply T. intros; lia.
Qed.
Lemma rows_count : forall {A} t (l : list (nat * A)), length (rows_of t l) = count t (numbers l).
Proof. induction l as [|[u a] l IH]; [reflexivity|]. unfold rows_of, numbers in *. cbn [filter fst map]. rewrite count_cons. destruct (Nat.eqb_spec u t); cbn [length]; rewrite IH; lia. Qed.

(** The slice of a track present. *)
Lemma index_slice_track : forall {A} (l : list (nat * A)) t f, In t (numbers l) -> (0 <= f)%Z ->
  (forall i, nth_error (numbers l) i = Some t <-> (f <= Z.of_nat i < f + Z.of_nat (count t (numbers l)))%Z) ->
  index_slice l f (count t (numbers l)) = Some (rows_of t l) /\ Base.slice l (Z.to_nat f) (Z.to_nat (f + Z.of_nat (count t (numbers l)))) = rows_of t l.
Proof.
  intros A l t f I F H. set (c := count t (numbers l)) in *.
  assert (C : c <> 0) by (intros C; apply count_0 in C; contradiction).
  assert (E : (f + Z.of_nat c <= Z.of_nat (length l))%Z). { assert (X : nth_error (numbers l) (Z.to_nat (f + Z.of_nat c - 1)) = Some t) by (apply H; lia). apply nth_error_Some_lt in X. unfold numbers in X. rewrite map_length in X. lia. }
  assert (SL : Base.slice l (Z.to_nat f) (Z.to_nat (f + Z.of_nat c)) = rows_of t l).
  { apply slice_filter. intros i x Hx. assert (N : nth_error (numbers l) i = Some (fst x)) by (unfold numbers; rewrite nth_error_map, Hx; reflexivity). rewrite Nat.eqb_eq. split.
    - intros X. rewrite X in N. apply H in N. lia.
    - intros X. assert (Y : nth_error (numbers l) i = Some t) by (apply H; lia). congruence. }
  split; [|exact SL]. unfold index_slice, pybound. destruct (Z.ltb_spec f 0); [lia|]. destruct (Z.ltb_spec (f + Z.of_nat c) 0); [lia|]. rewrite !Nat.min_l by lia. rewrite SL. rewrite rows_count. fold c. rewrite Nat.eqb_refl. reflexivity.
Qed.

Definition present {A} (l : list (nat * A)) : list nat := filter (fun t => negb (count t (numbers l) =? 0)) (seq 0 (S (list_max (numbers l)))).
Lemma present_sorted : forall {A} (l : list (nat * A)), StronglySorted lt (present l).
Proof. intros A l. unfold present. generalize (fun t => negb (count t (numbers l) =? 0)) as P. intros P. generalize (S (list_max (numbers l))) as n. intros n. generalize 0 as a. induction n as [|n IH]; intros a; [constructor|]. cbn [seq filter]. specialize (IH (S a)). destruct (P a); [|exact IH]. constructor; [exact IH|]. apply Forall_forall. intros x X. apply filter_In in X as [X _]. apply in_seq in X. lia. Qed.
Lemma present_In : forall {A} (l : list (nat * A)) t, In t (present l) <-> In t (numbers l).
Proof. intros A l t. unfold present. rewrite filter_In, in_seq, negb_true_iff, Nat.eqb_neq. split. - intros [_ C]. destruct (in_dec Nat.eq_dec t (numbers l)) as [I|I]; [exact I|]. exfalso. apply C, count_0, I. - intros I. split; [apply list_max_ge in I; lia|]. intros C. apply count_0 in C. contradiction. Qed.

Lemma filter_map_swap : forall {X Y} (f : X -> Y) (p : Y -> bool) l, filter p (map f l) = map f (filter (fun x => p (f x)) l).
Proof. induction l as [|x l IH]; [reflexivity|]. cbn [map filter]. rewrite IH. destruct (p (f x)); reflexivity. Qed.

Section Grouped.
Context {A : Type}.
Variable l : list (nat * A).
Hypothesis NE : l <> [].
Hypothesis G : grouped (numbers l).
Lemma tables_l : exists index number, TrackObs_model.compute_index (numbers l) = Some (index, number) /\ TrackObs_proofs.tables (S (list_max (numbers l))) (numbers l) index number.
Proof. apply compute_index_spec; [|exact G]. intros E. unfold numbers in E. apply map_eq_nil in E. contradiction. Qed.
Lemma combine_seq : forall index number, TrackObs_proofs.tables (S (list_max (numbers l))) (numbers l) index number ->
  combine index number = map (fun t => (nth t index (-1)%Z, count t (numbers l))) (seq 0 (S (list_max (numbers l)))).
Proof.
  intros index number (L1 & L2 & T). apply nth_error_ext. intros i. rewrite nth_error_map. destruct (Nat.ltb_spec i (S (list_max (numbers l)))) as [I|I].
  - destruct (T i I) as (N & f & F & _). rewrite nth_error_seq. destruct (Nat.ltb_spec i (S (list_max (numbers l)))) as [_|?]; [|lia]. cbn [option_map Nat.add]. rewrite (nth_error_nth _ _ (-1)%Z F). revert N F. generalize (count i (numbers l)) as c. clear. intros c N F. revert i number N F. induction index as [|u index IH]; intros [|i] [|v number] N F; try discriminate; cbn [combine nth_error] in *. + congruence. + apply IH; assumption.
  - rewrite (proj2 (nth_error_None _ _)) by (rewrite combine_length; lia). rewrite (proj2 (nth_error_None _ _)) by (rewrite seq_length; lia). reflexivity.
Qed.

Lemma iter_value : forall t, TrackObs_model.compute_index (numbers l) = Some t ->
  sequence (map (fun q => index_slice l (fst q) (snd q)) (filter (fun q => negb (snd q =? 0)) (combine (fst t) (snd t)))) = Some (map (fun k => rows_of k l) (present l)).
Proof.
  intros t E. destruct tables_l as (index & number & E' & T). rewrite E in E'. apply Some_inj in E'. subst t. cbn [fst snd]. rewrite (combine_seq _ _ T). rewrite filter_map_swap. rewrite map_map. cbn [fst snd]. fold (present l). apply seq_some. intros k K. apply present_In in K.
  destruct T as (_ & _ & T). assert (B : k < S (list_max (numbers l))) by (apply list_max_ge in K; lia). destruct (T k B) as (_ & f & F & _ & F0 & FI). rewrite (nth_error_nth _ _ (-1)%Z F). apply index_slice_track; [exact K| |exact FI]. apply F0. intros C. apply count_0 in C. contradiction.
Qed.
Lemma count_value : forall t, TrackObs_model.compute_index (numbers l) = Some t -> length (filter (fun k => negb (k =? 0)) (snd t)) = length (present l).
Proof.
  intros t E. destruct tables_l as (index & number & E' & T). rewrite E in E'. apply Some_inj in E'. subst t. cbn [snd]. pose proof (number_counts _ _ _ _ T) as EN. rewrite EN. rewrite filter_map_swap, map_length. reflexivity.
Qed.
End Grouped.

(** ** Property C127 *)
(** All the rows of each track present, by increasing number, each row in its order; the
    number of tracks; bounds of a track, of an absent number, of a number over the greatest
    one, of a negative number (counted from the greatest one). *)
Theorem C127_tracks : forall {A} (l : list (nat * A)), l <> [] -> grouped (numbers l) ->
  exists ts, StronglySorted lt ts /\ (forall t, In t ts <-> In t (numbers l)) /\
    option_map fst (iter_track (fresh l)) = Some (map (fun t => rows_of t l) ts) /\
    option_map fst (nb_tracks (fresh l)) = Some (length ts) /\
    (forall t, In t ts -> exists a b, option_map fst (track_slice (fresh l) (Z.of_nat t)) = Some (Z.of_nat a, Z.of_nat b) /\ b <= length l /\ Base.slice l a b = rows_of t l) /\
    (forall t, ~ In t ts -> t <= list_max (numbers l) -> option_map fst (track_slice (fresh l) (Z.of_nat t)) = Some (-1, -1)%Z) /\
    (forall t, list_max (numbers l) < t -> track_slice (fresh l) (Z.of_nat t) = None) /\
    (forall t, t <= list_max (numbers l) -> track_slice (fresh l) (Z.of_nat t - Z.of_nat (S (list_max (numbers l)))) = track_slice (fresh l) (Z.of_nat t)).
Proof.
  intros A l NE G. exists (present l). split; [apply present_sorted|]. split; [apply present_In|]. destruct (tables_l l NE G) as (index & number & E & T).
  assert (CT : compute_tables (fresh l) = Some ((index, number), Ds l (Some (index, number)) None)). { unfold compute_tables, fresh. cbn [Iter_model.tables rows nbt]. unfold numbers in E. rewrite E. reflexivity. }
  split. { unfold iter_track. rewrite CT. cbn [bind fst snd rows fresh]. pose proof (iter_value l NE G (index, number) E) as V. cbn [fst snd] in V. rewrite V. reflexivity. }
  split. { unfold nb_tracks. cbn [nbt fresh rows]. destruct (Nat.eqb_spec (length l) 0) as [Z|_]; [apply length_zero_iff_nil in Z; contradiction|]. rewrite CT. pose proof (count_value l NE G (index, number) E) as V. cbn [bind fst snd option_map] in *. rewrite V. reflexivity. }
  pose proof T as (L1 & L2 & TT). set (m := list_max (numbers l)) in *.
  assert (PG : forall {X} (v : list X) t, length v = S m -> t <= m -> pyget v (Z.of_nat t) = nth_error v t). { intros X v t L B. unfold pyget, pyidx. rewrite L. destruct (Z.leb_spec 0 (Z.of_nat t)); [|lia]. destruct (Z.ltb_spec (Z.of_nat t) (Z.of_nat (S m))); [|lia]. cbn [bind]. rewrite Nat2Z.id. reflexivity. }
  assert (PN : forall {X} (v : list X) t, length v = S m -> t <= m -> pyget v (Z.of_nat t - Z.of_nat (S m)) = nth_error v t). { intros X v t L B. unfold pyget, pyidx. rewrite L. destruct (Z.leb_spec 0 (Z.of_nat t - Z.of_nat (S m))); [lia|]. destruct (Z.leb_spec (- Z.of_nat (S m)) (Z.of_nat t - Z.of_nat (S m))); [|lia]. cbn [bind]. f_equal. lia. }
  assert (SL : forall t z, t <= m -> (z = Z.of_nat t \/ z = (Z.of_nat t - Z.of_nat (S m))%Z) -> exists f, nth_error index t = Some f /\ track_slice (fresh l) z = Some ((f, (f + Z.of_nat (count t (numbers l)))%Z), Ds l (Some (index, number)) None) /\ (count t (numbers l) = 0 -> f = (-1)%Z) /\ (count t (numbers l) <> 0 -> (0 <= f)%Z) /\ forall i, nth_error (numbers l) i = Some t <-> (f <= Z.of_nat i < f + Z.of_nat (count t (numbers l)))%Z).
  { intros t z B D. destruct (TT t ltac:(lia)) as (N & f & F & F1 & F2 & F3). exists f. split; [exact F|]. split; [|split; [exact F1|split; [exact F2|exact F3]]]. unfold track_slice. rewrite CT. cbn [bind fst snd]. destruct D as [->| ->]; [rewrite !PG by lia|rewrite !PN by lia]; rewrite F, N; reflexivity. }
  split; [|split; [|split]].
  - intros t I. apply present_In in I. pose proof (list_max_ge _ _ I) as B. destruct (SL t (Z.of_nat t) ltac:(unfold m; lia) (or_introl eq_refl)) as (f & _ & -> & _ & F2 & F3). assert (F0 : (0 <= f)%Z) by (apply F2; intros C; apply count_0 in C; contradiction).
    exists (Z.to_nat f), (Z.to_nat (f + Z.of_nat (count t (numbers l)))). cbn [option_map fst]. split; [f_equal; f_equal; lia|]. destruct (index_slice_track l t f I F0 F3) as [_ S2]. split; [|exact S2].
    assert (X : nth_error (numbers l) (Z.to_nat (f + Z.of_nat (count t (numbers l)) - 1)) = Some t). { assert (C : count t (numbers l) <> 0) by (intros C; apply count_0 in C; contradiction). apply F3. lia. } apply nth_error_Some_lt in X. unfold numbers in X at 2. rewrite map_length in X. lia.
  - intros t I B. destruct (SL t (Z.of_nat t) ltac:(lia) (or_introl eq_refl)) as (f & _ & -> & F1 & _). assert (C : count t (numbers l) = 0) by (apply count_0; intros X; apply I, present_In, X). rewrite (F1 C), C. reflexivity.
  - intros t B. unfold track_slice. rewrite CT. cbn [bind fst snd]. unfold pyget, pyidx. rewrite L1. destruct (Z.leb_spec 0 (Z.of_nat t)); [|lia]. destruct (Z.ltb_spec (Z.of_nat t) (Z.of_nat (S m))); [lia|]. reflexivity.
  - intros t B. destruct (SL t (Z.of_nat t - Z.of_nat (S m))%Z ltac:(lia) (or_intror eq_refl)) as (f & Ef & -> & _). destruct (SL t (Z.of_nat t) ltac:(lia) (or_introl eq_refl)) as (f' & Ef' & -> & _). congruence.
Qed.
Print Assumptions C127_tracks.

(** Whatever has been asked before: as long as the rows do not change the answers are those
    of a new object, and stay so. *)
Theorem C127_kept : forall {A} (d : ds A), up_to_date d ->
  (forall r d', iter_track d = Some (r, d') -> option_map fst (iter_track (fresh (rows d))) = Some r /\ up_to_date d' /\ rows d' = rows d) /\
  (forall z r d', track_slice d z = Some (r, d') -> option_map fst (track_slice (fresh (rows d)) z) = Some r /\ up_to_date d' /\ rows d' = rows d) /\
  (forall n d', nb_tracks d = Some (n, d') -> option_map fst (nb_tracks (fresh (rows d))) = Some n /\ up_to_date d' /\ rows d' = rows d).
Proof.
  intros A d [U1 U2].
  assert (CT : forall t d', compute_tables d = Some (t, d') -> compute_tables (fresh (rows d)) = Some (t, Ds (rows d) (Some t) None) /\ up_to_date d' /\ rows d' = rows d).
  { intros t d' E. unfold compute_tables in E. unfold compute_tables, fresh. cbn [Iter_model.tables rows nbt]. destruct (Iter_model.tables d) as [t0|] eqn:TD.
    - injection E as -> <-. change (map fst (rows d)) with (numbers (rows d)). rewrite (U1 t eq_refl). split; [reflexivity|]. split; [split; [intros t' X; rewrite TD in X; exact (U1 t' X)|exact U2]|reflexivity].
    - change (map fst (rows d)) with (numbers (rows d)) in *. destruct (TrackObs_model.compute_index (numbers (rows d))) as [t0|] eqn:CI; [|discriminate]. cbn [bind] in *. injection E as <- <-. split; [reflexivity|]. split; [|reflexivity]. split; cbn [Iter_model.tables rows nbt]; [|exact U2]. intros t' E'. rewrite <- E'. exact CI. }
  split; [|split].
  - intros r d' E. unfold iter_track in *. destruct (compute_tables d) as [[t dt]|]; [|discriminate]. destruct (CT t dt eq_refl) as (-> & U & R). cbn [bind fst snd rows fresh] in *. destruct (sequence _) as [r0|]; [|discriminate]. cbn [bind] in *. injection E as <- <-. split; [reflexivity|]. split; assumption.
  - intros z r d' E. unfold track_slice in *. destruct (compute_tables d) as [[t dt]|]; [|discriminate]. destruct (CT t dt eq_refl) as (-> & U & R). cbn [bind fst snd rows fresh] in *. destruct (pyget (fst t) z) as [i0|]; [|discriminate]. cbn [bind] in *. destruct (pyget (snd t) z) as [nb|]; [|discriminate]. cbn [bind] in *. injection E as <- <-. split; [reflexivity|]. split; assumption.
  - intros n d' E. assert (E0 := E). unfold nb_tracks in E. destruct (nbt d) as [k|] eqn:ND.
    + injection E as -> <-. destruct (U2 n eq_refl) as [d2 E2]. rewrite E2. split; [reflexivity|]. split; [split; [assumption|intros n' X; rewrite ND in X; apply U2, X]|reflexivity].
    + assert (GO : option_map fst (nb_tracks (fresh (rows d))) = Some n /\ (forall t, Iter_model.tables d' = Some t -> TrackObs_model.compute_index (numbers (rows d)) = Some t) /\ rows d' = rows d /\ nbt d' = Some n).
      { unfold nb_tracks. cbn [nbt fresh rows Iter_model.tables]. destruct (length (rows d) =? 0) eqn:Z.
        - injection E as <- <-. cbn [rows Iter_model.tables nbt option_map fst]. repeat split; try reflexivity. exact U1.
        - destruct (compute_tables d) as [[t dt]|]; [|discriminate]. destruct (CT t dt eq_refl) as (E1 & [V1 V2] & R). change (Ds (rows d) None None) with (fresh (rows d)). rewrite E1. cbn [bind fst snd option_map] in *. injection E as <- <-. cbn [rows Iter_model.tables nbt]. split; [reflexivity|]. split; [rewrite <- R; exact V1|]. split; [exact R|reflexivity]. }
      destruct GO as (G1 & G2 & G3 & G4). split; [exact G1|]. split; [|exact G3]. split; rewrite G3; [exact G2|]. intros n' X. rewrite G4 in X. injection X as <-. destruct (nb_tracks (fresh (rows d))) as [[n2 d2]|]; [|discriminate]. cbn in G1. injection G1 as ->. exists d2. reflexivity.
Qed.
Print Assumptions C127_kept.

(** After [append] the tables kept are still those of the former rows: the new ones are never
    seen. *)
Theorem C127_stale_refuted : forall {A} blank (d d' : ds A) other,
  append blank d other = Some d' -> rows d <> [] ->
  rows d' = rows d ++ other /\
  (Iter_model.tables d <> None -> grouped (numbers (rows d)) -> up_to_date d -> option_map fst (iter_track d') = option_map fst (iter_track d) /\ forall z, option_map fst (track_slice d' z) = option_map fst (track_slice d z)) /\
  (nbt d <> None -> option_map fst (nb_tracks d') = option_map fst (nb_tracks d)).
Proof.
  intros A blank d d' other E NE. unfold append in E. destruct (rows d) as [|r0 rl] eqn:RD; [congruence|].
  assert (I : insert_observations blank (r0 :: rl) other (-1) = Some ((r0 :: rl) ++ other)).
  { destruct other as [|o other]; [rewrite app_nil_r; reflexivity|]. rewrite (insert_spec blank (r0 :: rl) (o :: other) (-1)) by (cbn [length]; lia). cbn zeta. cbn [Z.ltb Z.compare]. rewrite firstn_all2 by (cbn [length]; lia). rewrite skipn_all2 by (cbn [length]; lia). rewrite app_nil_r. reflexivity. }
  rewrite I in E. cbn [bind] in E. injection E as <-. cbn [rows Iter_model.tables nbt]. split; [reflexivity|]. split.
  - intros TN G U. destruct (Iter_model.tables d) as [t|] eqn:TD; [|congruence]. destruct U as [U _]. specialize (U t TD). rewrite RD in U. split.
    + unfold iter_track, compute_tables. cbn [Iter_model.tables rows]. rewrite TD. cbn [bind fst snd]. rewrite RD.
      rewrite (iter_value (r0 :: rl) NE G t U). destruct (tables_l (r0 :: rl) NE G) as (index & number & E' & T). rewrite U in E'. apply Some_inj in E'. subst t. cbn [fst snd].
      rewrite (combine_seq _ _ _ T), filter_map_swap, map_map. cbn [fst snd]. fold (present (r0 :: rl)). rewrite (seq_some _ (fun k => rows_of k (r0 :: rl))); [reflexivity|]. intros k K. apply present_In in K.
      destruct T as (_ & _ & T). assert (B : k < S (list_max (numbers (r0 :: rl)))) by (apply list_max_ge in K; lia). destruct (T k B) as (_ & f & F & _ & F0 & FI). rewrite (nth_error_nth _ _ (-1)%Z F). assert (C0 : count k (numbers (r0 :: rl)) <> 0) by (intros C; apply count_0 in C; contradiction). specialize (F0 C0).
      destruct (index_slice_track (r0 :: rl) k f K F0 FI) as [_ S2]. set (l := r0 :: rl) in *. set (c := count k (numbers l)) in *.
      assert (LE : (f + Z.of_nat c <= Z.of_nat (length l))%Z). { assert (X : nth_error (numbers l) (Z.to_nat (f + Z.of_nat c - 1)) = Some k) by (apply FI; lia). apply nth_error_Some_lt in X. unfold numbers in X. rewrite map_length in X. lia. }
      change (r0 :: rl ++ other) with (l ++ other). unfold index_slice, pybound. rewrite app_length. destruct (Z.ltb_spec f 0); [lia|]. destruct (Z.ltb_spec (f + Z.of_nat c) 0); [lia|]. rewrite !Nat.min_l by lia.
      assert (SA : Base.slice (l ++ other) (Z.to_nat f) (Z.to_nat (f + Z.of_nat c)) = Base.slice l (Z.to_nat f) (Z.to_nat (f + Z.of_nat c))). { unfold Base.slice. rewrite skipn_app, firstn_app. rewrite skipn_length. replace (Z.to_nat (f + Z.of_nat c) - Z.to_nat f - (length l - Z.to_nat f)) with 0 by lia. cbn [firstn]. apply app_nil_r. }
      rewrite SA, S2, rows_count. fold c. rewrite Nat.eqb_refl. reflexivity.
    + intros z. unfold track_slice, compute_tables. cbn [Iter_model.tables rows]. rewrite TD. cbn [bind fst snd]. destruct (pyget (fst t) z); [|reflexivity]. cbn [bind]. destruct (pyget (snd t) z); reflexivity.
  - intros N. unfold nb_tracks. cbn [nbt]. destruct (nbt d); [reflexivity|congruence].
Qed.
Print Assumptions C127_stale_refuted.

(** An empty dataset has no track, cannot be iterated; once asked, the number of tracks stays
    0 whatever is appended. *)
Theorem C127_empty_refuted : forall {A} blank (other : list (nat * A)),
  iter_track (@fresh A []) = None /\ (forall z, track_slice (@fresh A []) z = None) /\
  exists d d' d2, nb_tracks (@fresh A []) = Some (0, d) /\ append blank d other = Some d' /\ rows d' = other /\ nb_tracks d' = Some (0, d2).
Proof.
  intros A blank other. split; [reflexivity|]. split; [reflexivity|]. exists (Ds [] None (Some 0)), (Ds other None (Some 0)), (Ds other None (Some 0)). repeat split; reflexivity.
Qed.
Print Assumptions C127_empty_refuted.

(** Age: the rank over the last rank, in percent; no value for a track of one row. *)
Theorem C127_age : forall {A} (n : A -> Z) (l : list (nat * A)), l <> [] -> nsorted (numbers l) ->
  exists r, age n (fresh l) = Some r /\ length r = length l /\
    forall i t a, nth_error l i = Some (t, a) ->
      let c := count t (numbers l) in
      (c = 1 -> nth_error r i = Some None) /\
      (c > 1 -> (0 <= n a <= Z.of_nat c - 1)%Z -> exists v, nth_error r i = Some (Some v) /\ (0 <= v <= 100)%Q /\ (v == 0 <-> n a = 0%Z)%Q /\ (v == 100 <-> n a = (Z.of_nat c - 1)%Z)%Q /\ (v * inject_Z (Z.of_nat c - 1) == inject_Z (n a) * 100)%Q).
Proof.
  intros A n l NE S. assert (NN : numbers l <> []) by (intros E; apply map_eq_nil in E; contradiction). destruct (lifetime_spec (numbers l) NN S) as (r & E & L & V). unfold lifetime in E. unfold age, compute_tables, fresh. cbn [Iter_model.tables rows nbt]. change (map fst l) with (numbers l). destruct (TrackObs_model.compute_index (numbers l)) as [t0|]; [|discriminate]. cbn [bind fst snd] in *. apply Some_inj in E. rewrite E.
  unfold numbers in L at 1. rewrite map_length in L. rewrite L, Nat.eqb_refl. eexists. split; [reflexivity|]. split; [rewrite map_length, combine_length; lia|].
  intros i t a Hi. cbn zeta. set (c := count t (numbers l)). assert (Hn : nth_error (numbers l) i = Some t) by (unfold numbers; rewrite nth_error_map, Hi; reflexivity). specialize (V i t Hn). fold c in V.
  assert (Hc : nth_error (combine l r) i = Some ((t, a), c)). { clearbody c. clear E L Hn. revert i r Hi V. clear. induction l as [|x l IH]; intros [|i] [|y r] Hi V; try discriminate; cbn [combine nth_error] in *; [congruence|]. apply IH; assumption. }
  rewrite nth_error_map, Hc. cbn [option_map fst snd]. split.
  - intros C. rewrite C. reflexivity.
  - intros C R. destruct (Z.eqb_spec (Z.of_nat c - 1) 0) as [Z|Z]; [lia|]. eexists. split; [reflexivity|]. set (k := (Z.of_nat c - 1)%Z) in *. assert (K : (0 < inject_Z k)%Q) by (change 0%Q with (inject_Z 0); rewrite inject_Z_lt_iff; lia).
    assert (E1 : (inject_Z (n a) / inject_Z k * 100 * inject_Z k == inject_Z (n a) * 100)%Q) by (field; lra). set (v := (inject_Z (n a) / inject_Z k * 100)%Q) in *.
    assert (N0 : (0 <= inject_Z (n a))%Q) by (change 0%Q with (inject_Z 0); rewrite <- Zle_Qle; lia). assert (N1 : (inject_Z (n a) <= inject_Z k)%Q) by (rewrite <- Zle_Qle; lia).
    split; [split; [apply (Qmult_le_r 0 v (inject_Z k) K); lra|apply (Qmult_le_r v 100 (inject_Z k) K); lra]|]. split; [|split; [|exact E1]].
    + split; intros X. * rewrite X in E1. assert (Y : (inject_Z (n a) == inject_Z 0)%Q) by (change (inject_Z 0) with 0%Q; lra). apply (proj1 (inject_Z_injective _ _)) in Y. exact Y. * unfold v. rewrite X. field. lra.
    + split; intros X. * rewrite X in E1. assert (Y : (inject_Z (n a) == inject_Z k)%Q) by lra. apply (proj1 (inject_Z_injective _ _)) in Y. exact Y. * unfold v. rewrite X. field. lra.
Qed.
Print Assumptions C127_age.

(** A case: tracks 5, 2 and 0, grouped but not in order. *)
Definition ex_rows : list (nat * nat) := [(5, 10); (5, 11); (2, 20); (0, 30); (0, 31); (0, 32)].
Example C127_case :
  grouped (numbers ex_rows) /\
  option_map fst (iter_track (fresh ex_rows)) = Some [[(0, 30); (0, 31); (0, 32)]; [(2, 20)]; [(5, 10); (5, 11)]] /\
  option_map fst (nb_tracks (fresh ex_rows)) = Some 3 /\
  map (fun z => option_map fst (track_slice (fresh ex_rows) z)) [5; 3; 6; -1; -6; -7]%Z = [Some (0, 2); Some (-1, -1); None; Some (0, 2); Some (3, 6); None]%Z.
Proof.
  split; [|repeat split; reflexivity]. intros i j k t I J. do 6 (destruct i as [|i]; [do 6 (destruct k as [|k]; [try lia; do 5 (destruct j as [|j]; [try lia; cbn; congruence|]); lia|]); destruct k; discriminate|]). destruct i; discriminate.
Qed.
(** Tables asked, then rows appended: not seen. *)
Example C127_case_stale :
  match nb_tracks (fresh ex_rows) with
  | Some (3, d) =>
      match append (0, 0) d [(7, 70); (7, 71)] with
      | Some d' => length (rows d') = 8 /\ option_map fst (nb_tracks d') = Some 3 /\ option_map (fun q => length (fst q)) (iter_track d') = Some 3 /\ option_map fst (nb_tracks (fresh (rows d'))) = Some 4
      | None => False
      end
  | _ => False
  end.
Proof. cbn. repeat split; reflexivity. Qed.
(** Ages of tracks of three, one and two rows. *)
Example C127_case_age :
  option_map (map (option_map Qred)) (age Z.of_nat (fresh [(1, 0); (1, 1); (1, 2); (3, 0); (4, 0); (4, 1)])) = Some [Some 0; Some 50; Some 100; None; Some 0; Some 100]%Q.
Proof. vm_compute. reflexivity. Qed.
