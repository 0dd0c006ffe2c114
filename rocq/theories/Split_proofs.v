From Coq Require Import List Arith ZArith QArith Bool Lia Lqa.
From Verif Require Import Base Spec Qaux Generic_model Generic_proofs Solver_model Solver_proofs TrackObs_model Corr_more Split_model Split_spec.
Import ListNotations.
Local Close Scope Q_scope.
Local Open Scope nat_scope.

Lemma nth_upd : forall {A} (l : list A) i x r d, i < length l -> nth r (upd l i x) d = if r =? i then x else nth r l d.
Proof.
  induction l as [|a l IH]; intros [|i] x [|r] d L; simpl in *; try lia; auto. rewrite IH by lia. auto.
Qed.
Lemma store_lt : forall {A} (l : list A) i x, i < length l -> store l i x = Some (upd l i x).
Proof. intros A l i x L. unfold store. apply Nat.ltb_lt in L. rewrite L. auto. Qed.
Lemma nth_error_nth_lt : forall {A} (l : list A) i d, i < length l -> nth_error l i = Some (nth i l d).
Proof. intros. apply nth_error_nth'. auto. Qed.

(** ** The search of the best candidate *)
Section Search.
Variables (meet : nat -> nat -> bool) (overlap : nat -> nat -> Q).
Hypothesis NN : forall i j, (0 <= overlap i j)%Q.
Definition cost_of (i j : nat) : Q := if meet i j then overlap i j else 0%Q.
Lemma cost_nonneg : forall i j, (0 <= cost_of i j)%Q.
Proof. intros i j. unfold cost_of. destruct (meet i j); [apply NN|lra]. Qed.

Lemma best_at_spec : forall cur i0 i1,
  match best_at meet overlap cur i0 i1 with
  | None => forall k, i0 <= k < i1 -> (cost_of cur k == 0)%Q
  | Some (j, c) => i0 <= j < i1 /\ c = cost_of cur j /\ (0 < c)%Q /\ forall k, i0 <= k < i1 -> (cost_of cur k <= c)%Q /\ (k < j -> (cost_of cur k < c)%Q)
  end.
Proof.
  intros cur i0 i1. unfold best_at. change (fun j => if meet cur j then overlap cur j else 0%Q) with (cost_of cur). destruct (existsb (meet cur) (seq i0 (i1 - i0))) eqn:EX.
  - destruct (argmax (map (cost_of cur) (seq i0 (i1 - i0)))) as [i|] eqn:AM.
    2:{ apply existsb_exists in EX as (x & I & _). destruct (argmax_total (map (cost_of cur) (seq i0 (i1 - i0)))) as [k K]; [|congruence]. destruct (seq i0 (i1 - i0)); [destruct I|discriminate]. }
    cbn [bind]. apply argmax_spec in AM as (c & C & MAX & FST). rewrite C. cbn [bind].
    assert (J : i < i1 - i0 /\ c = cost_of cur (i0 + i)).
    { rewrite nth_error_map, nth_error_seq in C. destruct (Nat.ltb_spec i (i1 - i0)); [|discriminate]. simpl in C. apply Some_inj in C. auto. }
    destruct J as [J CE].
    assert (ALL : forall k, i0 <= k < i1 -> (cost_of cur k <= c)%Q /\ (k < i0 + i -> (cost_of cur k < c)%Q)).
    { intros k K. assert (NK : nth_error (map (cost_of cur) (seq i0 (i1 - i0))) (k - i0) = Some (cost_of cur k)).
      { rewrite nth_error_map, nth_error_seq. destruct (Nat.ltb_spec (k - i0) (i1 - i0)); [|lia]. simpl. do 2 f_equal. lia. }
      split; [apply MAX; eapply nth_error_In; eauto|]. intros L. eapply FST; [|eauto]. lia. }
    destruct (Qeq_bool c 0) eqn:Z.
    + apply Qeq_bool_iff in Z. intros k K. destruct (ALL k K) as [A _]. pose proof (cost_nonneg cur k). lra.
    + apply Qeq_bool_neq in Z. split; [lia|]. split; [auto|]. split; [|auto]. pose proof (cost_nonneg cur (i0 + i)) as P. rewrite <- CE in P. destruct (Qlt_le_dec 0 c); [auto|]. exfalso. apply Z. lra.
  - intros k K. unfold cost_of. destruct (meet cur k) eqn:M; [|reflexivity]. exfalso. assert (X : existsb (meet cur) (seq i0 (i1 - i0)) = true); [|congruence].
    apply existsb_exists. exists k. split; [apply in_seq; lia|auto].
Qed.

Variables (time : list Z) (window : Z) (time_s time_e : list nat) (time_ref : Z).
Hypothesis SORTED : zsorted time.
Hypothesis TABLES : build_index time = Some (time_s, time_e, time_ref).

Lemma tables_spec : length time_e = length time_s /\
  (forall v, In v time -> (time_ref <= v < time_ref + Z.of_nat (length time_s))%Z) /\
  (forall t, (0 <= t < Z.of_nat (length time_s))%Z -> exists a b, pyget time_s t = Some a /\ pyget time_e t = Some b /\ a <= b /\ forall j, a <= j < b <-> nth_error time j = Some (time_ref + t)%Z).
Proof.
  assert (NE : time <> []) by (intros ->; discriminate). destruct (build_index_tile time NE SORTED) as (f & l & i0 & E & L & _ & B & T & _).
  rewrite TABLES in E. injection E as -> -> ->. split; [auto|]. split; [auto|]. intros t R.
  destruct (nth_error_lt_Some f (Z.to_nat t)) as [a A]; [lia|]. destruct (nth_error_lt_Some l (Z.to_nat t)) as [b Bb]; [lia|]. exists a, b.
  split; [rewrite (pyget_nat f t (Z.to_nat t)) by lia; auto|]. split; [rewrite (pyget_nat l t (Z.to_nat t)) by lia; auto|].
  destruct (T _ _ _ A Bb) as [AB TT]. split; [auto|]. intros j. rewrite TT, Z2Nat.id by lia. reflexivity.
Qed.

Lemma search_spec : forall cur steps, (forall t, In t steps -> (0 <= t < Z.of_nat (length time_s))%Z) ->
  exists r, search meet overlap time_s time_e cur steps = Some r /\
    match r with
    | None => forall t k, In t steps -> nth_error time k = Some (time_ref + t)%Z -> (cost_of cur k == 0)%Q
    | Some (j, c) => exists pre t post, steps = pre ++ t :: post /\ nth_error time j = Some (time_ref + t)%Z /\ c = cost_of cur j /\
        best_of_date time cost_of cur j (time_ref + t) /\ forall u k, In u pre -> nth_error time k = Some (time_ref + u)%Z -> (cost_of cur k == 0)%Q
    end.
Proof.
  intros cur. induction steps as [|t steps IH]; intros IN; [exists None; split; [auto|intros t k []]|].
  destruct tables_spec as (_ & _ & TB). destruct (TB t (IN t (or_introl eq_refl))) as (a & b & A & B & AB & ROWS). cbn [search]. rewrite A, B. cbn [bind].
  destruct IH as (r & E & R); [intros; apply IN; right; auto|].
  pose proof (best_at_spec cur a b) as BA. assert (SKIP : (forall k, a <= k < b -> (cost_of cur k == 0)%Q) -> exists r, search meet overlap time_s time_e cur steps = Some r /\
    match r with
    | None => forall t0 k, In t0 (t :: steps) -> nth_error time k = Some (time_ref + t0)%Z -> (cost_of cur k == 0)%Q
    | Some (j, c) => exists pre t0 post, t :: steps = pre ++ t0 :: post /\ nth_error time j = Some (time_ref + t0)%Z /\ c = cost_of cur j /\
        best_of_date time cost_of cur j (time_ref + t0) /\ forall u k, In u pre -> nth_error time k = Some (time_ref + u)%Z -> (cost_of cur k == 0)%Q
    end).
  { intros Z0. exists r. split; [auto|]. destruct r as [[j c]|].
    - destruct R as (pre & u & post & -> & N & C & BD & BEF). exists (t :: pre), u, post. split; [auto|]. split; [auto|]. split; [auto|]. split; [auto|].
      intros v k [<-|I] NK; [apply Z0, ROWS; auto|eauto].
    - intros v k [<-|I] NK; [apply Z0, ROWS; auto|eauto]. }
  destruct (Nat.eqb_spec a b) as [EQ|NE]; [apply SKIP; lia|]. destruct (best_at meet overlap cur a b) as [[j c]|]; [|auto].
  destruct BA as (J & C & P & ALL). exists (Some (j, c)). split; [auto|]. exists [], t, steps. split; [auto|]. split; [apply ROWS; auto|]. split; [auto|]. split; [|intros u k []].
  unfold best_of_date. rewrite <- C. split; [auto|]. intros k NK. apply ALL, ROWS, NK.
Qed.

Lemma In_range_up : forall a b t, In t (range_up a b) <-> (a <= t < b)%Z.
Proof.
  intros a b t. unfold range_up. rewrite in_map_iff. split.
  - intros (k & <- & I). apply in_seq in I. lia.
  - intros R. exists (Z.to_nat (t - a)). split; [lia|]. apply in_seq. lia.
Qed.
Lemma In_range_down : forall a b t, In t (range_down a b) <-> (b < t <= a)%Z.
Proof.
  intros a b t. unfold range_down. rewrite in_map_iff. split.
  - intros (k & <- & I). apply in_seq in I. lia.
  - intros R. exists (Z.to_nat (a - t)). split; [lia|]. apply in_seq. lia.
Qed.
Lemma map_seq_split : forall (f : nat -> Z) n s pre t post, map f (seq s n) = pre ++ t :: post -> exists k, t = f (s + k) /\ pre = map f (seq s k) /\ k < n.
Proof.
  intros f n. induction n as [|n IH]; intros s pre t post E; [destruct pre; discriminate|]. cbn [seq map] in E. destruct pre as [|p pre].
  - injection E as <- _. exists 0. rewrite Nat.add_0_r. split; [auto|]. split; [auto|lia].
  - injection E as <- E. apply IH in E as (k & -> & -> & L). exists (S k). replace (s + S k) with (S s + k) by lia. split; [auto|]. split; [auto|lia].
Qed.

(** Results of the two searches, as functions of the row. *)
Definition next_found (i : nat) : option (nat * Q) :=
  match nth_error time i with
  | None => None
  | Some ti =>
      if (Z.of_nat (length time_e) - 1 <? ti + 1 - time_ref)%Z then None else
      match search meet overlap time_s time_e i (range_up (ti + 1 - time_ref) (Z.min (ti + window - time_ref) (Z.of_nat (length time_e) - 1) + 1)) with Some r => r | None => None end
  end.
Definition prev_found (i : nat) : option (nat * Q) :=
  match nth_error time i with
  | None => None
  | Some ti => match search meet overlap time_s time_e i (range_down (ti - 1 - time_ref) (Z.max (ti - window - time_ref) 0 - 1)) with Some r => r | None => None end
  end.
Definition upd_next (rnd : Q -> Q) (cur : nat) (s : ids) (r : option (nat * Q)) : option (option nat * ids) :=
  match r with
  | None => Some (None, s)
  | Some (target, c_i) =>
      let! c_target := nth_error (i_pcost s) target in
      let! pc :=
        if (negb (Qeq_bool c_target 0) && Qlt_bool c_target c_i) || Qeq_bool c_target 0
        then store (i_pcost s) target (rnd c_i) else Some (i_pcost s) in
      let! nc := store (i_ncost s) cur (rnd c_i) in
      Some (Some target, Ids (i_track s) pc nc (i_prev s) (i_next s))
  end.
Definition upd_prev (rnd : Q -> Q) (cur : nat) (s : ids) (r : option (nat * Q)) : option ids :=
  match r with
  | None => Some s
  | Some (target, c_i) =>
      let! pc := store (i_pcost s) cur (rnd c_i) in
      let! pv := store (i_prev s) cur (Some target) in
      Some (Ids (i_track s) pc (i_ncost s) pv (i_next s))
  end.

Lemma steps_up : forall i ti, nth_error time i = Some ti -> (Z.of_nat (length time_e) - 1 <? ti + 1 - time_ref)%Z = false ->
  forall t, In t (range_up (ti + 1 - time_ref) (Z.min (ti + window - time_ref) (Z.of_nat (length time_e) - 1) + 1)) -> (0 <= t < Z.of_nat (length time_s))%Z.
Proof.
  intros i ti N L t I. apply In_range_up in I. destruct tables_spec as (LE & B & _). specialize (B ti (nth_error_In _ _ N)). lia.
Qed.
Lemma steps_down : forall i ti, nth_error time i = Some ti ->
  forall t, In t (range_down (ti - 1 - time_ref) (Z.max (ti - window - time_ref) 0 - 1)) -> (0 <= t < Z.of_nat (length time_s))%Z.
Proof.
  intros i ti N t I. apply In_range_down in I. destruct tables_spec as (LE & B & _). specialize (B ti (nth_error_In _ _ N)). lia.
Qed.
Lemma get_next_found : forall rnd i s, i < length time -> get_next_obs meet overlap rnd time window time_s time_e time_ref i s = upd_next rnd i s (next_found i).
Proof.
  intros rnd i s L. unfold get_next_obs, next_found. destruct (nth_error_lt_Some time i L) as [ti N]. rewrite N. cbn [bind].
  destruct (Z.of_nat (length time_e) - 1 <? ti + 1 - time_ref)%Z eqn:G; [reflexivity|].
  destruct (search_spec i _ (steps_up i ti N G)) as (r & E & _). rewrite E. cbn [bind]. reflexivity.
Qed.
Lemma get_prev_found : forall rnd i s, i < length time -> get_previous_obs meet overlap rnd time window time_s time_e time_ref i s = upd_prev rnd i s (prev_found i).
Proof.
  intros rnd i s L. unfold get_previous_obs, prev_found. destruct (nth_error_lt_Some time i L) as [ti N]. rewrite N. cbn [bind].
  destruct (search_spec i _ (steps_down i ti N)) as (r & E & _). rewrite E. cbn [bind]. reflexivity.
Qed.

Lemma time_of : forall k tk, nth_error time k = Some tk -> exists t, (tk = time_ref + t /\ 0 <= t < Z.of_nat (length time_s))%Z.
Proof.
  intros k tk N. destruct tables_spec as (LE & B & _). specialize (B tk (nth_error_In _ _ N)). exists (tk - time_ref)%Z. lia.
Qed.
Lemma next_found_Some : forall i j c, next_found i = Some (j, c) -> follows time cost_of window i j /\ c = cost_of i j.
Proof.
  intros i j c F. unfold next_found in F. destruct (nth_error time i) as [ti|] eqn:N; [|discriminate].
  destruct (Z.of_nat (length time_e) - 1 <? ti + 1 - time_ref)%Z eqn:G; [discriminate|].
  destruct (search_spec i _ (steps_up i ti N G)) as (r & E & R). rewrite E in F. subst r. destruct R as (pre & t & post & ES & NJ & C & BD & BEF).
  split; [|auto]. assert (IT : In t (range_up (ti + 1 - time_ref) (Z.min (ti + window - time_ref) (Z.of_nat (length time_e) - 1) + 1))) by (rewrite ES; apply in_elt).
  apply In_range_up in IT. exists ti, (time_ref + t)%Z. split; [auto|]. split; [auto|]. split; [lia|]. split; [auto|].
  intros k tk NK BT. destruct (time_of _ _ NK) as (u & -> & RU). apply (BEF u k); [|auto].
  apply map_seq_split in ES as (q & T & -> & L). apply in_map_iff. exists (Z.to_nat (u - (ti + 1 - time_ref))). split; [lia|]. apply in_seq. simpl in T. lia.
Qed.
Lemma next_found_None : forall i ti, nth_error time i = Some ti -> next_found i = None -> forall k tk, nth_error time k = Some tk -> (ti < tk <= ti + window)%Z -> (cost_of i k == 0)%Q.
Proof.
  intros i ti N F k tk NK BT. unfold next_found in F. rewrite N in F. destruct (time_of _ _ NK) as (u & -> & RU). destruct tables_spec as (LE & _ & _).
  destruct (Z.of_nat (length time_e) - 1 <? ti + 1 - time_ref)%Z eqn:G; [lia|].
  destruct (search_spec i _ (steps_up i ti N G)) as (r & E & R). rewrite E in F. subst r. apply (R u k); [|auto]. apply In_range_up. lia.
Qed.
Lemma prev_found_Some : forall i j c, prev_found i = Some (j, c) -> precedes time cost_of window i j /\ c = cost_of i j.
Proof.
  intros i j c F. unfold prev_found in F. destruct (nth_error time i) as [ti|] eqn:N; [|discriminate].
  destruct (search_spec i _ (steps_down i ti N)) as (r & E & R). rewrite E in F. subst r. destruct R as (pre & t & post & ES & NJ & C & BD & BEF).
  split; [|auto]. assert (IT : In t (range_down (ti - 1 - time_ref) (Z.max (ti - window - time_ref) 0 - 1))) by (rewrite ES; apply in_elt).
  apply In_range_down in IT. exists ti, (time_ref + t)%Z. split; [auto|]. split; [auto|]. split; [lia|]. split; [auto|].
  intros k tk NK BT. destruct (time_of _ _ NK) as (u & -> & RU). apply (BEF u k); [|auto].
  apply map_seq_split in ES as (q & T & -> & L). apply in_map_iff. exists (Z.to_nat (ti - 1 - time_ref - u)). split; [lia|]. apply in_seq. simpl in T. lia.
Qed.
Lemma prev_found_None : forall i ti, nth_error time i = Some ti -> prev_found i = None -> forall k tk, nth_error time k = Some tk -> (ti - window <= tk < ti)%Z -> (cost_of i k == 0)%Q.
Proof.
  intros i ti N F k tk NK BT. unfold prev_found in F. rewrite N in F. destruct (time_of _ _ NK) as (u & -> & RU).
  destruct (search_spec i _ (steps_down i ti N)) as (r & E & R). rewrite E in F. subst r. apply (R u k); [|auto]. apply In_range_down. lia.
Qed.
End Search.
