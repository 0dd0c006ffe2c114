(** Selection of tracks, unused observations, resumed runs and joined runs. *)
From Coq Require Import List Arith ZArith Bool QArith Lia.
From Verif Require Import Base Generic_model Generic_proofs Corr_model Corr_spec Corr_proofs Corr_merge.
Import ListNotations.
Local Close Scope Q_scope.
Local Open Scope nat_scope.

(** ** Selection of tracks *)
Definition rank (keep : list nat) (id : nat) : nat :=
  match find_index id keep with Some k => k | None => 0 end.
Definition kept (keep : list nat) (s : list corr) : list corr :=
  map (fun c => with_id c (rank keep (c_id c))) (filter (fun c => mem (c_id c) keep) s).

Lemma rank_nth : forall keep id, In id keep -> nth_error keep (rank keep id) = Some id.
Proof. intros keep id H. unfold rank. destruct (find_index_Some id keep H) as (k & -> & E). exact E. Qed.
Lemma rank_of_nth : forall keep j id, NoDup keep -> nth_error keep j = Some id -> rank keep id = j.
Proof.
  intros keep j id ND E. pose proof (rank_nth keep id (nth_error_In _ _ E)) as R.
  apply (proj1 (NoDup_nth_error keep) ND); [eapply nth_error_Some_lt; eauto|congruence].
Qed.

Lemma max_ge : forall l x, In x l -> x <= fold_right Nat.max 0 l.
Proof. induction l as [|a l IH]; simpl; intros x []; [subst; lia|]. specialize (IH x H). lia. Qed.
Lemma max_in : forall l, l <> [] -> In (fold_right Nat.max 0 l) l.
Proof.
  induction l as [|a l IH]; intros H; [congruence|]. simpl. destruct l as [|b l]; [simpl; left; lia|].
  destruct (Nat.max_dec a (fold_right Nat.max 0 (b :: l))) as [E|E]; rewrite E; [auto|right; apply IH; discriminate].
Qed.

Lemma gather_translate : forall keep translate l,
  (forall x, In x keep -> nth_error translate x = Some (rank keep x)) -> (forall x, In x l -> In x keep) ->
  gather translate l = Some (map (rank keep) l).
Proof.
  intros keep translate l T H. apply gather_Some. split; [apply map_length|].
  intros k i E. exists (rank keep i). split.
  - apply T, H. eapply nth_error_In; eauto.
  - now rewrite nth_error_map, E.
Qed.

Lemma combine_map_r : forall {A B C} (f : A -> B) (g : A * B -> C) l,
  map g (combine l (map f l)) = map (fun a => g (a, f a)) l.
Proof. induction l; simpl; congruence. Qed.

Lemma keep_loop_spec : forall keep translate links,
  (forall x, In x keep -> nth_error translate x = Some (rank keep x)) ->
  keep_loop keep translate links = Some (map (kept keep) links).
Proof.
  intros keep translate links T. induction links as [|s links IH]; auto. cbn [keep_loop map].
  rewrite (gather_translate keep translate) by (auto; intros x Hx; apply in_map_iff in Hx as (c & <- & Hc);
    apply filter_In in Hc as [_ Hc]; now apply mem_In). cbn [bind]. rewrite IH. cbn [bind]. do 2 f_equal.
  unfold kept. rewrite map_map.
  rewrite (combine_map_r (fun x => rank keep (c_id x)) (fun p => with_id (fst p) (snd p))). reflexivity.
Qed.

Lemma keep_tracks_spec : forall keep links, keep <> [] -> NoDup keep ->
  keep_tracks keep links = Some (map (kept keep) links).
Proof.
  intros keep links NE ND. unfold keep_tracks. destruct keep as [|k0 keep0] eqn:EK; [congruence|]. rewrite <- EK in *.
  clear EK k0 keep0.
  destruct (stores_total keep (repeat 0 (S (fold_right Nat.max 0 keep))) (seq 0 (length keep))) as [t Et].
  { now rewrite seq_length. }
  { intros i Hi. rewrite repeat_length. apply max_ge in Hi. lia. }
  rewrite Et. cbn [bind]. apply keep_loop_spec. intros x Hx.
  eapply (stores_nodup _ _ _ _ (rank keep x)); eauto.
  - now apply rank_nth.
  - rewrite nth_error_seq. pose proof (nth_error_Some_lt _ _ _ (rank_nth keep x Hx)) as L.
    apply Nat.ltb_lt in L. now rewrite L.
Qed.

Section Keep.
  Context (keep : list nat) (ND : NoDup keep).

  Lemma In_kept_ids : forall s j id, nth_error keep j = Some id ->
    (In j (map c_id (kept keep s)) <-> In id (map c_id s)).
  Proof.
    intros s j id E. unfold kept. rewrite map_map. cbn [with_id c_id]. rewrite !in_map_iff. split.
    - intros (c & R & Hc). apply filter_In in Hc as [Hc M]. apply mem_In in M.
      exists c. split; auto. apply rank_nth in M. rewrite R, E in M. congruence.
    - intros (c & <- & Hc). exists c. split; [now apply rank_of_nth|]. apply filter_In. split; auto.
      apply mem_In. eapply nth_error_In; eauto.
  Qed.
  Lemma kept_ids_lt : forall s j, In j (map c_id (kept keep s)) -> j < length keep.
  Proof.
    intros s j H. unfold kept in H. rewrite map_map in H. cbn [with_id c_id] in H.
    apply in_map_iff in H as (c & <- & Hc). apply filter_In in Hc as [_ M]. apply mem_In, rank_nth in M.
    eapply nth_error_Some_lt; eauto.
  Qed.
  Lemma mem_kept : forall s j id, nth_error keep j = Some id ->
    mem j (map c_id (kept keep s)) = mem id (map c_id s).
  Proof.
    intros s j id E. pose proof (In_kept_ids s j id E) as X. rewrite <- !mem_In in X.
    destruct (mem j _), (mem id _); auto; intuition congruence.
  Qed.
  Lemma gap_kept : forall h j id, nth_error keep j = Some id -> gap (map (kept keep) h) j = gap h id.
  Proof.
    induction h as [|s h IH]; intros j id E; auto. cbn [map gap].
    rewrite (mem_kept s j id E), (IH j id E). reflexivity.
  Qed.
  Lemma gap_kept_out : forall h j, length keep <= j -> gap (map (kept keep) h) j = None.
  Proof.
    intros h j L. apply gap_None_all. intros s Hs C. apply in_map_iff in Hs as (s' & <- & _).
    apply kept_ids_lt in C. lia.
  Qed.
  Lemma find_kept : forall s j id, nth_error keep j = Some id ->
    find_id j (kept keep s) = option_map (fun c => with_id c j) (find_id id s).
  Proof.
    induction s as [|c s IH]; intros j id E; auto. unfold kept, find_id in *. cbn [filter find].
    destruct (Nat.eqb_spec (c_id c) id) as [Ei|Ni].
    - assert (M : mem (c_id c) keep = true) by (apply mem_In; rewrite Ei; eapply nth_error_In; eauto).
      rewrite M. cbn [map find with_id c_id]. rewrite Ei, (rank_of_nth keep j id ND E), Nat.eqb_refl. reflexivity.
    - destruct (mem (c_id c) keep) eqn:M; [|eauto]. cbn [map find]. cbn [with_id c_id].
      destruct (Nat.eqb_spec (rank keep (c_id c)) j) as [Er|Nr]; [|eauto].
      exfalso. apply Ni. apply mem_In, rank_nth in M. rewrite Er, E in M. congruence.
  Qed.
  Lemma cntr_kept : forall h j id, nth_error keep j = Some id -> cntr (map (kept keep) h) j = cntr h id.
  Proof.
    induction h as [|s h IH]; intros j id E; auto. cbn [map cntr]. unfold cnt_step.
    rewrite (find_kept s j id E), (IH j id E). destruct (find_id id s); reflexivity.
  Qed.
  Lemma slot_kept : forall h j id k, nth_error keep j = Some id -> slot (map (kept keep) h) j k = slot h id k.
  Proof.
    induction h as [|s h IH]; intros j id k E; auto. cbn [map slot]. unfold base_.
    rewrite (find_kept s j id E), (cntr_kept h j id E), (IH j id k E), map_length.
    destruct (find_id id s); reflexivity.
  Qed.
  Lemma cslot_kept : forall h j id k, nth_error keep j = Some id -> cslot (map (kept keep) h) j k = cslot h id k.
  Proof.
    induction h as [|s h IH]; intros j id k E; auto. cbn [map cslot]. unfold base_.
    rewrite (find_kept s j id E), (cntr_kept h j id E), (IH j id k E).
    destruct (find_id id s); reflexivity.
  Qed.
  Lemma wfh_kept : forall h, wfh h -> wfh (map (kept keep) h).
  Proof.
    induction 1 as [|s h W IH NDs K]; cbn [map]; constructor; auto.
    - unfold kept. rewrite map_map. cbn [with_id c_id].
      assert (X : NoDup (map c_id (filter (fun c => mem (c_id c) keep) s))) by now apply NoDup_filter_map.
      assert (Y : forall c, In c (filter (fun c => mem (c_id c) keep) s) -> In (c_id c) keep).
      { intros c Hc. apply filter_In in Hc as [_ Hc]. now apply mem_In. }
      clear - X Y. induction (filter (fun c => mem (c_id c) keep) s) as [|a l IH]; [constructor|].
      simpl in *. inversion X as [|? ? X1 X2]; subst. constructor.
      + intros C. apply in_map_iff in C as (b & E & Hb). apply X1.
        pose proof (rank_nth keep _ (Y a (or_introl eq_refl))) as R1.
        pose proof (rank_nth keep _ (Y b (or_intror Hb))) as R2. rewrite E in R2.
        replace (c_id a) with (c_id b) by congruence. now apply in_map.
      + apply IH; auto.
    - intros c Hc. unfold kept in Hc. apply in_map_iff in Hc as (c0 & <- & Hc).
      apply filter_In in Hc as [Hc M]. apply mem_In in M. cbn [with_id c_id c_virtual adv].
      rewrite (gap_kept h _ _ (rank_nth keep _ M)). apply (K c0 Hc).
  Qed.
  Lemma dense_kept : forall h cur, dense cur h -> (forall x, In x keep -> x < cur) ->
    dense (length keep) (map (kept keep) h).
  Proof.
    intros h cur D B j. split.
    - intros L. destruct (nth_error_lt_Some keep j L) as [id E]. rewrite (gap_kept h j id E).
      apply D. apply B. eapply nth_error_In; eauto.
    - intros G. destruct (Nat.lt_ge_cases j (length keep)); auto. exfalso. apply G. now apply gap_kept_out.
  Qed.
  Lemma no_virtual_kept : forall v h, no_virtual v h -> no_virtual v (map (kept keep) h).
  Proof.
    intros v h N E s c Hs Hc. apply in_map_iff in Hs as (s0 & <- & Hs).
    apply in_map_iff in Hc as (c0 & <- & Hc). apply filter_In in Hc as [Hc _]. cbn. eapply N; eauto.
  Qed.
End Keep.

(** ** The kept numbers *)
Definition long_ids (n : nat) (nb : list nat) : list nat := filter (fun id => n <=? nth id nb 0) (seq 0 (length nb)).
Definition short_ids (n : nat) (nb : list nat) : list nat := filter (fun id => nth id nb 0 <? n) (seq 0 (length nb)).

Lemma where_filter : forall (p : nat -> bool) (nb : list nat),
  where_ (map p nb) = filter (fun id => p (nth id nb 0)) (seq 0 (length nb)).
Proof.
  intros p nb. apply incr_ext.
  - apply incr_where.
  - apply incr_filter. clear. generalize 0 as k. induction (length nb) as [|n IH]; intros k; simpl; constructor; auto.
    intros b Hb. apply in_seq in Hb. lia.
  - intros x. rewrite In_where, filter_In, in_seq, nth_error_map. split.
    + intros H. destruct (nth_error nb x) as [y|] eqn:E; [|discriminate]. simpl in H.
      split; [apply nth_error_Some_lt in E; lia|]. rewrite (nth_error_nth _ _ _ E). congruence.
    + intros [L H]. destruct (nth_error_lt_Some nb x) as [y E]; [lia|]. rewrite E. simpl.
      rewrite (nth_error_nth _ _ 0 E) in H. now rewrite H.
Qed.

Lemma gather_nth : forall (nb l : list nat), (forall x, In x l -> x < length nb) ->
  gather nb l = Some (map (fun id => nth id nb 0) l).
Proof.
  intros nb l H. apply gather_Some. split; [apply map_length|]. intros k i E.
  destruct (nth_error_lt_Some nb i) as [x Ex]; [apply H; eapply nth_error_In; eauto|].
  exists x. split; auto. rewrite nth_error_map, E. simpl. now rewrite (nth_error_nth _ _ 0 Ex).
Qed.

Lemma NoDup_sel : forall p (nb : list nat), NoDup (filter p (seq 0 (length nb))).
Proof. intros. apply NoDup_filter, seq_NoDup. Qed.

Lemma longer_than_spec : forall n nb links,
  (long_ids n nb <> [] ->
     longer_than n nb links = Some (map (fun id => nth id nb 0) (long_ids n nb), map (kept (long_ids n nb)) links)) /\
  (long_ids n nb = [] -> longer_than n nb links = Some (nb, links)).
Proof.
  intros n nb links. unfold longer_than.
  assert (X : existsb (fun b => b) (map (fun k => n <=? k) nb) = negb (length (long_ids n nb) =? 0)).
  { unfold long_ids. rewrite <- (where_filter (fun k => n <=? k)). unfold where_.
    generalize 0 at 1 as o. induction (map (fun k => n <=? k) nb) as [|[] l IH]; intros o; simpl; auto. }
  rewrite X, negb_involutive. rewrite (where_filter (fun k => n <=? k)). fold (long_ids n nb). split.
  - intros NE. destruct (long_ids n nb) as [|a l] eqn:E; [congruence|]. rewrite <- E in *.
    assert (length (long_ids n nb) =? 0 = false) as -> by (rewrite E; reflexivity).
    rewrite gather_nth.
    + cbn [bind]. rewrite keep_tracks_spec; auto. apply NoDup_sel.
    + intros x Hx. apply filter_In in Hx as [Hx _]. apply in_seq in Hx. lia.
  - intros E. rewrite E. reflexivity.
Qed.

Lemma shorter_than_spec : forall n nb links,
  (short_ids n nb <> [] ->
     shorter_than n nb links = Some (map (fun id => nth id nb 0) (short_ids n nb), map (kept (short_ids n nb)) links)) /\
  (short_ids n nb = [] -> shorter_than n nb links = None).
Proof.
  intros n nb links. unfold shorter_than. rewrite (where_filter (fun k => k <? n)). fold (short_ids n nb). split.
  - intros NE. rewrite gather_nth.
    + cbn [bind]. rewrite keep_tracks_spec; auto. apply NoDup_sel.
    + intros x Hx. apply filter_In in Hx as [Hx _]. apply in_seq in Hx. lia.
  - intros E. rewrite E. reflexivity.
Qed.

(** ** Unused observations *)
Section Unused.
  Context {Obs V : Type} (associate : list Obs -> list Obs -> option (list (nat * nat * Q))) (nbv : nat).
  Notation bounded := (bounded associate nbv).

  Lemma bounded_at : forall h ds, bounded h ds -> length ds = S (length h) /\
    forall t, t < length h -> exists s real d, nth_error (rev h) t = Some s /\ nth_error (rev ds) t = Some real /\
      nth_error (rev ds) (S t) = Some d /\ from_dates associate nbv real d s.
  Proof.
    induction 1 as [d|h s d real ds B [L IH] F].
    - split; auto. intros t Ht. simpl in Ht. lia.
    - cbn [length rev] in *. split; [lia|]. intros t Ht.
      assert (LH : length (rev h) = length h) by apply rev_length.
      assert (LD : length (rev ds ++ [real]) = S (length h)) by (rewrite app_length, rev_length; simpl; lia).
      destruct (Nat.eq_dec t (length h)) as [->|N].
      + exists s, real, d. split; [|split; [|split]]; auto.
        * rewrite nth_error_app2, LH, Nat.sub_diag by lia. reflexivity.
        * rewrite nth_error_app1 by lia. rewrite nth_error_app2 by (rewrite rev_length; lia).
          rewrite rev_length. replace (length h - length ds) with 0 by lia. reflexivity.
        * rewrite nth_error_app2 by lia. rewrite LD, Nat.sub_diag. reflexivity.
      + destruct (IH t) as (s0 & r0 & d0 & A1 & A2 & A3 & A4); [lia|].
        exists s0, r0, d0. split; [|split; [|split]]; auto.
        * rewrite nth_error_app1; auto. lia.
        * rewrite nth_error_app1; auto. rewrite LD. lia.
        * rewrite nth_error_app1; auto. rewrite LD. lia.
  Qed.

  Lemma first_step_real : forall nb h s, hist nb h -> nth_error (rev h) 0 = Some s ->
    forall c, In c s -> c_virtual c = false.
  Proof.
    induction 1 as [|h s0 H IH OK]; intros E c Hc; [discriminate|].
    destruct h as [|s1 h].
    - simpl in E. injection E as <-. destruct (ok_kind _ _ _ OK c Hc) as [(A & _)|[(A & _)|(A & (g & B1 & _) & _)]]; auto.
      discriminate.
    - apply IH; auto. change (rev (s0 :: s1 :: h)) with (rev (s1 :: h) ++ [s0]) in E.
      rewrite nth_error_app1 in E; auto. rewrite rev_length. simpl. lia.
  Qed.
End Unused.

(** ** Resumed runs *)
Section Resume.
  Context {Obs V : Type} (as_obs : V -> Obs) (extrapolate : Obs -> Obs -> V) (prolong : V -> V).
  Context (associate : list Obs -> list Obs -> option (list (nat * nat * Q))) (nbv : nat).
  Notation state := (@state Obs V).
  Notation step := (step as_obs extrapolate prolong associate nbv).
  Notation steps := (steps as_obs extrapolate prolong associate nbv).
  Notation track := (track as_obs extrapolate prolong associate nbv).

  (** [st] with another previous2_obs, which the next step discards *)
  Definition set_prev2 (st : state) (x : option (list Obs)) : state :=
    mkstate (s_links st) (s_id st) x (s_prev st) (s_cur st) (s_virt st) (s_pvirt st) (s_flg st).

  Lemma step_prev2 : forall st x d, step (set_prev2 st x) d = step st d.
  Proof. reflexivity. Qed.

  Definition rinv (st : state) (ds : list (list Obs)) : Prop :=
    S (length (s_links st)) = length ds /\
    s_cur st = nth_error ds (length (s_links st)) /\
    match length (s_links st) with
    | 0 => s_prev st = None /\ s_virt st = None /\ s_pvirt st = None /\ s_flg st = false
    | S k => exists p, s_prev st = Some p /\
        if virtual nbv && (1 <=? k) then
          s_flg st = true /\ (exists v, s_virt st = Some v) /\
          (2 <= k -> exists pv r, s_pvirt st = Some pv /\ nth_error ds k = Some r /\
             p = r ++ map (fun v => as_obs (v_data v)) pv)
        else nth_error ds k = Some p /\ s_virt st = None /\ s_pvirt st = None /\ s_flg st = false
    end.

  Lemma bind_inv : forall {A B} (x : option A) (f : A -> option B) r,
    bind x f = Some r -> exists a, x = Some a /\ f a = Some r.
  Proof. intros A B [a|] f r H; [eauto|discriminate]. Qed.

  Lemma store_flag : forall (st : state) n l x b, store_correspondance nbv st n l = Some (x, b) ->
    b = match s_prev2 st with None => true | Some _ => false end.
  Proof.
    intros st n l x b H. unfold store_correspondance in H. destruct (s_prev2 st).
    - apply bind_inv in H as (? & _ & H). apply bind_inv in H as (? & _ & H). apply bind_inv in H as (? & _ & H).
      apply bind_inv in H as (? & _ & H). apply bind_inv in H as (? & _ & H).
      destruct (number_new _ _). congruence.
    - congruence.
  Qed.

  Lemma recense_fields : forall st st', recense extrapolate prolong nbv st = Some st' ->
    s_links st' = s_links st /\ s_prev st' = s_prev st /\ s_cur st' = s_cur st /\ s_flg st' = s_flg st /\
    if virtual nbv then (exists v, s_virt st' = Some v) /\ s_pvirt st' = s_virt st
    else s_virt st' = s_virt st /\ s_pvirt st' = s_pvirt st.
  Proof.
    intros st st' H. unfold recense in H. destruct (s_links st) as [|last [|before h]] eqn:EL; try discriminate.
    destruct (virtual nbv) eqn:EV; cbn [negb] in H.
    - apply bind_inv in H as (? & _ & H). apply bind_inv in H as (? & _ & H). apply bind_inv in H as (? & _ & H).
      apply bind_inv in H as (? & _ & H). apply bind_inv in H as (? & _ & H). apply bind_inv in H as (? & _ & H).
      apply bind_inv in H as (? & _ & H). apply Some_inj in H. subst st'. cbn. eauto 7.
    - apply Some_inj in H. subst st'. auto 7.
  Qed.

  Lemma rinv_step : forall st ds d st', rinv st ds -> step st d = Some st' -> rinv st' (ds ++ [d]).
  Proof.
    intros st ds d st' (L & C & R) H. unfold Corr_model.step, swap in H.
    cbn [s_links s_id s_prev2 s_prev s_cur s_virt s_pvirt s_flg] in H.
    apply bind_inv in H as (real & Ec & H).
    apply bind_inv in H as (prev & Ep & H). apply bind_inv in H as (links & _ & H).
    apply bind_inv in H as ([[corrs cur] is_first] & Es & H).
    apply store_flag in Es. cbn [s_prev2] in Es.
    rewrite C in Ec.
    assert (ER : nth_error (ds ++ [d]) (length (s_links st)) = Some real).
    { rewrite nth_error_app1 by lia. exact Ec. }
    assert (ED : nth_error (ds ++ [d]) (S (length (s_links st))) = Some d).
    { rewrite nth_error_app2 by lia. rewrite L, Nat.sub_diag. reflexivity. }
    destruct (length (s_links st)) as [|k] eqn:EK.
    - destruct R as (R1 & R2 & R3 & R4). rewrite R1 in Es. subst is_first. apply Some_inj in H. subst st'.
      rewrite R4 in Ep. apply Some_inj in Ep. subst prev.
      unfold rinv. cbn [s_links s_id s_prev2 s_prev s_cur s_virt s_pvirt s_flg length].
      rewrite app_length, EK. cbn [length]. split; [lia|]. split; [auto|]. exists real. split; auto.
      rewrite andb_false_r. auto.
    - destruct R as (p & R1 & R2). rewrite R1 in Es. subst is_first.
      apply bind_inv in H as (st3 & Er & H). apply Some_inj in H. subst st'.
      destruct (recense_fields _ _ Er) as (F1 & F2 & F3 & F4 & F5).
      cbn [s_links s_id s_prev2 s_prev s_cur s_virt s_pvirt s_flg] in F1, F2, F3, F4, F5.
      unfold rinv. cbn [s_links s_id s_prev2 s_prev s_cur s_virt s_pvirt s_flg]. rewrite F1, F2, F3, F4.
      cbn [length]. rewrite app_length, EK. cbn [length]. split; [lia|]. split; [auto|]. exists prev. split; auto.
      destruct (virtual nbv) eqn:EV; cbn [andb Nat.leb] in *.
      + split; auto. destruct F5 as [F5 F6]. split; auto. intros K. destruct k as [|k]; [lia|].
        destruct R2 as (G1 & (v & G2) & _). rewrite G1, G2 in Ep. cbn [bind] in Ep. apply Some_inj in Ep.
        exists v, real. rewrite F6. auto.
      + destruct R2 as (G0 & G1 & G2 & G3). rewrite G3 in Ep. apply Some_inj in Ep. subst prev.
        destruct F5 as [F5 F6]. rewrite F5, F6. auto.
  Qed.

  Lemma steps_app : forall a b (st : state), steps st (a ++ b) = bind (steps st a) (fun st' => steps st' b).
  Proof.
    induction a as [|d a IH]; intros b st; simpl; auto.
    destruct (step st d) as [st'|]; cbn [bind]; auto.
  Qed.

  Lemma rinv_steps : forall new ds st st', rinv st ds -> steps st new = Some st' -> rinv st' (ds ++ new).
  Proof.
    induction new as [|d new IH]; intros ds st st' R H; simpl in H.
    - apply Some_inj in H. subst. now rewrite app_nil_r.
    - apply bind_inv in H as (st1 & E & H). replace (ds ++ d :: new) with ((ds ++ [d]) ++ new) by now rewrite <- app_assoc.
      eapply IH; eauto. eapply rinv_step; eauto.
  Qed.
  Lemma rinv_track : forall ds st, track ds = Some st -> rinv st ds.
  Proof.
    intros [|d ds] st H; [discriminate|]. simpl in H. apply (rinv_steps ds [d] (start d)); auto.
    split; [reflexivity|]. split; [reflexivity|]. simpl. auto.
  Qed.

  (** the same run, the next step forgetting previous2_obs *)
  Lemma steps_prev2 : forall ds st x, ds <> [] -> steps (set_prev2 st x) ds = steps st ds.
  Proof. intros [|d ds] st x H; [congruence|]. reflexivity. Qed.

  Lemma resume_spec : forall ds1 ds2 st, track ds1 = Some st ->
    s_links st <> [] -> (virtual nbv = true -> 3 <= length (s_links st)) ->
    (forall s, In s (s_links st) -> s <> []) ->
    exists f, save st = Some f /\
      resume as_obs extrapolate prolong associate nbv f (ds1 ++ ds2) = steps (set_prev2 st None) ds2.
  Proof.
    intros ds1 ds2 st T NE V3 NEM. destruct (rinv_track ds1 st T) as (L & C & R).
    destruct (length (s_links st)) as [|k] eqn:EK.
    { destruct (s_links st); [congruence|discriminate]. }
    destruct R as (p & R1 & R2).
    assert (LE : length (rev (s_links st)) = S k) by (now rewrite rev_length).
    assert (EE : existsb (fun c : list corr => length c =? 0) (rev (s_links st)) = false).
    { apply not_true_is_false. intros X. apply existsb_exists in X as (s & Hs & X).
      apply in_rev in Hs. apply (NEM s Hs). destruct s; [auto|discriminate]. }
    destruct (nth_error_lt_Some ds1 (S k)) as [d Ed]; [lia|].
    assert (SK : skipn (S (S k)) (ds1 ++ ds2) = ds2).
    { rewrite L. rewrite skipn_app, skipn_all, Nat.sub_diag. reflexivity. }
    assert (D1 : nth_error (ds1 ++ ds2) (S k) = Some d) by (rewrite nth_error_app1 by lia; auto).
    assert (ST : forall prev virt pvirt flg, s_prev st = Some prev -> s_virt st = virt -> s_pvirt st = pvirt -> s_flg st = flg ->
       swap (mkstate (rev (rev (s_links st))) (s_id st) None None (Some prev) virt pvirt flg) d = set_prev2 st None).
    { intros prev virt pvirt flg E1 E2 E3 E4. unfold swap, set_prev2. cbn. rewrite rev_involutive, C, Ed, E1, E2, E3, E4. reflexivity. }
    unfold save. destruct (virtual nbv) eqn:EV.
    - assert (K : 2 <= k) by (specialize (V3 eq_refl); lia). destruct k as [|k]; [lia|].
      destruct R2 as (G1 & (v & G2) & G3). destruct (G3 K) as (pv & r & G4 & G5 & G6).
      rewrite G2, G4. eexists. split; [reflexivity|].
      unfold resume. cbn [f_links f_id f_virt f_pvirt]. rewrite LE, EE, EV. cbn [Nat.eqb orb Nat.sub].
      rewrite nth_error_app1, G5 by lia. cbn [bind]. rewrite D1. cbn [bind]. rewrite SK.
      f_equal. apply ST; auto. now rewrite R1, G6.
    - destruct R2 as (G1 & G2 & G3 & G4). rewrite G2. eexists. split; [reflexivity|].
      unfold resume. cbn [f_links f_id f_virt f_pvirt]. rewrite LE, EE, EV. cbn [Nat.eqb orb Nat.sub].
      rewrite Nat.sub_0_r. rewrite nth_error_app1, G1 by lia. cbn [bind]. rewrite D1. cbn [bind]. rewrite SK.
      f_equal. apply ST; auto.
  Qed.
End Resume.

(** ** Joined runs *)
(** translation of the numbers of the later run *)
Definition joined (self_last other_last : list corr) (self_id nb_max id new : nat) : Prop :=
  (exists p c c', nth_error other_last p = Some c /\ nth_error self_last p = Some c' /\ c_id c = id /\ c_id c' = new) \/
  (nb_max < id /\ new = self_id + (id - nb_max - 1)).

Lemma length_number_tail : forall nb t k next, length (number_tail nb k next t) = length t.
Proof. induction t as [|[x|] t IH]; intros; simpl; auto. destruct (nb <=? k); simpl; auto. Qed.

Lemma number_tail_after : forall nb t k next, nb < k -> (forall j, j < length t -> nth_error t j = Some None) ->
  forall j, j < length t -> nth_error (number_tail nb k next t) j = Some (Some (next + j)).
Proof.
  induction t as [|[x|] t IH]; intros k next Hk H j Hj; simpl in *; try lia.
  - specialize (H 0 ltac:(lia)). discriminate.
  - rewrite (proj2 (Nat.leb_le nb k)) by lia. destruct j as [|j]; simpl; [now rewrite Nat.add_0_r|].
    rewrite IH; try lia; [do 2 f_equal; lia|]. intros i Hi. apply (H (S i)). lia.
Qed.

Lemma number_tail_spec : forall nb t k next, k <= nb ->
  (exists x, nth_error t (nb - k) = Some (Some x)) ->
  (forall j, nb < k + j -> j < length t -> nth_error t j = Some None) ->
  (forall j x, nth_error t j = Some (Some x) -> nth_error (number_tail nb k next t) j = Some (Some x)) /\
  (forall j, nb < k + j -> j < length t ->
     nth_error (number_tail nb k next t) j = Some (Some (next + (k + j - nb - 1)))) /\
  (forall j, k + j < nb -> nth_error t j = Some None -> nth_error (number_tail nb k next t) j = Some None).
Proof.
  induction t as [|a t IH]; intros k next Hk (x0 & Hx0) H.
  - destruct (nb - k); discriminate.
  - destruct (Nat.eq_dec k nb) as [->|N].
    + rewrite Nat.sub_diag in Hx0. injection Hx0 as ->. cbn [number_tail].
      assert (AF : forall j, j < length t -> nth_error t j = Some None).
      { intros j Hj. apply (H (S j)); simpl; lia. }
      pose proof (number_tail_after nb t (S nb) next ltac:(lia) AF) as X. split; [|split].
      * intros [|j] x Hx; simpl in *; auto.
        pose proof (nth_error_Some_lt _ _ _ Hx) as L. rewrite (AF j L) in Hx. discriminate.
      * intros [|j] L1 L2; simpl in *; [lia|]. rewrite X by lia. do 2 f_equal. lia.
      * intros j Lj. lia.
    + assert (E : nb - k = S (nb - S k)) by lia. rewrite E in Hx0. simpl in Hx0.
      assert (S0 : number_tail nb k next (a :: t) = a :: number_tail nb (S k) next t).
      { cbn [number_tail]. destruct a; auto. rewrite (proj2 (Nat.leb_gt nb k)) by lia. reflexivity. }
      rewrite S0. destruct (IH (S k) next ltac:(lia)) as (I1 & I2 & I3); eauto.
      { intros j Lj1 Lj2. apply (H (S j)); simpl; lia. }
      split; [|split].
      * intros [|j] x Hx; cbn [nth_error] in *; auto.
      * intros [|j] L1 L2; cbn [nth_error length] in *; [lia|]. rewrite I2 by lia. do 2 f_equal. lia.
      * intros [|j] L1 L2; cbn [nth_error] in *; auto. apply I3; auto. lia.
Qed.

Lemma sequence_Some : forall {A} (l : list A), sequence (map Some l) = Some l.
Proof. induction l as [|a l IH]; simpl; auto. now rewrite IH. Qed.

Lemma choose : forall {A B} (R : A -> B -> Prop) l, (forall a, In a l -> exists b, R a b) ->
  exists l', Forall2 R l l'.
Proof.
  induction l as [|a l IH]; intros H; [exists []; constructor|].
  destruct (H a (or_introl eq_refl)) as [b Hb]. destruct IH as [l' Hl]; [intros; apply H; right; auto|].
  exists (b :: l'). constructor; auto.
Qed.

Lemma rename_spec : forall t (R : nat -> nat -> Prop) s,
  (forall c, In c s -> exists new, nth_error t (c_id c) = Some (Some new) /\ R (c_id c) new) ->
  exists s', rename t s = Some s' /\ Forall2 (fun c c' => exists new, R (c_id c) new /\ c' = with_id c new) s s'.
Proof.
  intros t R s H.
  destruct (choose (fun c new => nth_error t (c_id c) = Some (Some new) /\ R (c_id c) new) s H) as (ids & F).
  assert (G : gather t (map c_id s) = Some (map Some ids)).
  { clear H. induction F as [|c new s ids [F1 F2] F IH]; auto. cbn [map gather].
    unfold gather in *. cbn. rewrite F1. cbn. rewrite IH. reflexivity. }
  unfold rename. rewrite G. cbn [bind]. rewrite sequence_Some. cbn [bind]. eexists. split; [reflexivity|].
  clear - F. induction F as [|c new s ids [F1 F2] F IH]; simpl; constructor; eauto.
Qed.

Lemma rename_all_spec : forall t (R : nat -> nat -> Prop) l,
  (forall s c, In s l -> In c s -> exists new, nth_error t (c_id c) = Some (Some new) /\ R (c_id c) new) ->
  exists l', rename_all t l = Some l' /\
    Forall2 (Forall2 (fun c c' => exists new, R (c_id c) new /\ c' = with_id c new)) l l'.
Proof.
  induction l as [|s l IH]; intros H; simpl; [exists []; auto|].
  destruct (rename_spec t R s) as (s' & E & F); [intros; apply (H s); simpl; auto|]. rewrite E. cbn [bind].
  destruct IH as (l' & E' & F'); [intros s0 c Hs; apply H; right; auto|]. rewrite E'. cbn [bind].
  exists (s' :: l'). split; auto.
Qed.

Lemma pyget_last : forall {A} (l : list A), l <> [] -> pyget l (-1) = nth_error l (length l - 1).
Proof.
  intros A l H. unfold pyget, pyidx. cbn [Z.leb Z.compare].
  assert (L : 0 < length l) by (destruct l; [congruence|simpl; lia]).
  destruct (Z.leb_spec (- Z.of_nat (length l)) (-1)) as [X|X]; [|lia]. cbn [bind].
  f_equal. lia.
Qed.
Lemma pyget_nat : forall {A} (l : list A) z n, z = Z.of_nat n -> n < length l -> pyget l z = nth_error l n.
Proof.
  intros A l z n -> H. unfold pyget, pyidx.
  destruct (Z.leb_spec 0 (Z.of_nat n)) as [X|X]; [|lia].
  destruct (Z.ltb_spec (Z.of_nat n) (Z.of_nat (length l))) as [Y|Y]; [|lia]. cbn [bind]. f_equal. lia.
Qed.

Lemma join_spec : forall self self_last self_id other other_last other_id i nb_max,
  nth_error self (length self - 1) = Some self_last ->
  1 <= i -> nth_error other (i - 1) = Some other_last ->
  length self_last = length other_last -> NoDup (map c_id other_last) ->
  In nb_max (map c_id other_last) -> (forall id, In id (map c_id other_last) -> id <= nb_max) ->
  nb_max + 1 < other_id ->
  (forall s c, In s (skipn i other) -> In c s -> c_id c < other_id) ->
  (forall s c, In s (skipn i other) -> In c s -> In (c_id c) (map c_id other_last) \/ nb_max < c_id c) ->
  exists tail,
    merge_correspondance self self_id other other_id i = Some (self ++ tail, self_id + (other_id - nb_max - 1)) /\
    Forall2 (Forall2 (fun c c' => exists new, joined self_last other_last self_id nb_max (c_id c) new /\ c' = with_id c new))
      (skipn i other) tail.
Proof.
  intros self self_last self_id other other_last other_id i nb_max ES Hi EO LL ND INM MX NEW BD KD.
  unfold merge_correspondance.
  rewrite pyget_last by (intros ->; discriminate). rewrite ES. cbn [bind].
  rewrite (pyget_nat other _ (i - 1)) by (try lia; eapply nth_error_Some_lt; eauto). rewrite EO. cbn [bind].
  assert (EM : fold_right Nat.max 0 (map c_id other_last) = nb_max).
  { apply Nat.le_antisymm.
    - apply MX, max_in. intros C. rewrite C in INM. contradiction.
    - now apply max_ge. }
  unfold translate_table.
  destruct (stores_total (map c_id other_last) (repeat (@None nat) other_id) (map (fun c => Some (c_id c)) self_last)) as [t Et].
  { rewrite !map_length. lia. }
  { intros x Hx. rewrite repeat_length. specialize (MX x Hx). lia. }
  rewrite Et. cbn [bind].
  destruct other_last as [|o0 ol] eqn:EOL; [contradiction|]. rewrite <- EOL in *. rewrite EM. cbn [bind].
  assert (Lt : length t = other_id) by (apply length_stores in Et; now rewrite repeat_length in Et).
  assert (T1 : forall p c c', nth_error other_last p = Some c -> nth_error self_last p = Some c' ->
             nth_error t (c_id c) = Some (Some (c_id c'))).
  { intros p c c' Hc Hc'. eapply (stores_nodup _ _ _ _ p); eauto; rewrite nth_error_map; [rewrite Hc|rewrite Hc']; reflexivity. }
  assert (T2 : forall x, x < other_id -> ~ In x (map c_id other_last) -> nth_error t x = Some None).
  { intros x Hx N. rewrite (stores_other _ _ _ _ x Et N), nth_error_repeat_lt, (proj2 (Nat.ltb_lt _ _) Hx). reflexivity. }
  assert (PAIR : forall id, In id (map c_id other_last) -> exists p c c', nth_error other_last p = Some c /\
             nth_error self_last p = Some c' /\ c_id c = id).
  { intros id H. apply in_map_iff in H as (c & E & Hc). apply In_nth_error in Hc as [p Hp].
    destruct (nth_error_lt_Some self_last p) as [c' Hc']; [rewrite LL; eapply nth_error_Some_lt; eauto|].
    exists p, c, c'. auto. }
  destruct (number_tail_spec nb_max t 0 self_id) as (N1 & N2 & _).
  { lia. }
  { rewrite Nat.sub_0_r. destruct (PAIR nb_max INM) as (p & c & c' & P1 & P2 & P3). exists (c_id c').
    rewrite <- P3. eapply T1; eauto. }
  { intros j J1 J2. apply T2; [lia|]. intros C. specialize (MX j C). lia. }
  destruct (rename_all_spec (number_tail nb_max 0 self_id t) (joined self_last other_last self_id nb_max) (skipn i other))
    as (tail & ER & F).
  { intros s c Hs Hc. destruct (KD s c Hs Hc) as [K|K].
    - destruct (PAIR _ K) as (p & c0 & c' & P1 & P2 & P3). exists (c_id c'). split.
      + apply N1. rewrite <- P3. eapply T1; eauto.
      + left. exists p, c0, c'. auto.
    - exists (self_id + (c_id c - nb_max - 1)). split.
      + rewrite N2; auto. rewrite Lt. eapply BD; eauto.
      + right. auto. }
  rewrite ER. cbn [bind].
  rewrite pyget_last by (intros C; apply (f_equal (@length _)) in C; rewrite length_number_tail in C; simpl in C; lia).
  rewrite length_number_tail, Lt, N2 by lia. cbn [bind]. exists tail. split; auto. do 2 f_equal. lia.
Qed.

Lemma joined_inj : forall self_last other_last self_id nb_max,
  NoDup (map c_id other_last) -> NoDup (map c_id self_last) ->
  (forall c, In c self_last -> c_id c < self_id) -> (forall id, In id (map c_id other_last) -> id <= nb_max) ->
  forall a b x y, joined self_last other_last self_id nb_max a x -> joined self_last other_last self_id nb_max b y ->
    (a = b <-> x = y).
Proof.
  intros sl ol sid nb ND1 ND2 B MX a b x y Ja Jb.
  assert (P : forall p c c', nth_error ol p = Some c -> nth_error sl p = Some c' -> c_id c <= nb /\ c_id c' < sid).
  { intros p c c' H1 H2. split; [apply MX, in_map; eapply nth_error_In; eauto|apply B; eapply nth_error_In; eauto]. }
  destruct Ja as [(p & c & c' & A1 & A2 & A3 & A4)|(A1 & A2)]; destruct Jb as [(q & d & d' & B1 & B2 & B3 & B4)|(B1 & B2)].
  - assert (forall l (f : corr -> nat) p q c d, NoDup (map f l) -> nth_error l p = Some c -> nth_error l q = Some d -> f c = f d -> p = q) as INJ.
    { clear. intros l f p q c d ND H1 H2 E. apply (proj1 (NoDup_nth_error _) ND).
      - rewrite map_length. eapply nth_error_Some_lt; eauto.
      - rewrite !nth_error_map, H1, H2. simpl. congruence. }
    subst. split; intros E.
    + assert (p = q) by (eapply (INJ ol); eauto). subst q. congruence.
    + assert (p = q) by (eapply (INJ sl); eauto). subst q. congruence.
  - pose proof (P _ _ _ A1 A2). lia.
  - pose proof (P _ _ _ B1 B2). lia.
  - lia.
Qed.

(** ** From the history, most recent first, to the chronological list *)
Lemma hist_at : forall nbv h, hist nbv h -> forall t s, nth_error (rev h) t = Some s ->
  exists h', hist nbv h' /\ step_ok nbv h' s /\ length h' = t /\
    (forall t' c, t' < t -> (link_at (rev h) t' c <-> link_at (rev h') t' c)).
Proof.
  induction 1 as [|h s0 Hh IH OK]; intros t s E; [destruct t; discriminate|]. cbn [rev] in *.
  destruct (Nat.lt_ge_cases t (length (rev h))) as [L|L].
  - rewrite nth_error_app1 in E by auto. destruct (IH t s E) as (h' & A & B & C & D).
    exists h'. split; auto. split; auto. split; auto. intros t' c Ht. rewrite link_at_snoc, <- (D t' c Ht).
    rewrite rev_length in L. split; [intros [X|[X _]]; [auto|lia]|auto].
  - rewrite nth_error_app2 in E by auto. rewrite rev_length in *.
    destruct (t - length h) as [|k] eqn:K; [|destruct k; discriminate]. simpl in E. injection E as <-.
    exists h. split; auto. split; auto. split; [lia|]. intros t' c Ht. rewrite link_at_snoc. split; [intros [X|[X _]]; [auto|lia]|auto].
Qed.

Lemma newest_link : forall h c, In c (newest h) <-> (0 < length h /\ link_at (rev h) (length h - 1) c).
Proof.
  intros [|s h] c; simpl.
  - split; [tauto|lia].
  - rewrite link_at_snoc, Nat.sub_0_r. split; [auto with arith|].
    intros [_ [X|[_ X]]]; [apply link_at_lt in X; lia|auto].
Qed.

Lemma gap_seen : forall h id g, gap h id = Some g <->
  g < length h /\ seen (rev h) (length h - 1 - g) id /\
  (forall t, length h - 1 - g < t -> ~ seen (rev h) t id).
Proof.
  intros h id g. rewrite gap_spec. unfold seen. split; intros (A & B & C); (split; [auto|]; split; [auto|]).
  - intros t L (c & X & Y). eapply C; eauto.
  - intros t c L X Y. apply (C t L). eauto.
Qed.
Lemma first_link_firstr : forall h id f, first_link (rev h) id f <-> firstr h id = Some f.
Proof.
  intros h id f. rewrite firstr_spec. unfold first_link, seen. split; intros (A & B); split; auto.
  - intros t c L X Y. specialize (B t ltac:(eauto)). lia.
  - intros t (c & X & Y). destruct (Nat.lt_ge_cases t f) as [L|L]; auto. exfalso. eapply B; eauto.
Qed.
Lemma last_link_gap : forall h id l, last_link (rev h) id l <-> l < length h /\ gap h id = Some (length h - 1 - l).
Proof.
  intros h id l. rewrite gap_seen. unfold last_link. split.
  - intros ((c & X & Y) & B). pose proof (link_at_lt _ _ _ X). split; auto. split; [lia|].
    replace (length h - 1 - (length h - 1 - l)) with l by lia. split; [exists c; auto|].
    intros t L S. specialize (B t S). lia.
  - intros (L & A & B & C). replace (length h - 1 - (length h - 1 - l)) with l in * by lia. split; auto.
    intros t S. destruct (Nat.lt_ge_cases l t) as [X|X]; [|auto]. exfalso. eapply C; eauto.
Qed.
Lemma gap_None_seen : forall h id, gap h id = None <-> forall t, ~ seen (rev h) t id.
Proof.
  intros h id. rewrite gap_None_links. split.
  - intros H t (c & X & Y). eapply H; eauto.
  - intros H t c X Y. apply (H t). exists c. auto.
Qed.
Lemma dense_seen : forall cur h id, dense cur h -> (id < cur <-> exists t, seen (rev h) t id).
Proof.
  intros cur h id D. rewrite (D id). split.
  - intros N. destruct (gap h id) as [g|] eqn:G; [|congruence]. apply gap_seen in G as (_ & S & _). eauto.
  - intros (t & S) C. rewrite gap_None_seen in C. eapply C; eauto.
Qed.
Lemma seen_first_last : forall h id t, seen (rev h) t id -> exists f l, first_link (rev h) id f /\ last_link (rev h) id l.
Proof.
  intros h id t S. destruct (gap h id) as [g|] eqn:G.
  - destruct (firstr h id) as [f|] eqn:F; [|apply firstr_gap in F; congruence].
    exists f, (length h - 1 - g). split; [now apply first_link_firstr|]. apply last_link_gap.
    pose proof G as G'. apply gap_seen in G' as (L & _). split; [lia|]. rewrite G. f_equal. lia.
  - rewrite gap_None_seen in G. exfalso. eapply G; eauto.
Qed.

Lemma block_cover : forall nb i, i < sum_list nb -> exists id k n, nth_error nb id = Some n /\ k < n /\ i = block nb id + k.
Proof.
  unfold block. induction nb as [|n nb IH]; intros i H; simpl in H; [lia|].
  destruct (Nat.lt_ge_cases i n) as [L|L].
  - exists 0, i, n. auto.
  - destruct (IH (i - n)) as (id & k & m & A & B & C); [lia|]. exists (S id), k, m. split; auto. split; auto.
    cbn [firstn sum_list]. lia.
Qed.
