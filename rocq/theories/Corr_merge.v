(** Lemmas about counting, selecting and merging (second half of [Corr_model]). *)
From Coq Require Import List Arith ZArith Bool QArith Lia.
From Verif Require Import Base Generic_model Generic_proofs Corr_model Corr_spec Corr_proofs.
Import ListNotations.
Local Close Scope Q_scope.
Local Open Scope nat_scope.

(** ** Well formed histories, most recent step first *)
Definition adv (c : corr) : nat := if c_virtual c then c_vlen c else 0.

Inductive wfh : list (list corr) -> Prop :=
| wfh_nil : wfh []
| wfh_cons : forall s h, wfh h -> NoDup (map c_id s) ->
    (forall c, In c s -> (gap h (c_id c) = None /\ c_virtual c = false) \/ gap h (c_id c) = Some (adv c)) ->
    wfh (s :: h).

Lemma hist_wfh : forall nbv h, nbv <= 127 -> hist nbv h -> wfh h.
Proof.
  intros nbv h L. induction 1 as [|h s H IH OK]; [constructor|].
  constructor; auto; [apply (ok_ids _ _ _ OK)|].
  intros c Hc. destruct (ok_kind _ _ _ OK c Hc) as [(A & B & _)|[(A & c' & B1 & B2 & _)|(A & (g & B1 & B2 & B3 & B4) & _)]].
  - auto.
  - right. unfold adv. rewrite A. apply gap_0. rewrite <- B2. now apply in_map.
  - right. unfold adv. rewrite A, B3. rewrite u1_small by (specialize (B4 L); lia). exact B1.
Qed.

Lemma hist_no_virtual : forall h, hist 0 h -> forall s c, In s h -> In c s -> c_virtual c = false.
Proof.
  induction 1 as [|h s H IH OK]; intros s' c [].
  - subst s'. intros Hc. destruct (ok_kind _ _ _ OK c Hc) as [(A & _)|[(A & _)|(A & (g & B1 & B2 & B3 & B4) & _)]]; auto.
    specialize (B4 ltac:(lia)). lia.
  - eauto.
Qed.

Definition find_id (id : nat) (s : list corr) : option corr := find (fun c => c_id c =? id) s.

Lemma find_id_Some : forall id s c, find_id id s = Some c -> In c s /\ c_id c = id.
Proof. intros id s c H. apply find_some in H as [A B]. apply Nat.eqb_eq in B. auto. Qed.
Lemma find_id_None : forall id s, find_id id s = None <-> ~ In id (map c_id s).
Proof.
  intros id s. unfold find_id. split.
  - intros H C. apply in_map_iff in C as (c & <- & Hc). pose proof (find_none _ _ H _ Hc) as X.
    simpl in X. now rewrite Nat.eqb_refl in X.
  - intros H. destruct (find _ s) as [c|] eqn:E; auto. apply find_some in E as [A B].
    apply Nat.eqb_eq in B. exfalso. apply H. rewrite <- B. now apply in_map.
Qed.
Lemma find_id_In : forall s c, NoDup (map c_id s) -> In c s -> find_id (c_id c) s = Some c.
Proof.
  induction s as [|a s IH]; intros c ND H; [contradiction|]. inversion ND as [|? ? N1 N2]; subst.
  unfold find_id. simpl. destruct (Nat.eqb_spec (c_id a) (c_id c)) as [E|E].
  - destruct H as [->|H]; auto. exfalso. apply N1. rewrite E. now apply in_map.
  - destruct H as [->|H]; [congruence|]. now apply IH.
Qed.

(** rows used by a track *)
Definition cnt_step (id n : nat) (s : list corr) : nat :=
  match find_id id s with
  | None => n
  | Some c => (if n =? 0 then 1 else n) + adv c + 1
  end.
Fixpoint cntr (h : list (list corr)) (id : nat) : nat :=
  match h with [] => 0 | s :: h' => cnt_step id (cntr h' id) s end.

(** step (date of departure) of the first link of a track *)
Fixpoint firstr (h : list (list corr)) (id : nat) : option nat :=
  match h with
  | [] => None
  | s :: h' => match firstr h' id with
               | Some f => Some f
               | None => if mem id (map c_id s) then Some (length h') else None
               end
  end.

Lemma firstr_gap : forall h id, firstr h id = None <-> gap h id = None.
Proof.
  induction h as [|s h IH]; intros id; simpl; [tauto|].
  specialize (IH id). destruct (firstr h id), (gap h id), (mem id (map c_id s)); simpl in *; try tauto;
    split; intros; try congruence; destruct IH; try (specialize (H0 eq_refl); congruence);
    try (specialize (H1 eq_refl); congruence).
Qed.

Lemma cntr_0 : forall h id, cntr h id = 0 <-> gap h id = None.
Proof.
  induction h as [|s h IH]; intros id; simpl; [tauto|]. unfold cnt_step.
  destruct (mem id (map c_id s)) eqn:E.
  - destruct (find_id id s) eqn:F; [split; [lia|discriminate]|].
    apply find_id_None in F. apply mem_In in E. contradiction.
  - apply mem_false, find_id_None in E. rewrite E, IH.
    destruct (gap h id); simpl; split; congruence.
Qed.

(** length of a track = its time span *)
Lemma cntr_span : forall h, wfh h -> forall id g f,
  gap h id = Some g -> firstr h id = Some f -> cntr h id + g + f = length h + 1 /\ f + g < length h.
Proof.
  induction 1 as [|s h H IH ND K]; intros id g f G F; [discriminate|].
  cbn [gap firstr cntr length] in *. unfold cnt_step.
  destruct (mem id (map c_id s)) eqn:E.
  - injection G as <-. destruct (find_id id s) as [c|] eqn:Fi.
    2:{ apply find_id_None in Fi. apply mem_In in E. contradiction. }
    apply find_id_Some in Fi as [Hc Ei]. subst id.
    destruct (K c Hc) as [(K1 & K2)|K1].
    + rewrite (proj2 (firstr_gap _ _) K1) in F. injection F as <-.
      rewrite (proj2 (cntr_0 _ _) K1). simpl. unfold adv. rewrite K2. lia.
    + destruct (firstr h (c_id c)) as [f0|] eqn:F0.
      2:{ apply firstr_gap in F0. congruence. }
      injection F as <-. destruct (IH _ _ _ K1 F0) as [A B].
      destruct (cntr h (c_id c)) eqn:C0; [lia|]. simpl. lia.
  - assert (Fi : find_id id s = None) by (apply find_id_None, mem_false, E). rewrite Fi.
    destruct (gap h id) as [g0|] eqn:G0; [|discriminate]. injection G as <-.
    destruct (firstr h id) as [f0|] eqn:F0; [|discriminate]. injection F as <-.
    destruct (IH _ _ _ G0 F0). lia.
Qed.

Lemma cntr_mono : forall h0 h id, cntr h id <= cntr (h0 ++ h) id.
Proof.
  induction h0 as [|s h0 IH]; intros h id; simpl; auto. specialize (IH h id). unfold cnt_step.
  destruct (find_id id s); auto. destruct (Nat.eqb_spec (cntr (h0 ++ h) id) 0); lia.
Qed.

Lemma gap_bound_ids : forall cur h, dense cur h -> forall s c, In s h -> In c s -> c_id c < cur.
Proof.
  intros cur h D s c Hs Hc. apply D. intros G. eapply (proj1 (gap_None_all _ _) G); eauto. now apply in_map.
Qed.

(** ** Fancy increments *)
Lemma add_at_spec : forall a ix vs, NoDup ix -> length vs = length ix -> (forall i, In i ix -> i < length a) ->
  exists a', add_at a ix vs = Some a' /\ length a' = length a /\
    (forall k i v x, nth_error ix k = Some i -> nth_error vs k = Some v -> nth_error a i = Some x ->
       nth_error a' i = Some (x + v)) /\
    (forall i, ~ In i ix -> nth_error a' i = nth_error a i).
Proof.
  intros a ix vs ND L B. unfold add_at.
  destruct (gather_total a ix B) as [cur E]. rewrite E. cbn [bind].
  destruct (proj1 (gather_Some _ _ _) E) as [L1 G].
  set (vals := map (fun p => fst p + snd p) (combine cur vs)).
  assert (LV : length vals = length ix) by (unfold vals; rewrite map_length, combine_length; lia).
  destruct (stores_total ix a vals) as [a' E']; auto.
  exists a'. split; auto. split; [eapply length_stores; eauto|]. split.
  - intros k i v x Hi Hv Hx. eapply (stores_nodup ix); eauto.
    destruct (G _ _ Hi) as (x' & X1 & X2). rewrite Hx in X1. injection X1 as <-.
    unfold vals. rewrite nth_error_map.
    assert (C : nth_error (combine cur vs) k = Some (x, v)).
    { clear - X2 Hv. revert vs k X2 Hv. induction cur as [|y cur IH]; intros [|w vs] [|k] A B; simpl in *; try discriminate.
      - congruence.
      - eauto. }
    rewrite C. reflexivity.
  - intros i N. eapply stores_other; eauto.
Qed.

(** columns indexed by a field of the records *)
Lemma add_at_ids : forall a s (val : corr -> nat), NoDup (map c_id s) -> (forall c, In c s -> c_id c < length a) ->
  exists a', add_at a (map c_id s) (map val s) = Some a' /\ length a' = length a /\
    forall i x, nth_error a i = Some x ->
      nth_error a' i = Some (match find_id i s with None => x | Some c => x + val c end).
Proof.
  intros a s val ND B.
  destruct (add_at_spec a (map c_id s) (map val s)) as (a' & E & L & A1 & A2); auto.
  - now rewrite !map_length.
  - intros i Hi. apply in_map_iff in Hi as (c & <- & Hc). auto.
  - exists a'. split; auto. split; auto. intros i x Hx.
    destruct (find_id i s) as [c|] eqn:F.
    + apply find_id_Some in F as [Hc <-]. apply In_nth_error in Hc as [k Hk].
      apply (A1 k); auto; rewrite nth_error_map, Hk; reflexivity.
    + apply find_id_None in F. now rewrite A2.
Qed.

Lemma find_id_filter : forall s i, NoDup (map c_id s) ->
  find_id i (filter c_virtual s) = match find_id i s with Some c => if c_virtual c then Some c else None | None => None end.
Proof.
  intros s i ND. destruct (find_id i s) as [c|] eqn:F.
  - apply find_id_Some in F as [Hc <-]. destruct (c_virtual c) eqn:E.
    + apply find_id_In; [apply NoDup_filter_map; auto|]. apply filter_In. auto.
    + apply find_id_None. intros C. apply in_map_iff in C as (c' & Ec & Hc').
      apply filter_In in Hc' as [Hc' Ev]. pose proof (find_id_In s c' ND Hc') as X.
      rewrite Ec, (find_id_In s c ND Hc) in X. injection X as <-. congruence.
  - apply find_id_None in F. apply find_id_None. intros C. apply F.
    apply in_map_iff in C as (c' & <- & Hc'). apply filter_In in Hc' as [Hc' _]. now apply in_map.
Qed.

Definition no_virtual (virtual : bool) (h : list (list corr)) : Prop :=
  virtual = false -> forall s c, In s h -> In c s -> c_virtual c = false.

Lemma count_obs_spec : forall virtual links nb h,
  Forall (fun s => NoDup (map c_id s)) links ->
  (forall s c, In s links -> In c s -> c_id c < length nb) ->
  no_virtual virtual links ->
  (forall i x, nth_error nb i = Some x -> x = if cntr h i =? 0 then 1 else cntr h i) ->
  exists nb', count_obs virtual links nb = Some nb' /\ length nb' = length nb /\
    forall i x, nth_error nb' i = Some x -> x = if cntr (rev links ++ h) i =? 0 then 1 else cntr (rev links ++ h) i.
Proof.
  intros virtual. induction links as [|s links IH]; intros nb h F B NV I; cbn [count_obs].
  - exists nb. auto.
  - inversion F as [|? ? F1 F2]; subst.
    destruct (add_at_ids nb s (fun _ => 1) F1) as (nb1 & E1 & L1 & H1); [intros; eapply B; eauto; left; auto|].
    rewrite map_map in *. rewrite E1. cbn [bind].
    assert (S2 : exists nb2, (if virtual then add_at nb1 (map c_id (filter c_virtual s)) (map c_vlen (filter c_virtual s)) else Some nb1) = Some nb2 /\
       length nb2 = length nb /\
       forall i x, nth_error nb i = Some x -> nth_error nb2 i = Some (match find_id i s with None => x | Some c => x + 1 + adv c end)).
    { destruct virtual.
      - destruct (add_at_ids nb1 (filter c_virtual s) c_vlen) as (nb2 & E2 & L2 & H2).
        + now apply NoDup_filter_map.
        + intros c Hc. apply filter_In in Hc as [Hc _]. rewrite L1. eapply B; eauto. left; auto.
        + exists nb2. split; auto. split; [lia|]. intros i x Hx. rewrite (H2 i _ (H1 i x Hx)).
          rewrite find_id_filter by auto. destruct (find_id i s) as [c|]; auto.
          unfold adv. destruct (c_virtual c); auto.
      - exists nb1. split; auto. split; auto. intros i x Hx. rewrite (H1 i x Hx).
        destruct (find_id i s) as [c|] eqn:Fi; auto. apply find_id_Some in Fi as [Hc _].
        unfold adv. rewrite (NV eq_refl s c (or_introl eq_refl) Hc). f_equal. lia. }
    destruct S2 as (nb2 & E2 & L2 & H2). rewrite E2. cbn [bind].
    destruct (IH nb2 (s :: h)) as (nb' & E' & L' & H'); auto.
    + intros s' c Hs Hc. rewrite L2. eapply B; eauto. right; auto.
    + intros V s' c Hs Hc. eapply NV; eauto. right; auto.
    + intros i x Hx. assert (Li : i < length nb) by (rewrite <- L2; eapply nth_error_Some_lt; eauto).
      destruct (nth_error_lt_Some nb i Li) as [x0 Hx0]. rewrite (H2 i x0 Hx0) in Hx. injection Hx as <-.
      rewrite (I i x0 Hx0). cbn [cntr]. unfold cnt_step. destruct (find_id i s) as [c|]; auto.
      destruct (Nat.eqb_spec (cntr h i) 0); simpl; [|destruct (Nat.eqb_spec (cntr h i + adv c + 1) 0); lia]. lia.
    + exists nb'. split; auto. split; [lia|]. simpl. rewrite <- app_assoc. exact H'.
Qed.

Lemma wfh_nodup : forall h, wfh h -> Forall (fun s => NoDup (map c_id s)) h.
Proof. induction 1; constructor; auto. Qed.

(** nb_obs_by_tracks on a well formed history *)
Lemma nb_obs_spec : forall virtual h cur,
  wfh h -> dense cur h -> no_virtual virtual h ->
  exists nb, nb_obs_by_tracks virtual cur (rev h) = Some nb /\ length nb = cur /\
    forall id, id < cur -> nth_error nb id = Some (cntr h id) /\ 0 < cntr h id.
Proof.
  intros virtual h cur W D NV. unfold nb_obs_by_tracks.
  destruct (count_obs_spec virtual (rev h) (repeat 1 cur) []) as (nb & E & L & H).
  - apply Forall_forall. intros s Hs. apply in_rev in Hs. pose proof (wfh_nodup h W) as X. rewrite Forall_forall in X. auto.
  - intros s c Hs Hc. apply in_rev in Hs. rewrite repeat_length. eapply gap_bound_ids; eauto.
  - intros V s c Hs Hc. apply in_rev in Hs. eapply NV; eauto.
  - intros i x Hx. simpl. apply nth_error_In, repeat_spec in Hx. exact Hx.
  - rewrite repeat_length in L. exists nb. split; auto. split; auto.
    intros id Hid. rewrite rev_involutive, app_nil_r in H.
    destruct (nth_error_lt_Some nb id) as [x Hx]; [lia|].
    assert (P : cntr h id <> 0). { intros C. apply cntr_0 in C. apply (proj1 (D id) Hid C). }
    rewrite Hx, (H id x Hx). destruct (Nat.eqb_spec (cntr h id) 0); [contradiction|]. split; auto. lia.
Qed.

(** ** Merge *)
Definition base_ (h : list (list corr)) (id : nat) : nat := if cntr h id =? 0 then 1 else cntr h id.

(** content of the row [k] of track [id] *)
Fixpoint slot (h : list (list corr)) (id k : nat) : option (nat * nat) :=
  match h with
  | [] => None
  | s :: h' =>
      match find_id id s with
      | None => slot h' id k
      | Some c =>
          if k =? base_ h' id + adv c then Some (S (length h'), c_out c)
          else if (cntr h' id =? 0) && (k =? 0) then Some (length h', c_in c)
          else slot h' id k
      end
  end.
Fixpoint cslot (h : list (list corr)) (id k : nat) : option Q :=
  match h with
  | [] => None
  | s :: h' =>
      match find_id id s with
      | None => cslot h' id k
      | Some c => if S k =? base_ h' id + adv c then Some (c_cost c) else cslot h' id k
      end
  end.

Lemma gather_map : forall {A B} (l : list A) (ix : B -> nat) (val : B -> A) s,
  (forall c, In c s -> nth_error l (ix c) = Some (val c)) -> gather l (map ix s) = Some (map val s).
Proof.
  induction s as [|c s IH]; intros H; simpl; auto.
  rewrite (H c (or_introl eq_refl)). cbn [bind]. rewrite IH by (intros; apply H; right; auto). reflexivity.
Qed.

Lemma select_map : forall {A B} (f : A -> bool) (g : A -> B) s,
  select (map f s) (map g s) = map g (filter f s).
Proof. induction s as [|a s IH]; simpl; auto. destruct (f a); simpl; now rewrite IH. Qed.
Lemma select_map_id : forall {A} (f : A -> bool) (s : list A), select (map f s) s = filter f s.
Proof. intros. rewrite <- (map_id s) at 2. rewrite select_map, map_id. reflexivity. Qed.

Lemma sequence_map : forall {A B} (f : A -> option B) (g : A -> B) s,
  (forall c, In c s -> f c = Some (g c)) -> sequence (map f s) = Some (map g s).
Proof.
  induction s as [|c s IH]; intros H; simpl; auto.
  rewrite (H c (or_introl eq_refl)). cbn [bind]. rewrite IH by (intros; apply H; right; auto). reflexivity.
Qed.

Section Merge.
  Context (nb : list nat).
  Let cur := length nb.
  Definition st (id : nat) : nat := sum_list (firstn id nb).
  Definition size (id : nat) : nat := nth id nb 0.

  Lemma st_S : forall id, id < length nb -> st (S id) = st id + size id.
  Proof.
    unfold st, size. clear cur. induction nb as [|a l IH]; intros id H; simpl in *; [lia|].
    destruct id as [|id]; simpl; [lia|]. specialize (IH id ltac:(lia)). simpl in IH. lia.
  Qed.
  Lemma st_le : forall a b, a < b -> b <= length nb -> st a + size a <= st b.
  Proof.
    intros a b H. induction H as [|b H IH]; intros L.
    - rewrite st_S; lia.
    - rewrite st_S by lia. specialize (IH ltac:(lia)). lia.
  Qed.
  Lemma st_total : st (length nb) = sum_list nb.
  Proof. unfold st. now rewrite firstn_all. Qed.
  Lemma row_lt : forall id k, id < length nb -> k < size id -> st id + k < sum_list nb.
  Proof. intros id k L K. pose proof (st_le id (length nb) L (le_n _)). rewrite st_total in H. lia. Qed.
  Lemma row_inj : forall id k id' k', id < length nb -> id' < length nb -> k < size id -> k' < size id' ->
    st id + k = st id' + k' -> id = id' /\ k = k'.
  Proof.
    intros id k id' k' L L' K K' E.
    destruct (Nat.lt_trichotomy id id') as [X|[->|X]].
    - pose proof (st_le id id' X ltac:(lia)). lia.
    - split; auto. lia.
    - pose proof (st_le id' id X ltac:(lia)). lia.
  Qed.

  (** column written at one row of each of the listed tracks *)
  Lemma stores_rows : forall {A} (l : list A) s (kf : corr -> nat) (val : corr -> A),
    length l = sum_list nb -> NoDup (map c_id s) ->
    (forall c, In c s -> c_id c < length nb /\ kf c < size (c_id c)) ->
    exists l', stores l (map (fun c => st (c_id c) + kf c) s) (map val s) = Some l' /\
      length l' = sum_list nb /\
      forall id k, id < length nb -> k < size id ->
        nth_error l' (st id + k) =
          match find_id id s with
          | Some c => if k =? kf c then Some (val c) else nth_error l (st id + k)
          | None => nth_error l (st id + k)
          end.
  Proof.
    intros A l s kf val L ND B.
    destruct (stores_total (map (fun c => st (c_id c) + kf c) s) l (map val s)) as [l' E].
    { now rewrite !map_length. }
    { intros i Hi. apply in_map_iff in Hi as (c & <- & Hc). destruct (B c Hc). rewrite L. now apply row_lt. }
    exists l'. split; auto. split; [rewrite <- L; eapply length_stores; eauto|].
    assert (NDR : NoDup (map (fun c => st (c_id c) + kf c) s)).
    { apply NoDup_map_nth. intros a b x y Lab Hx Hy Ex.
      destruct (B x (nth_error_In _ _ Hx)). destruct (B y (nth_error_In _ _ Hy)).
      destruct (row_inj (c_id x) (kf x) (c_id y) (kf y)) as [Y _]; auto.
      apply (nth_error_map_neq c_id s a b x y ND); auto. lia. }
    intros id k Lid Lk. destruct (find_id id s) as [c|] eqn:F.
    - apply find_id_Some in F as [Hc <-]. destruct (Nat.eqb_spec k (kf c)) as [->|N].
      + apply In_nth_error in Hc as [p Hp].
        eapply (stores_nodup _ _ _ _ p); eauto; rewrite nth_error_map, Hp; reflexivity.
      + apply (stores_other _ _ _ _ _ E). intros C. apply in_map_iff in C as (c' & E' & Hc').
        destruct (B c' Hc'). destruct (row_inj (c_id c') (kf c') (c_id c) k) as [Y Z]; auto.
        assert (c' = c); [|subst; auto].
        pose proof (find_id_In s c' ND Hc') as X. rewrite Y, (find_id_In s c ND Hc) in X. congruence.
    - apply (stores_other _ _ _ _ _ E). intros C. apply in_map_iff in C as (c' & E' & Hc').
      destruct (B c' Hc'). destruct (row_inj (c_id c') (kf c') id k) as [Y Z]; auto.
      apply find_id_None in F. apply F. rewrite <- Y. now apply in_map.
  Qed.

  Record minv (h : list (list corr)) (m : mstate) : Prop := {
    mi_lpos : length (m_pos m) = length nb;
    mi_lfirst : length (m_first m) = length nb;
    mi_lobs : length (m_obs m) = sum_list nb;
    mi_lcost : length (m_cost m) = sum_list nb;
    mi_pos : forall id, id < length nb -> nth_error (m_pos m) id = Some (st id + cntr h id);
    mi_first : forall id, id < length nb -> nth_error (m_first m) id = Some (negb (cntr h id =? 0));
    mi_obs : forall id k, id < length nb -> k < size id -> nth_error (m_obs m) (st id + k) = Some (slot h id k);
    mi_cost : forall id k, id < length nb -> k < size id -> nth_error (m_cost m) (st id + k) = Some (cslot h id k)
  }.

  Lemma find_id_filter_gen : forall (f : corr -> bool) s i, NoDup (map c_id s) ->
    find_id i (filter f s) = match find_id i s with Some c => if f c then Some c else None | None => None end.
  Proof.
    intros f s i ND. destruct (find_id i s) as [c|] eqn:F.
    - apply find_id_Some in F as [Hc <-]. destruct (f c) eqn:E.
      + apply find_id_In; [apply NoDup_filter_map; auto|]. apply filter_In. auto.
      + apply find_id_None. intros C. apply in_map_iff in C as (c' & Ec & Hc').
        apply filter_In in Hc' as [Hc' Ev]. pose proof (find_id_In s c' ND Hc') as X.
        rewrite Ec, (find_id_In s c ND Hc) in X. injection X as <-. congruence.
    - apply find_id_None in F. apply find_id_None. intros C. apply F.
      apply in_map_iff in C as (c' & <- & Hc'). apply filter_In in Hc' as [Hc' _]. now apply in_map.
  Qed.

  Lemma merge_step_inv : forall virtual h s m,
    minv h m -> NoDup (map c_id s) -> (forall c, In c s -> c_id c < length nb) ->
    (virtual = false -> forall c, In c s -> c_virtual c = false) ->
    (forall id, id < length nb -> cntr (s :: h) id <= size id) ->
    exists m', merge_step virtual (length h) s m = Some m' /\ minv (s :: h) m'.
  Proof.
    intros virtual h s m I ND B NV LE. unfold merge_step.
    rewrite (gather_map (m_pos m) c_id (fun c => st (c_id c) + cntr h (c_id c)) s) by (intros c Hc; apply (mi_pos _ _ I); auto).
    cbn [bind].
    rewrite (gather_map (m_first m) c_id (fun c => negb (cntr h (c_id c) =? 0)) s) by (intros c Hc; apply (mi_first _ _ I); auto).
    cbn [bind].
    set (isnew := fun c : corr => cntr h (c_id c) =? 0).
    assert (EN : map negb (map (fun c => negb (cntr h (c_id c) =? 0)) s) = map isnew s).
    { rewrite map_map. apply map_ext. intros c. apply negb_involutive. }
    rewrite EN, select_map, select_map_id.
    assert (KS : forall c, In c s -> base_ h (c_id c) + adv c + 1 <= size (c_id c)).
    { intros c Hc. specialize (LE (c_id c) (B c Hc)). cbn [cntr] in LE. unfold cnt_step in LE.
      rewrite (find_id_In s c ND Hc) in LE. unfold base_. lia. }
    assert (BP : forall id, 1 <= base_ h id) by (intros id; unfold base_; destruct (Nat.eqb_spec (cntr h id) 0); lia).
    (* first observations *)
    assert (PART1 : exists obs1 pos1 first1,
      (if existsb negb (map (fun c => negb (cntr h (c_id c) =? 0)) s) then
         let! obs1 := stores (m_obs m) (map (fun c => st (c_id c) + cntr h (c_id c)) (filter isnew s))
                        (map (fun c => Some (length h, c_in c)) (filter isnew s)) in
         let! pos1 := add_at (m_pos m) (map c_id (filter isnew s)) (map (fun _ => 1) (filter isnew s)) in
         let! first1 := stores (m_first m) (map c_id s) (map (fun _ => true) (map c_id s)) in
         let! final1 := gather pos1 (map c_id s) in
         Some (obs1, (pos1, first1, final1))
       else Some (m_obs m, (m_pos m, m_first m, map (fun c => st (c_id c) + cntr h (c_id c)) s)))
      = Some (obs1, (pos1, first1, map (fun c => st (c_id c) + base_ h (c_id c)) s)) /\
      length obs1 = sum_list nb /\ length pos1 = length nb /\ length first1 = length nb /\
      (forall id k, id < length nb -> k < size id -> nth_error obs1 (st id + k) =
         Some (match find_id id s with
               | Some c => if (cntr h id =? 0) && (k =? 0) then Some (length h, c_in c) else slot h id k
               | None => slot h id k end)) /\
      (forall id, id < length nb -> nth_error pos1 id = Some (match find_id id s with Some _ => st id + base_ h id | None => st id + cntr h id end)) /\
      (forall id, id < length nb -> nth_error first1 id = Some (match find_id id s with Some _ => true | None => negb (cntr h id =? 0) end))).
    { destruct (existsb negb (map (fun c => negb (cntr h (c_id c) =? 0)) s)) eqn:EX.
      - destruct (stores_rows (m_obs m) (filter isnew s) (fun c => cntr h (c_id c)) (fun c => Some (length h, c_in c))) as (obs1 & O1 & O2 & O3).
        { apply (mi_lobs _ _ I). } { now apply NoDup_filter_map. }
        { intros c Hc. apply filter_In in Hc as [Hc Hn]. split; auto. unfold isnew in Hn. apply Nat.eqb_eq in Hn.
          specialize (KS c Hc). lia. }
        rewrite O1. cbn [bind].
        destruct (add_at_ids (m_pos m) (filter isnew s) (fun _ => 1)) as (pos1 & P1 & P2 & P3).
        { now apply NoDup_filter_map. }
        { intros c Hc. apply filter_In in Hc as [Hc _]. rewrite (mi_lpos _ _ I). auto. }
        rewrite P1. cbn [bind].
        destruct (stores_total (map c_id s) (m_first m) (map (fun _ => true) (map c_id s))) as [first1 F1].
        { now rewrite !map_length. }
        { intros i Hi. apply in_map_iff in Hi as (c & <- & Hc). rewrite (mi_lfirst _ _ I). auto. }
        rewrite F1. cbn [bind].
        assert (P4 : forall id, id < length nb -> nth_error pos1 id = Some (match find_id id s with Some _ => st id + base_ h id | None => st id + cntr h id end)).
        { intros id Hid. rewrite (P3 id _ (mi_pos _ _ I id Hid)). rewrite find_id_filter_gen by auto.
          destruct (find_id id s) as [c|] eqn:F; auto. apply find_id_Some in F as [_ <-].
          unfold isnew, base_. destruct (Nat.eqb_spec (cntr h (c_id c)) 0); f_equal; lia. }
        rewrite (gather_map pos1 c_id (fun c => st (c_id c) + base_ h (c_id c)) s).
        2:{ intros c Hc. rewrite P4 by auto. now rewrite (find_id_In s c ND Hc). }
        cbn [bind]. exists obs1, pos1, first1. split; auto. split; auto.
        split; [rewrite P2; apply (mi_lpos _ _ I)|].
        split; [rewrite (length_stores _ _ _ _ F1); apply (mi_lfirst _ _ I)|]. split; [|split; auto].
        + intros id k Hid Hk. rewrite (O3 id k Hid Hk), find_id_filter_gen by auto.
          rewrite (mi_obs _ _ I id k Hid Hk).
          destruct (find_id id s) as [c|] eqn:F; auto. apply find_id_Some in F as [_ <-].
          unfold isnew. destruct (Nat.eqb_spec (cntr h (c_id c)) 0) as [Z|Z]; simpl; auto.
          rewrite Z. destruct (k =? 0); auto.
        + intros id Hid. destruct (find_id id s) as [c|] eqn:F.
          * apply find_id_Some in F as [Hc <-]. apply In_nth_error in Hc as [p Hp].
            eapply (stores_nodup (map c_id s) _ _ _ p); eauto; rewrite !nth_error_map, Hp; reflexivity.
          * rewrite (stores_other _ _ _ _ id F1); [apply (mi_first _ _ I); auto|]. now apply find_id_None.
      - assert (OLD : forall c, In c s -> cntr h (c_id c) <> 0).
        { intros c Hc Z. apply not_true_iff_false in EX. apply EX. apply existsb_exists.
          exists (negb (cntr h (c_id c) =? 0)). split; [apply in_map_iff; eauto|]. rewrite Z. reflexivity. }
        exists (m_obs m), (m_pos m), (m_first m). split.
        { do 3 f_equal. apply map_ext_in. intros c Hc. unfold base_.
          destruct (Nat.eqb_spec (cntr h (c_id c)) 0); auto. exfalso. eapply OLD; eauto. }
        split; [apply (mi_lobs _ _ I)|]. split; [apply (mi_lpos _ _ I)|]. split; [apply (mi_lfirst _ _ I)|].
        assert (FO : forall id c, find_id id s = Some c -> (cntr h id =? 0) = false).
        { intros id c F. apply find_id_Some in F as [Hc <-]. apply Nat.eqb_neq. auto. }
        split; [|split].
        + intros id k Hid Hk. rewrite (mi_obs _ _ I id k Hid Hk). destruct (find_id id s) eqn:F; auto.
          now rewrite (FO _ _ F).
        + intros id Hid. rewrite (mi_pos _ _ I id Hid). destruct (find_id id s) eqn:F; auto.
          unfold base_. now rewrite (FO _ _ F).
        + intros id Hid. rewrite (mi_first _ _ I id Hid). destruct (find_id id s) eqn:F; auto.
          now rewrite (FO _ _ F). }
    destruct PART1 as (obs1 & pos1 & first1 & E1 & Lo & Lp & Lf & HO & HP & HF).
    rewrite E1. cbn [bind]. clear E1.
    (* virtual rows *)
    assert (PART2 : exists pos2,
      (if virtual && negb (length (filter c_virtual s) =? 0) then
         let! pos2 := add_at pos1 (map c_id (filter c_virtual s)) (map c_vlen (filter c_virtual s)) in
         let! final2 := gather pos2 (map c_id s) in Some (pos2, final2)
       else Some (pos1, map (fun c => st (c_id c) + base_ h (c_id c)) s))
      = Some (pos2, map (fun c => st (c_id c) + (base_ h (c_id c) + adv c)) s) /\ length pos2 = length nb /\
      (forall id, id < length nb -> nth_error pos2 id =
         Some (match find_id id s with Some c => st id + (base_ h id + adv c) | None => st id + cntr h id end))).
    { destruct (virtual && negb (length (filter c_virtual s) =? 0)) eqn:EV.
      - destruct (add_at_ids pos1 (filter c_virtual s) c_vlen) as (pos2 & P1 & P2 & P3).
        { now apply NoDup_filter_map. }
        { intros c Hc. apply filter_In in Hc as [Hc _]. rewrite Lp. auto. }
        rewrite P1. cbn [bind].
        assert (P4 : forall id, id < length nb -> nth_error pos2 id =
           Some (match find_id id s with Some c => st id + (base_ h id + adv c) | None => st id + cntr h id end)).
        { intros id Hid. rewrite (P3 id _ (HP id Hid)), find_id_filter_gen by auto.
          destruct (find_id id s) as [c|]; auto. unfold adv. destruct (c_virtual c); f_equal; lia. }
        rewrite (gather_map pos2 c_id (fun c => st (c_id c) + (base_ h (c_id c) + adv c)) s).
        2:{ intros c Hc. rewrite P4 by auto. now rewrite (find_id_In s c ND Hc). }
        cbn [bind]. exists pos2. split; auto. split; auto. lia.
      - assert (A0 : forall c, In c s -> adv c = 0).
        { intros c Hc. unfold adv. destruct (c_virtual c) eqn:E; auto. exfalso.
          apply andb_false_iff in EV as [EV|EV].
          - rewrite (NV EV c Hc) in E. discriminate.
          - apply negb_false_iff, Nat.eqb_eq in EV.
            assert (X : In c (filter c_virtual s)) by (apply filter_In; auto).
            destruct (filter c_virtual s); [contradiction|discriminate]. }
        exists pos1. split.
        { do 2 f_equal. apply map_ext_in. intros c Hc. rewrite (A0 c Hc). lia. }
        split; auto. intros id Hid. rewrite (HP id Hid). destruct (find_id id s) as [c|] eqn:F; auto.
        apply find_id_Some in F as [Hc _]. rewrite (A0 c Hc). f_equal. lia. }
    destruct PART2 as (pos2 & E2 & Lp2 & HP2).
    match goal with |- context [bind (if ?b then ?x else ?y) _] =>
      change (if b then x else y) with
      (if virtual && negb (length (filter c_virtual s) =? 0) then
         let! pos2 := add_at pos1 (map c_id (filter c_virtual s)) (map c_vlen (filter c_virtual s)) in
         let! final2 := gather pos2 (map c_id s) in Some (pos2, final2)
       else Some (pos1, map (fun c => st (c_id c) + base_ h (c_id c)) s)) end.
    rewrite E2. cbn [bind]. clear E2.
    rewrite map_map.
    rewrite (sequence_map (fun c => minus_one (st (c_id c) + (base_ h (c_id c) + adv c)))
               (fun c => st (c_id c) + (base_ h (c_id c) + adv c - 1)) s).
    2:{ intros c Hc. specialize (BP (c_id c)). unfold minus_one.
        destruct (st (c_id c) + (base_ h (c_id c) + adv c)) eqn:E; [lia|]. f_equal. lia. }
    cbn [bind].
    destruct (stores_rows (m_cost m) s (fun c => base_ h (c_id c) + adv c - 1) (fun c => Some (c_cost c))) as (cost1 & C1 & C2 & C3); auto.
    { apply (mi_lcost _ _ I). }
    { intros c Hc. split; auto. specialize (KS c Hc). lia. }
    rewrite C1. cbn [bind].
    destruct (stores_rows obs1 s (fun c => base_ h (c_id c) + adv c) (fun c => Some (S (length h), c_out c))) as (obs2 & O1 & O2 & O3); auto.
    { intros c Hc. split; auto. specialize (KS c Hc). lia. }
    rewrite O1. cbn [bind].
    destruct (add_at_ids pos2 s (fun _ => 1) ND) as (pos3 & P1 & P2 & P3).
    { intros c Hc. rewrite Lp2. auto. }
    rewrite map_map. rewrite P1. cbn [bind].
    eexists. split; [reflexivity|]. constructor; cbn [m_pos m_first m_obs m_cost]; auto; try lia.
    - intros id Hid. rewrite (P3 id _ (HP2 id Hid)). cbn [cntr]. unfold cnt_step.
      destruct (find_id id s) as [c|]; auto. unfold base_. f_equal. lia.
    - intros id Hid. rewrite (HF id Hid). cbn [cntr]. unfold cnt_step.
      destruct (find_id id s) as [c|]; auto. f_equal.
      destruct (Nat.eqb_spec ((if cntr h id =? 0 then 1 else cntr h id) + adv c + 1) 0); [lia|reflexivity].
    - intros id k Hid Hk. rewrite (O3 id k Hid Hk), (HO id k Hid Hk). cbn [slot].
      destruct (find_id id s) as [c|] eqn:F; auto. apply find_id_Some in F as [_ <-].
      destruct (k =? base_ h (c_id c) + adv c); auto.
    - intros id k Hid Hk. rewrite (C3 id k Hid Hk), (mi_cost _ _ I id k Hid Hk). cbn [cslot].
      destruct (find_id id s) as [c|] eqn:F; auto. apply find_id_Some in F as [_ <-].
      specialize (BP (c_id c)).
      destruct (Nat.eqb_spec k (base_ h (c_id c) + adv c - 1)), (Nat.eqb_spec (S k) (base_ h (c_id c) + adv c)); auto; lia.
  Qed.

  Lemma merge_loop_inv : forall virtual links h m,
    minv h m -> Forall (fun s => NoDup (map c_id s)) links ->
    (forall s c, In s links -> In c s -> c_id c < length nb) -> no_virtual virtual links ->
    (forall id, id < length nb -> cntr (rev links ++ h) id <= size id) ->
    exists m', merge_loop virtual (length h) links m = Some m' /\ minv (rev links ++ h) m'.
  Proof.
    intros virtual. induction links as [|s links IH]; intros h m I F B NV LE; cbn [merge_loop].
    - exists m. auto.
    - inversion F as [|? ? F1 F2]; subst.
      destruct (merge_step_inv virtual h s m I F1) as (m1 & E1 & I1).
      + intros c Hc. eapply B; eauto. left; auto.
      + intros V c Hc. eapply NV; eauto. left; auto.
      + intros id Hid. specialize (LE id Hid). simpl in LE. rewrite <- app_assoc in LE.
        pose proof (cntr_mono (rev links) ([s] ++ h) id). simpl in H. simpl in LE. cbn [cntr]. lia.
      + rewrite E1. cbn [bind].
        destruct (IH (s :: h) m1 I1 F2) as (m' & E' & I').
        * intros s' c Hs Hc. eapply B; eauto. right; auto.
        * intros V s' c Hs Hc. eapply NV; eauto. right; auto.
        * intros id Hid. specialize (LE id Hid). simpl in LE. rewrite <- app_assoc in LE. exact LE.
        * exists m'. split; auto. simpl. rewrite <- app_assoc. exact I'.
  Qed.
End Merge.

Lemma nth_error_repeat_by : forall {A} (l : list A) nb id k,
  length l = length nb -> id < length nb -> k < size nb id ->
  nth_error (repeat_by l nb) (st nb id + k) = nth_error l id.
Proof.
  induction l as [|a l IH]; intros [|n nb] id k L Hid Hk; simpl in L; try discriminate; simpl in Hid; try lia.
  injection L as L. unfold size in Hk. destruct id as [|id]; simpl in *.
  - unfold st. simpl. rewrite nth_error_app1 by (rewrite repeat_length; auto).
    rewrite nth_error_repeat_lt, (proj2 (Nat.ltb_lt _ _) Hk). reflexivity.
  - unfold st. cbn [firstn sum_list]. rewrite nth_error_app2 by (rewrite repeat_length; lia).
    rewrite repeat_length. replace (n + sum_list (firstn id nb) + k - n) with (st nb id + k) by (unfold st; lia).
    apply IH; auto. lia.
Qed.
Lemma length_repeat_by : forall {A} (l : list A) nb, length l = length nb -> length (repeat_by l nb) = sum_list nb.
Proof.
  induction l as [|a l IH]; intros [|n nb] L; simpl in *; try discriminate; auto.
  rewrite app_length, repeat_length, IH; auto.
Qed.

Lemma nth_error_combine : forall {A B} (a : list A) (b : list B) i x y,
  nth_error a i = Some x -> nth_error b i = Some y -> nth_error (combine a b) i = Some (x, y).
Proof.
  induction a as [|u a IH]; intros [|v b] [|i] x y H1 H2; simpl in *; try discriminate; [congruence|eauto].
Qed.

Lemma zip_rows_nth : forall t n o c i t0 n0 o0 c0,
  nth_error t i = Some t0 -> nth_error n i = Some n0 -> nth_error o i = Some o0 -> nth_error c i = Some c0 ->
  nth_error (zip_rows t n o c) i = Some (mkrow t0 n0 o0 c0).
Proof.
  induction t as [|a t IH]; intros [|b n] [|u o] [|v c] [|i] t0 n0 o0 c0 H1 H2 H3 H4; simpl in *; try discriminate.
  - congruence.
  - eauto.
Qed.
Lemma zip_rows_length : forall t n o c,
  length n = length t -> length o = length t -> length c = length t -> length (zip_rows t n o c) = length t.
Proof. induction t as [|a t IH]; intros [|b n] [|u o] [|v c] H1 H2 H3; simpl in *; try discriminate; auto. Qed.

Lemma nth_error_excl : forall nb id, id < length nb -> nth_error (excl_sums 0 nb) id = Some (st nb id).
Proof. intros. rewrite nth_error_excl_sums by auto. reflexivity. Qed.

(** merge on a well formed history *)
Lemma merge_spec : forall virtual h cur nb,
  wfh h -> dense cur h -> no_virtual virtual h ->
  length nb = cur -> (forall id, id < cur -> nth_error nb id = Some (cntr h id)) ->
  exists rows, merge virtual nb (rev h) = Some rows /\ length rows = sum_list nb /\
    forall id k, id < cur -> k < cntr h id ->
      nth_error rows (sum_list (firstn id nb) + k) = Some (mkrow id k (slot h id k) (cslot h id k)).
Proof.
  intros virtual h cur nb W D NV L HN. unfold merge.
  assert (SZ : forall id, id < length nb -> size nb id = cntr h id).
  { intros id Hid. unfold size. apply nth_error_nth with (d := 0). apply HN. lia. }
  destruct (merge_loop_inv nb virtual (rev h) []
     (mkmstate (excl_sums 0 nb) (map (fun _ => false) nb) (repeat None (sum_list nb)) (repeat None (sum_list nb)))) as (m & E & I).
  - constructor; cbn [m_pos m_first m_obs m_cost].
    + apply excl_sums_length.
    + apply map_length.
    + apply repeat_length.
    + apply repeat_length.
    + intros id Hid. rewrite nth_error_excl by auto. simpl. now rewrite Nat.add_0_r.
    + intros id Hid. rewrite nth_error_map. destruct (nth_error_lt_Some nb id Hid) as [x ->]. reflexivity.
    + intros id k Hid Hk. rewrite nth_error_repeat_lt. rewrite (proj2 (Nat.ltb_lt _ _)); auto. now apply row_lt.
    + intros id k Hid Hk. rewrite nth_error_repeat_lt. rewrite (proj2 (Nat.ltb_lt _ _)); auto. now apply row_lt.
  - apply Forall_forall. intros s Hs. apply in_rev in Hs. pose proof (wfh_nodup h W) as X. rewrite Forall_forall in X. auto.
  - intros s c Hs Hc. apply in_rev in Hs. rewrite L. eapply gap_bound_ids; eauto.
  - intros V s c Hs Hc. apply in_rev in Hs. eapply NV; eauto.
  - intros id Hid. rewrite rev_involutive, app_nil_r. rewrite SZ; auto.
  - rewrite rev_involutive, app_nil_r in I. cbn [length] in E. rewrite E. cbn [bind].
    eexists. split; [reflexivity|].
    assert (LT : length (repeat_by (seq 0 (length nb)) nb) = sum_list nb).
    { apply length_repeat_by. now rewrite seq_length. }
    assert (LS : length (repeat_by (excl_sums 0 nb) nb) = sum_list nb).
    { apply length_repeat_by. now rewrite excl_sums_length. }
    split.
    + rewrite zip_rows_length; auto.
      * rewrite map_length, combine_length, seq_length, LS, LT. lia.
      * rewrite (mi_lobs _ _ _ I). auto.
      * rewrite (mi_lcost _ _ _ I). auto.
    + intros id k Hid Hk. fold (st nb id).
      assert (Hk' : k < size nb id) by (rewrite SZ; lia).
      assert (Hid' : id < length nb) by lia.
      apply zip_rows_nth.
      * rewrite nth_error_repeat_by; auto; [|now rewrite seq_length].
        rewrite nth_error_seq, (proj2 (Nat.ltb_lt _ _) Hid'). reflexivity.
      * rewrite nth_error_map, (nth_error_combine _ _ _ (st nb id + k) (st nb id)).
        -- cbn [option_map fst snd]. f_equal. lia.
        -- rewrite nth_error_seq. pose proof (row_lt nb id k Hid' Hk') as X.
           rewrite (proj2 (Nat.ltb_lt _ _) X). reflexivity.
        -- rewrite nth_error_repeat_by; auto; [|now rewrite excl_sums_length]. now apply nth_error_excl.
      * now apply (mi_obs _ _ _ I).
      * now apply (mi_cost _ _ _ I).
Qed.

(** ** Meaning of the rows *)

Lemma link_at_snoc : forall h s t c,
  link_at (rev h ++ [s]) t c <-> link_at (rev h) t c \/ (t = length h /\ In c s).
Proof.
  intros h s t c. unfold link_at. split.
  - intros (s' & E & Hc). destruct (Nat.lt_ge_cases t (length (rev h))) as [L|L].
    + rewrite nth_error_app1 in E by auto. left. eauto.
    + rewrite nth_error_app2 in E by auto. rewrite rev_length in *.
      destruct (t - length h) as [|k] eqn:K; simpl in E.
      * injection E as <-. right. split; auto. lia.
      * destruct k; discriminate.
  - intros [(s' & E & Hc)|(-> & Hc)].
    + exists s'. split; auto. rewrite nth_error_app1; auto. eapply nth_error_Some_lt; eauto.
    + exists s. split; auto. rewrite nth_error_app2; rewrite rev_length; auto. now rewrite Nat.sub_diag.
Qed.
Lemma link_at_lt : forall h t c, link_at (rev h) t c -> t < length h.
Proof. intros h t c (s & E & _). apply nth_error_Some_lt in E. now rewrite rev_length in E. Qed.

Lemma gap_None_links : forall h id, gap h id = None <-> forall t c, link_at (rev h) t c -> c_id c <> id.
Proof.
  intros h id. rewrite gap_None_all. split.
  - intros H t c (s & E & Hc) X. apply nth_error_In, in_rev in E. apply (H s E). rewrite <- X. now apply in_map.
  - intros H s Hs C. apply in_map_iff in C as (c & X & Hc). apply in_rev in Hs. apply In_nth_error in Hs as [t Ht].
    apply (H t c); auto. exists s. auto.
Qed.

Lemma slot_unseen : forall h id k, gap h id = None -> slot h id k = None.
Proof.
  induction h as [|s h IH]; intros id k G; auto. cbn [gap slot] in *.
  destruct (mem id (map c_id s)) eqn:E; [discriminate|]. apply mem_false, find_id_None in E. rewrite E.
  apply IH. destruct (gap h id); [discriminate|auto].
Qed.
Lemma cslot_unseen : forall h id k, gap h id = None -> cslot h id k = None.
Proof.
  induction h as [|s h IH]; intros id k G; auto. cbn [gap cslot] in *.
  destruct (mem id (map c_id s)) eqn:E; [discriminate|]. apply mem_false, find_id_None in E. rewrite E.
  apply IH. destruct (gap h id); [discriminate|auto].
Qed.

Lemma slot_spec : forall h, wfh h -> forall id f, firstr h id = Some f -> forall k x,
  slot h id k = Some x <->
  (k = 0 /\ exists c, link_at (rev h) f c /\ c_id c = id /\ x = (f, c_in c)) \/
  (exists t c, link_at (rev h) t c /\ c_id c = id /\ t + 1 = f + k /\ x = (t + 1, c_out c)).
Proof.
  induction 1 as [|s h W IH ND K]; intros id f F k x; [discriminate|].
  cbn [firstr slot rev] in *.
  destruct (find_id id s) as [c|] eqn:Fi.
  - pose proof (find_id_Some _ _ _ Fi) as [Hc Ei].
    assert (UNI : forall c', In c' s -> c_id c' = id -> c' = c).
    { intros c' Hc' E'. pose proof (find_id_In s c' ND Hc') as X. rewrite E', Fi in X. congruence. }
    destruct (K c Hc) as [(K1 & K2)|K1]; rewrite Ei in K1.
    + rewrite (proj2 (firstr_gap _ _) K1) in F.
      assert (M : mem id (map c_id s) = true) by (apply mem_In; rewrite <- Ei; now apply in_map).
      rewrite M in F. injection F as <-.
      assert (Z : cntr h id = 0) by now apply cntr_0.
      unfold base_. rewrite Z. cbn [Nat.eqb andb]. unfold adv. rewrite K2.
      assert (NO : forall t c', link_at (rev h) t c' -> c_id c' <> id) by now apply gap_None_links.
      destruct (Nat.eqb_spec k (1 + 0)) as [->|N1]; [|destruct (Nat.eqb_spec k 0) as [->|N0]].
      * split.
        -- intros E. apply Some_inj in E. subst x. right. exists (length h), c. rewrite link_at_snoc.
           split; auto. split; auto. split; [lia|]. f_equal. lia.
        -- intros [(E & _)|(t & c' & A & B & C & D)]; [lia|].
           apply link_at_snoc in A as [A|[-> A]]; [exfalso; eapply NO; eauto|].
           rewrite (UNI c' A B) in D. subst x. f_equal. f_equal. lia.
      * split.
        -- intros E. apply Some_inj in E. subst x. left. split; auto. exists c. rewrite link_at_snoc. auto.
        -- intros [(_ & c' & A & B & D)|(t & c' & A & B & C & D)].
           ++ apply link_at_snoc in A as [A|[_ A]]; [exfalso; eapply NO; eauto|].
              rewrite (UNI c' A B) in D. now subst x.
           ++ apply link_at_snoc in A as [A|[-> A]]; [exfalso; eapply NO; eauto|]. lia.
      * rewrite slot_unseen by auto. split; [discriminate|].
        intros [(E & _)|(t & c' & A & B & C & D)]; [lia|].
        apply link_at_snoc in A as [A|[-> A]]; [exfalso; eapply NO; eauto|]. lia.
    + destruct (firstr h id) as [f0|] eqn:F0.
      2:{ apply firstr_gap in F0. congruence. }
      injection F as <-.
      destruct (cntr_span h W id _ _ K1 F0) as [S1 S2].
      assert (P : cntr h id <> 0) by lia.
      unfold base_. rewrite (proj2 (Nat.eqb_neq _ _) P). cbn [andb].
      destruct (Nat.eqb_spec k (cntr h id + adv c)) as [Ek|Nk].
      * split.
        -- intros E. apply Some_inj in E. subst x. right. exists (length h), c. rewrite link_at_snoc.
           split; auto. split; auto. split; [lia|]. f_equal. lia.
        -- intros [(E & _)|(t & c' & A & B & C & D)]; [lia|].
           apply link_at_snoc in A as [A|[-> A]]; [apply link_at_lt in A; lia|].
           rewrite (UNI c' A B) in D. subst x. f_equal. f_equal. lia.
      * rewrite (IH id f0 F0 k x). split.
        -- intros [(E & c' & A & B & D)|(t & c' & A & B & C & D)].
           ++ left. split; auto. exists c'. rewrite link_at_snoc. auto.
           ++ right. exists t, c'. rewrite link_at_snoc. auto.
        -- intros [(E & c' & A & B & D)|(t & c' & A & B & C & D)].
           ++ apply link_at_snoc in A as [A|[Y A]]; [|lia]. left. split; auto. exists c'. auto.
           ++ apply link_at_snoc in A as [A|[-> A]]; [|exfalso; lia]. right. exists t, c'. auto.
  - assert (M : mem id (map c_id s) = false) by (apply mem_false, find_id_None, Fi). rewrite M in F.
    assert (F0 : firstr h id = Some f) by (destruct (firstr h id); congruence). clear F.
    apply find_id_None in Fi.
    rewrite (IH id f F0 k x). split.
    + intros [(E & c' & A & B & D)|(t & c' & A & B & C & D)].
      * left. split; auto. exists c'. rewrite link_at_snoc. auto.
      * right. exists t, c'. rewrite link_at_snoc. auto.
    + intros [(E & c' & A & B & D)|(t & c' & A & B & C & D)].
      * apply link_at_snoc in A as [A|[_ A]]; [|exfalso; apply Fi; rewrite <- B; now apply in_map]. left. split; auto. exists c'. auto.
      * apply link_at_snoc in A as [A|[_ A]]; [|exfalso; apply Fi; rewrite <- B; now apply in_map]. right. exists t, c'. auto.
Qed.

Lemma cslot_spec : forall h, wfh h -> forall id f, firstr h id = Some f -> forall k q,
  cslot h id k = Some q <-> exists c, link_at (rev h) (f + k) c /\ c_id c = id /\ q = c_cost c.
Proof.
  induction 1 as [|s h W IH ND K]; intros id f F k q; [discriminate|].
  cbn [firstr cslot rev] in *.
  destruct (find_id id s) as [c|] eqn:Fi.
  - pose proof (find_id_Some _ _ _ Fi) as [Hc Ei].
    assert (UNI : forall c', In c' s -> c_id c' = id -> c' = c).
    { intros c' Hc' E'. pose proof (find_id_In s c' ND Hc') as X. rewrite E', Fi in X. congruence. }
    destruct (K c Hc) as [(K1 & K2)|K1]; rewrite Ei in K1.
    + rewrite (proj2 (firstr_gap _ _) K1) in F.
      assert (M : mem id (map c_id s) = true) by (apply mem_In; rewrite <- Ei; now apply in_map).
      rewrite M in F. injection F as <-.
      assert (Z : cntr h id = 0) by now apply cntr_0.
      unfold base_. rewrite Z. change (0 =? 0) with true. cbv iota. unfold adv. rewrite K2.
      assert (NO : forall t c', link_at (rev h) t c' -> c_id c' <> id) by now apply gap_None_links.
      destruct (Nat.eqb_spec (S k) (1 + 0)) as [Ek|Nk].
      * split.
        -- intros E. injection E as <-. exists c. rewrite link_at_snoc. split; auto. right. split; auto. lia.
        -- intros (c' & A & B & D). apply link_at_snoc in A as [A|[_ A]]; [exfalso; eapply NO; eauto|].
           rewrite (UNI c' A B) in D. now subst q.
      * rewrite cslot_unseen by auto. split; [discriminate|].
        intros (c' & A & B & D). apply link_at_snoc in A as [A|[Y A]]; [exfalso; eapply NO; eauto|]. lia.
    + destruct (firstr h id) as [f0|] eqn:F0.
      2:{ apply firstr_gap in F0. congruence. }
      injection F as <-.
      destruct (cntr_span h W id _ _ K1 F0) as [S1 S2].
      assert (P : cntr h id <> 0) by lia.
      unfold base_. rewrite (proj2 (Nat.eqb_neq _ _) P).
      destruct (Nat.eqb_spec (S k) (cntr h id + adv c)) as [Ek|Nk].
      * split.
        -- intros E. injection E as <-. exists c. rewrite link_at_snoc. split; auto. right. split; auto. lia.
        -- intros (c' & A & B & D). apply link_at_snoc in A as [A|[_ A]]; [apply link_at_lt in A; lia|].
           rewrite (UNI c' A B) in D. now subst q.
      * rewrite (IH id f0 F0 k q). split; intros (c' & A & B & D); exists c'.
        -- rewrite link_at_snoc. auto.
        -- apply link_at_snoc in A as [A|[Y A]]; [auto|exfalso; lia].
  - assert (M : mem id (map c_id s) = false) by (apply mem_false, find_id_None, Fi). rewrite M in F.
    assert (F0 : firstr h id = Some f) by (destruct (firstr h id); congruence). clear F.
    apply find_id_None in Fi.
    rewrite (IH id f F0 k q). split; intros (c' & A & B & D); exists c'.
    + rewrite link_at_snoc. auto.
    + apply link_at_snoc in A as [A|[_ A]]; [auto|exfalso; apply Fi; rewrite <- B; now apply in_map].
Qed.

(** ** First and last link of a track *)
Lemma firstr_spec : forall h id f, firstr h id = Some f <->
  (exists c, link_at (rev h) f c /\ c_id c = id) /\ (forall t c, t < f -> link_at (rev h) t c -> c_id c <> id).
Proof.
  induction h as [|s h IH]; intros id f; cbn [firstr rev].
  - split; [discriminate|]. intros ((c & (s & E & _) & _) & _). destruct f; discriminate.
  - destruct (firstr h id) as [f0|] eqn:F0.
    + pose proof (proj1 (IH id f0) F0) as [(c0 & A0 & B0) L0]. split.
      * intros E. injection E as <-. split.
        -- exists c0. rewrite link_at_snoc. auto.
        -- intros t c Lt A. apply link_at_snoc in A as [A|[-> A]]; [eauto|]. apply link_at_lt in A0. lia.
      * intros [(c & A & B) L]. f_equal.
        destruct (Nat.lt_trichotomy f f0) as [X|[X|X]]; auto; exfalso.
        -- apply link_at_snoc in A as [A|[-> A]]; [eapply L0; eauto|]. apply link_at_lt in A0. lia.
        -- apply (L f0 c0); auto. rewrite link_at_snoc. auto.
    + apply firstr_gap in F0. pose proof (proj1 (gap_None_links _ _) F0) as NO.
      destruct (mem id (map c_id s)) eqn:M.
      * apply mem_In, in_map_iff in M as (c & B & A). split.
        -- intros E. injection E as <-. split.
           ++ exists c. rewrite link_at_snoc. auto.
           ++ intros t c' Lt A'. apply link_at_snoc in A' as [A'|[-> A']]; [eauto|lia].
        -- intros [(c' & A' & B') L]. apply link_at_snoc in A' as [A'|[-> A']]; [exfalso; eapply NO; eauto|reflexivity].
      * apply mem_false in M. split; [discriminate|]. intros [(c & A & B) _].
        apply link_at_snoc in A as [A|[_ A]]; [exfalso; eapply NO; eauto|]. exfalso. apply M. rewrite <- B. now apply in_map.
Qed.

Lemma gap_spec : forall h id g, gap h id = Some g <->
  g < length h /\ (exists c, link_at (rev h) (length h - 1 - g) c /\ c_id c = id) /\
  (forall t c, length h - 1 - g < t -> link_at (rev h) t c -> c_id c <> id).
Proof.
  induction h as [|s h IH]; intros id g; cbn [gap rev length].
  - split; [discriminate|]. intros (L & _). lia.
  - destruct (mem id (map c_id s)) eqn:M.
    + apply mem_In, in_map_iff in M as (c & B & A). split.
      * intros E. injection E as <-. split; [lia|]. split.
        -- exists c. rewrite link_at_snoc. split; auto. right. split; auto. lia.
        -- intros t c' Lt A'. apply link_at_snoc in A' as [A'|[-> A']]; [apply link_at_lt in A'; lia|lia].
      * intros (L & _ & N). destruct g as [|g]; auto. exfalso.
        apply (N (length h) c); auto; [lia|]. rewrite link_at_snoc. auto.
    + apply mem_false in M. destruct (gap h id) as [g0|] eqn:G0; simpl.
      * pose proof (proj1 (IH id g0) G0) as (L0 & (c0 & A0 & B0) & N0). split.
        -- intros E. injection E as <-. split; [lia|]. replace (length h - 0 - S g0) with (length h - 1 - g0) by lia. split.
           ++ exists c0. rewrite link_at_snoc. auto.
           ++ intros t c' Lt A'. apply link_at_snoc in A' as [A'|[-> A']]; [apply (N0 t); auto|].
              intros X. apply M. rewrite <- X. now apply in_map.
        -- intros (L & (c & A & B) & N). f_equal.
           assert (K : g = S (g - 1) /\ gap h id = Some (g - 1)).
           { apply link_at_snoc in A as [A|[Y A]]; [|exfalso; apply M; rewrite <- B; now apply in_map].
             pose proof (link_at_lt _ _ _ A). split; [lia|]. apply IH. split; [lia|].
             replace (length h - 1 - (g - 1)) with (length h - 0 - g) by lia. split; eauto.
             intros t c' Lt A'. apply (N t); auto. rewrite link_at_snoc. auto. }
           destruct K as [K1 K2]. rewrite G0 in K2. injection K2 as K2. lia.
      * split; [discriminate|]. intros (L & (c & A & B) & N).
        apply link_at_snoc in A as [A|[Y A]]; [|exfalso; apply M; rewrite <- B; now apply in_map].
        exfalso. eapply (proj1 (gap_None_links _ _) G0); eauto.
Qed.
