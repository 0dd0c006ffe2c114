(** Lemmas about the tracking run of [Corr_model]: history invariant. *)
From Coq Require Import List Arith ZArith Bool QArith Lia.
From Verif Require Import Base Generic_model Generic_proofs Corr_model.
Import ListNotations.
Local Close Scope Q_scope.
Local Open Scope nat_scope.

(** ** Small helpers *)
Lemma mem_In : forall x l, mem x l = true <-> In x l.
Proof.
  intros. unfold mem. rewrite existsb_exists. split.
  - intros (y & H & E). apply Nat.eqb_eq in E. now subst.
  - intros H. exists x. split; auto. apply Nat.eqb_refl.
Qed.
Lemma mem_false : forall x l, mem x l = false <-> ~ In x l.
Proof. intros. rewrite <- mem_In. destruct (mem x l); split; congruence. Qed.

Lemma In_uinsert : forall x l y, In y (uinsert x l) <-> y = x \/ In y l.
Proof.
  induction l as [|a l IH]; intros y; simpl; [intuition congruence|].
  destruct (Nat.ltb_spec x a); simpl; [intuition congruence|].
  destruct (Nat.eqb_spec x a); simpl; [subst; intuition congruence|]. rewrite IH. intuition.
Qed.
Lemma incr_uinsert : forall x l, incr l -> incr (uinsert x l).
Proof.
  induction 1 as [|a l Ha Hl IH]; simpl.
  - constructor; [intros b []|constructor].
  - destruct (Nat.ltb_spec x a).
    + constructor; [|constructor; auto]. intros b [<-|Hb]; [lia|]. specialize (Ha b Hb). lia.
    + destruct (Nat.eqb_spec x a); [constructor; auto|].
      constructor; auto. intros b Hb. apply In_uinsert in Hb as [->|Hb]; [lia|auto].
Qed.
Lemma In_usort : forall l x, In x (usort l) <-> In x l.
Proof.
  induction l as [|a l IH]; intros x; simpl; [tauto|].
  rewrite In_uinsert, IH. intuition congruence.
Qed.
Lemma incr_usort : forall l, incr (usort l).
Proof. induction l; simpl; [constructor|now apply incr_uinsert]. Qed.

Lemma incr_filter : forall f l, incr l -> incr (filter f l).
Proof.
  induction 1 as [|a l Ha Hl IH]; simpl; [constructor|].
  destruct (f a); auto. constructor; auto. intros b Hb. apply filter_In in Hb as [Hb _]. auto.
Qed.
Lemma In_setdiff1d : forall a b x, In x (setdiff1d a b) <-> In x a /\ ~ In x b.
Proof.
  intros. unfold setdiff1d. rewrite filter_In, In_usort, negb_true_iff, mem_false. tauto.
Qed.
Lemma NoDup_setdiff1d : forall a b, NoDup (setdiff1d a b).
Proof. intros. apply incr_NoDup, incr_filter, incr_usort. Qed.

Lemma find_index_Some : forall x ar, In x ar -> exists k, find_index x ar = Some k /\ nth_error ar k = Some x.
Proof.
  induction ar as [|a ar IH]; intros H; simpl; [contradiction|].
  destruct (Nat.eqb_spec a x) as [->|N]; [exists 0; auto|].
  destruct H as [->|H]; [congruence|]. destruct (IH H) as (k & E & G). exists (S k). rewrite E. auto.
Qed.
Lemma index_spec : forall ar items, (forall x, In x items -> In x ar) ->
  exists ix, index ar items = Some ix /\ length ix = length items /\
    forall k x, nth_error items k = Some x -> exists p, nth_error ix k = Some p /\ nth_error ar p = Some x.
Proof.
  induction items as [|x items IH]; intros H; simpl.
  - exists []. repeat split; auto. intros [|k] x E; discriminate.
  - destruct (find_index_Some x ar) as (p & Ep & Gp); [apply H; left; auto|]. rewrite Ep. cbn [bind].
    destruct IH as (ix & Ei & L & G); [intros; apply H; right; auto|]. rewrite Ei. cbn [bind].
    exists (p :: ix). split; auto. split; [simpl; auto|].
    intros [|k] y Hy; simpl in *; [injection Hy as <-; eauto|eauto].
Qed.

(** [gather l (index (map f l) items)] : the elements of [l] named by [items]. *)
Lemma gather_index : forall {A} (f : A -> nat) l items, (forall x, In x items -> In x (map f l)) ->
  exists ix sel, index (map f l) items = Some ix /\ gather l ix = Some sel /\ map f sel = items /\
    forall a, In a sel -> In a l.
Proof.
  intros A f l items H. destruct (index_spec (map f l) items H) as (ix & E & L & G).
  destruct (gather_total l ix) as [sel Es].
  { intros p Hp. apply In_nth_error in Hp as [k Hk].
    destruct (nth_error items k) as [x|] eqn:Ex.
    - destruct (G _ _ Ex) as (p' & E1 & E2). rewrite Hk in E1. injection E1 as <-.
      apply nth_error_Some_lt in E2. now rewrite map_length in E2.
    - apply nth_error_None in Ex. apply nth_error_Some_lt in Hk. lia. }
  exists ix, sel. split; auto. split; auto.
  destruct (proj1 (gather_Some _ _ _) Es) as [Ls Gs]. split.
  - apply nth_error_ext. intros k. rewrite nth_error_map.
    destruct (nth_error items k) as [x|] eqn:Ex.
    + destruct (G _ _ Ex) as (p & E1 & E2). destruct (Gs _ _ E1) as (a & A1 & A2). rewrite A2.
      rewrite nth_error_map, A1 in E2. exact E2.
    + apply nth_error_None in Ex. assert (nth_error sel k = None) as ->; auto. apply nth_error_None. lia.
  - intros a Ha. apply In_nth_error in Ha as [k Hk].
    assert (Lk : k < length ix) by (rewrite <- Ls; eapply nth_error_Some_lt; eauto).
    destruct (nth_error_lt_Some ix k Lk) as [p Hp]. destruct (Gs _ _ Hp) as (a' & A1 & A2).
    rewrite Hk in A2. injection A2 as <-. eapply nth_error_In; eauto.
Qed.

(** ** number_new *)
Lemma number_new_spec : forall ids cur l c, number_new cur ids = (l, c) ->
  length l = length ids /\ cur <= c /\
  (forall k i, nth_error ids k = Some (Some i) -> nth_error l k = Some i) /\
  (forall k, nth_error ids k = Some None -> exists x, nth_error l k = Some x /\ cur <= x < c) /\
  (forall k k' x x', k < k' -> nth_error ids k = Some None -> nth_error ids k' = Some None ->
     nth_error l k = Some x -> nth_error l k' = Some x' -> x < x') /\
  (forall x, cur <= x < c -> exists k, nth_error ids k = Some None /\ nth_error l k = Some x).
Proof.
  induction ids as [|[i|] ids IH]; intros cur l c H; simpl in H.
  - injection H as <- <-. repeat split; auto; try (intros [|k]; discriminate).
    intros x Hx. lia.
  - destruct (number_new cur ids) as [l0 c0] eqn:E. injection H as <- <-.
    destruct (IH _ _ _ E) as (A & B & C & D & F & G). simpl. repeat split; auto.
    + intros [|k] j Hj; simpl in *; [injection Hj as ->; auto|auto].
    + intros [|k] Hk; simpl in *; [discriminate|auto].
    + intros [|k] [|k'] x x' L1 E1 E2 E3 E4; simpl in *; try discriminate; try lia.
      eapply (F k k'); eauto. lia.
    + intros x Hx. destruct (G x Hx) as (k & K1 & K2). exists (S k). auto.
  - destruct (number_new (S cur) ids) as [l0 c0] eqn:E. injection H as <- <-.
    destruct (IH _ _ _ E) as (A & B & C & D & F & G). simpl. split; auto. split; [lia|].
    split; [|split; [|split]].
    + intros [|k] j Hj; simpl in *; [discriminate|auto].
    + intros [|k] Hk; simpl in *; [exists cur; split; auto; lia|].
      destruct (D k Hk) as (x & X1 & X2). exists x. split; auto. lia.
    + intros [|k] [|k'] x x' L1 E1 E2 E3 E4; simpl in *; try lia.
      * injection E3 as <-. destruct (D k' E2) as (y & Y1 & Y2). rewrite E4 in Y1. injection Y1 as <-. lia.
      * eapply (F k k'); eauto. lia.
    + intros x Hx. destruct (Nat.eq_dec x cur) as [->|N]; [exists 0; auto|].
      destruct (G x ltac:(lia)) as (k & K1 & K2). exists (S k). auto.
Qed.

(** ** Histories, most recent step first *)
Fixpoint gap (h : list (list corr)) (id : nat) : option nat :=
  match h with
  | [] => None
  | s :: h' => if mem id (map c_id s) then Some 0 else option_map S (gap h' id)
  end.

Definition newest (h : list (list corr)) : list corr := match h with [] => [] | s :: _ => s end.

Record step_ok (nbv : nat) (h : list (list corr)) (s : list corr) : Prop := {
  ok_ids : NoDup (map c_id s);
  ok_ins : NoDup (map c_in s);
  ok_outs : NoDup (map c_out s);
  ok_kind : forall c, In c s ->
    (c_virtual c = false /\ gap h (c_id c) = None /\ (forall c', In c' (newest h) -> c_out c' <> c_in c)) \/
    (c_virtual c = false /\ exists c', In c' (newest h) /\ c_id c' = c_id c /\ c_out c' = c_in c) \/
    (c_virtual c = true /\
       (exists g, gap h (c_id c) = Some g /\ 1 <= g /\ c_vlen c = u1 (Z.of_nat g) /\ (nbv <= 127 -> g <= nbv)) /\
       (forall c', In c' (newest h) -> c_out c' <> c_in c))
}.

Inductive hist (nbv : nat) : list (list corr) -> Prop :=
| hist_nil : hist nbv []
| hist_cons : forall h s, hist nbv h -> step_ok nbv h s -> hist nbv (s :: h).

Definition dense (cur : nat) (h : list (list corr)) : Prop :=
  forall id, id < cur <-> gap h id <> None.

Lemma gap_0 : forall h id, gap h id = Some 0 <-> In id (map c_id (newest h)).
Proof.
  intros [|s h] id; simpl; [split; [discriminate|tauto]|].
  destruct (mem id (map c_id s)) eqn:E.
  - apply mem_In in E. tauto.
  - apply mem_false in E. split; [|tauto]. destruct (gap h id); discriminate.
Qed.

Section Run.
  Context {Obs V : Type} (as_obs : V -> Obs) (extrapolate : Obs -> Obs -> V) (prolong : V -> V).
  Context (associate : list Obs -> list Obs -> option (list (nat * nat * Q))) (nbv : nat).
  Context (HA : forall p c, exists links, associate p c = Some links /\
             NoDup (map (fun l => fst (fst l)) links) /\ NoDup (map (fun l => snd (fst l)) links) /\
             forall i o q, In (i, o, q) links -> i < length p /\ o < length c).

  Notation state := (@state Obs V).
  Notation vobs := (@vobs V).

  (** the virtual observations describe the tracks missing for 1 .. nbv dates;
      above 127 the byte of the size wraps around and tracks are never forgotten *)
  Definition virt_ok (h : list (list corr)) (vs : list vobs) : Prop :=
    NoDup (map (@v_track V) vs) /\
    (forall v, In v vs -> exists g, gap h (v_track v) = Some g /\ 1 <= g /\ v_size v = i8 (Z.of_nat g) /\
       (nbv <= 127 -> g <= nbv)) /\
    (forall id g, gap h id = Some g -> 1 <= g -> (nbv <= 127 -> g <= nbv) -> exists v, In v vs /\ v_track v = id).

  Definition inv (st : state) : Prop :=
    hist nbv (s_links st) /\ dense (s_id st) (s_links st) /\
    match s_links st with
    | [] => s_prev st = None /\ s_virt st = None /\ s_flg st = false /\ s_cur st <> None
    | s :: h =>
        (exists p, s_prev st = Some p /\ forall c, In c s -> c_in c < length p) /\
        (exists d, s_cur st = Some d /\ forall c, In c s -> c_out c < length d) /\
        match h with
        | [] => s_virt st = None /\ s_flg st = false
        | _ => if virtual nbv then (exists vs, s_virt st = Some vs /\ virt_ok (s_links st) vs) /\ s_flg st = true
               else s_virt st = None /\ s_flg st = false
        end
    end.

  Lemma inv_start : forall d : list Obs, inv (start d).
  Proof.
    intros d. split; [constructor|]. split.
    - intros id. simpl. split; [lia|congruence].
    - simpl. repeat split; congruence.
  Qed.

  Lemma nth_error_map_Some : forall {A B} (f : A -> B) l k b,
    nth_error (map f l) k = Some b -> exists a, nth_error l k = Some a /\ f a = b.
  Proof.
    intros. rewrite nth_error_map in H. destruct (nth_error l k); [|discriminate]. injection H as <-. eauto.
  Qed.

  (** *** build *)
  Lemma build_nth : forall nb_real links ids vl k l id kv,
    nth_error links k = Some l -> nth_error ids k = Some id -> nth_error vl k = Some kv ->
    nth_error (build nbv nb_real links ids vl) k =
      Some (mkcorr (fst (fst l)) (snd (fst l)) id (snd l) (virtual nbv && (nb_real <=? fst (fst l))) kv).
  Proof.
    induction links as [|[[i o] q] links IH]; intros [|id0 ids] [|v0 vl] [|k] l id kv H1 H2 H3; simpl in *; try discriminate.
    - injection H1 as <-. injection H2 as <-. injection H3 as <-. reflexivity.
    - eauto.
  Qed.
  Lemma build_length : forall nb_real links ids vl,
    length ids = length links -> length vl = length links -> length (build nbv nb_real links ids vl) = length links.
  Proof.
    induction links as [|[[i o] q] links IH]; intros [|id0 ids] [|v0 vl] H1 H2; simpl in *; try discriminate; auto.
  Qed.

  (** a list described position by position through another one *)
  Lemma map_from_nth : forall {A B C} (f : A -> C) (g : B -> C) (a : list A) (b : list B),
    length a = length b ->
    (forall k x, nth_error b k = Some x -> exists y, nth_error a k = Some y /\ f y = g x) ->
    map f a = map g b.
  Proof.
    intros A B C f g a b L H. apply nth_error_ext. intros k. rewrite !nth_error_map.
    destruct (nth_error b k) as [x|] eqn:E.
    - destruct (H _ _ E) as (y & -> & Ey). simpl. now rewrite Ey.
    - assert (nth_error a k = None) as ->; auto. apply nth_error_None. apply nth_error_None in E. lia.
  Qed.

  Lemma virtual_cells_spec : forall virt nb_real ins ids,
    length ids = length ins ->
    (forall k i, nth_error ins k = Some i -> virtual nbv = true -> nb_real <= i ->
       exists vs v, virt = Some vs /\ nth_error vs (i - nb_real) = Some v) ->
    exists cells, virtual_cells (V := V) nbv virt nb_real ins ids = Some cells /\ length cells = length ins /\
      forall k i id, nth_error ins k = Some i -> nth_error ids k = Some id ->
        if virtual nbv && (nb_real <=? i) then
          exists vs v, virt = Some vs /\ nth_error vs (i - nb_real) = Some v /\
            nth_error cells k = Some (Some (v_track v), u1 (v_size v))
        else nth_error cells k = Some (id, 255).
  Proof.
    induction ins as [|i ins IH]; intros [|id ids] L H; simpl in L; try discriminate.
    - exists []. repeat split; auto. intros [|k] i id E; discriminate.
    - cbn [virtual_cells]. injection L as L.
      assert (C : exists x, virtual_cell (V := V) nbv virt nb_real i id = Some x /\
        if virtual nbv && (nb_real <=? i) then
          exists vs v, virt = Some vs /\ nth_error vs (i - nb_real) = Some v /\ x = (Some (v_track v), u1 (v_size v))
        else x = (id, 255)).
      { unfold virtual_cell. destruct (virtual nbv && (nb_real <=? i)) eqn:E.
        - apply andb_true_iff in E as [E1 E2]. apply Nat.leb_le in E2.
          destruct (H 0 i eq_refl E1 E2) as (vs & v & -> & Hv). cbn [bind]. rewrite Hv. cbn [bind].
          eexists. split; eauto.
        - eauto. }
      destruct C as (x & Ex & Hx). rewrite Ex. cbn [bind].
      destruct (IH ids L) as (cells & Ec & Lc & Hc). { intros k j Hj. apply (H (S k)). exact Hj. }
      rewrite Ec. cbn [bind]. exists (x :: cells). split; auto. split; [simpl; auto|].
      intros [|k] j id' Hj Hid; simpl in *.
      + injection Hj as <-. injection Hid as <-.
        destruct (virtual nbv && (nb_real <=? i)).
        * destruct Hx as (vs & v & A & B & ->). eauto 6.
        * now subst.
      + exact (Hc k j id' Hj Hid).
  Qed.

  Lemma id_previous_spec : forall (last : list corr) n,
    NoDup (map c_out last) -> (forall c, In c last -> c_out c < n) ->
    exists idp, stores (repeat None n) (map c_out last) (map (fun c => Some (c_id c)) last) = Some idp /\
      length idp = n /\
      (forall c, In c last -> nth_error idp (c_out c) = Some (Some (c_id c))) /\
      (forall i, i < n -> (forall c, In c last -> c_out c <> i) -> nth_error idp i = Some None).
  Proof.
    intros last n ND B.
    destruct (stores_total (map c_out last) (repeat (@None nat) n) (map (fun c => Some (c_id c)) last)) as [idp E].
    { now rewrite !map_length. }
    { intros i Hi. rewrite repeat_length. apply in_map_iff in Hi as (c & <- & Hc). auto. }
    exists idp. split; auto. split; [|split].
    - apply length_stores in E. now rewrite repeat_length in E.
    - intros c Hc. apply In_nth_error in Hc as [k Hk].
      eapply (stores_nodup _ _ _ _ k); eauto; rewrite nth_error_map, Hk; reflexivity.
    - intros i Hi N. rewrite (stores_other _ _ _ _ i E).
      + rewrite nth_error_repeat_lt. now rewrite (proj2 (Nat.ltb_lt i n)).
      + intros C. apply in_map_iff in C as (c & <- & Hc). eapply N; eauto.
  Qed.

  (** *** one stored correspondence *)
  Lemma store_spec : forall (st : state) nb_real links prev p2 last h,
    s_prev2 st = Some p2 -> s_prev st = Some prev -> s_links st = last :: h ->
    NoDup (map c_out last) -> (forall c, In c last -> c_out c < nb_real) -> nb_real <= length prev ->
    (forall i o q, In (i, o, q) links -> i < length prev) ->
    (forall i, nb_real <= i -> i < length prev -> virtual nbv = true ->
       exists vs v, s_virt st = Some vs /\ nth_error vs (i - nb_real) = Some v) ->
    exists corrs cur, store_correspondance nbv st nb_real links = Some (corrs, cur, false) /\
      length corrs = length links /\ s_id st <= cur /\
      (forall k i o q, nth_error links k = Some (i, o, q) -> exists c, nth_error corrs k = Some c /\
         c_in c = i /\ c_out c = o /\ c_cost c = q /\ c_virtual c = (virtual nbv && (nb_real <=? i)) /\
         ((c_virtual c = true /\ exists vs v, s_virt st = Some vs /\ nth_error vs (i - nb_real) = Some v /\
             c_id c = v_track v /\ c_vlen c = u1 (v_size v)) \/
          (c_virtual c = false /\ exists c', In c' last /\ c_out c' = i /\ c_id c = c_id c') \/
          (c_virtual c = false /\ (forall c', In c' last -> c_out c' <> i) /\ s_id st <= c_id c < cur))) /\
      (forall k k' c c', k < k' -> nth_error corrs k = Some c -> nth_error corrs k' = Some c' ->
         s_id st <= c_id c < cur -> s_id st <= c_id c' < cur ->
         (forall x, In x last -> c_out x <> c_in c) -> c_virtual c = false ->
         (forall x, In x last -> c_out x <> c_in c') -> c_virtual c' = false -> c_id c < c_id c') /\
      (forall x, s_id st <= x < cur -> exists c, In c corrs /\ c_id c = x).
  Proof.
    intros st nb_real links prev p2 last h E2 E1 EL ND BO LP BI HV.
    unfold store_correspondance. rewrite E2, E1, EL. cbn [bind hd_error].
    destruct (id_previous_spec last (length prev) ND) as (idp & Es & Li & P1 & P2).
    { intros c Hc. specialize (BO c Hc). lia. }
    rewrite Es. cbn [bind].
    set (ins := map (fun l : nat * nat * Q => fst (fst l)) links).
    destruct (gather_total idp ins) as [ids Eg].
    { intros i Hi. apply in_map_iff in Hi as ([[i' o] q] & <- & H). rewrite Li. eapply BI; eauto. }
    rewrite Eg. cbn [bind].
    destruct (proj1 (gather_Some _ _ _) Eg) as [Lg Gg].
    destruct (virtual_cells_spec (s_virt st) nb_real ins ids Lg) as (cells & Ec & Lc & Hc).
    { intros k i Hk Hv Hi. apply HV; auto.
      apply nth_error_map_Some in Hk as ([[i' o] q] & Hk & <-). eapply BI. eapply nth_error_In; eauto. }
    rewrite Ec. cbn [bind].
    destruct (number_new (s_id st) (map fst cells)) as [ids' cur] eqn:En.
    destruct (number_new_spec _ _ _ _ En) as (N1 & N2 & N3 & N4 & N5 & N6).
    rewrite map_length in N1.
    assert (Ll : length cells = length links) by (rewrite Lc; unfold ins; now rewrite map_length).
    exists (build nbv nb_real links ids' (map snd cells)), cur. split; auto.
    split. { apply build_length; [lia|now rewrite map_length]. }
    split; auto.
    (* description of one cell *)
    assert (CELL : forall k i o q, nth_error links k = Some (i, o, q) ->
      exists idk kv,
        nth_error (build nbv nb_real links ids' (map snd cells)) k =
          Some (mkcorr i o idk q (virtual nbv && (nb_real <=? i)) kv) /\
        nth_error ids' k = Some idk /\
        ((virtual nbv && (nb_real <=? i) = true /\ exists vs v, s_virt st = Some vs /\ nth_error vs (i - nb_real) = Some v /\
             idk = v_track v /\ kv = u1 (v_size v)) \/
          (virtual nbv && (nb_real <=? i) = false /\ exists c', In c' last /\ c_out c' = i /\ idk = c_id c') \/
          (virtual nbv && (nb_real <=? i) = false /\ (forall c', In c' last -> c_out c' <> i) /\ s_id st <= idk < cur /\
             nth_error (map fst cells) k = Some None))).
    { intros k i o q Hk.
      assert (Hi : nth_error ins k = Some i) by (unfold ins; rewrite nth_error_map, Hk; reflexivity).
      destruct (Gg _ _ Hi) as (idk0 & I1 & I2).
      pose proof (Hc _ _ _ Hi I2) as CK.
      destruct (virtual nbv && (nb_real <=? i)) eqn:EV.
      - destruct CK as (vs & v & V1 & V2 & V3).
        exists (v_track v), (u1 (v_size v)).
        assert (ID : nth_error ids' k = Some (v_track v)).
        { apply N3. rewrite nth_error_map, V3. reflexivity. }
        split; [|split; auto].
        + rewrite (build_nth nb_real links ids' (map snd cells) k (i, o, q) (v_track v) (u1 (v_size v))); auto.
          * cbn [fst snd]. rewrite EV. reflexivity.
          * rewrite nth_error_map, V3. reflexivity.
        + left. split; auto. eauto 6.
      - assert (SV : nth_error (map snd cells) k = Some 255) by (rewrite nth_error_map, CK; reflexivity).
        destruct (in_dec Nat.eq_dec i (map c_out last)) as [IN|OUT].
        + apply in_map_iff in IN as (c' & Ec' & Hc').
          rewrite <- Ec', (P1 c' Hc') in I1. injection I1 as <-.
          assert (ID : nth_error ids' k = Some (c_id c')).
          { apply N3. rewrite nth_error_map, CK. reflexivity. }
          exists (c_id c'), 255. split; [|split; auto].
          * rewrite (build_nth nb_real links ids' (map snd cells) k (i, o, q) (c_id c') 255); auto.
            cbn [fst snd]. rewrite EV. reflexivity.
          * right. left. split; auto. eauto.
        + assert (NO : forall c', In c' last -> c_out c' <> i).
          { intros c' Hc' E. apply OUT. apply in_map_iff. eauto. }
          assert (IL : i < length prev) by (eapply BI; eapply nth_error_In; eauto).
          rewrite (P2 i IL NO) in I1. injection I1 as <-.
          assert (FN : nth_error (map fst cells) k = Some None) by (rewrite nth_error_map, CK; reflexivity).
          destruct (N4 k FN) as (x & X1 & X2).
          exists x, 255. split; [|split; auto].
          * rewrite (build_nth nb_real links ids' (map snd cells) k (i, o, q) x 255); auto.
            cbn [fst snd]. rewrite EV. reflexivity.
          * right. right. auto. }
    assert (LB : length (build nbv nb_real links ids' (map snd cells)) = length links).
    { apply build_length; [lia|now rewrite map_length]. }
    split; [|split].
    - intros k i o q Hk. destruct (CELL k i o q Hk) as (idk & kv & B1 & B2 & B3).
      eexists. split; [exact B1|]. cbn [c_in c_out c_cost c_virtual c_id c_vlen].
      split; auto. split; auto. split; auto. split; auto.
      destruct B3 as [B3|[B3|(B3 & B4 & B5 & B6)]]; auto.
    - intros k k' c c' Hkk Hk Hk' R R' O1 V1 O2 V2.
      assert (D : forall k c, nth_error (build nbv nb_real links ids' (map snd cells)) k = Some c ->
         (forall x, In x last -> c_out x <> c_in c) -> c_virtual c = false ->
         nth_error ids' k = Some (c_id c) /\ nth_error (map fst cells) k = Some None).
      { clear - CELL LB. intros k c Hk O Vf.
        assert (Lk : k < length links) by (rewrite <- LB; eapply nth_error_Some_lt; eauto).
        destruct (nth_error_lt_Some links k Lk) as [[[i o] q] Hl].
        destruct (CELL _ _ _ _ Hl) as (idk & kv & B1 & B2 & B3).
        rewrite Hk in B1. injection B1 as ->. cbn in *. split; auto.
        destruct B3 as [[B3 _]|[(_ & c' & B4 & B5 & _)|(_ & _ & _ & B6)]]; [congruence| |auto].
        exfalso. eapply O; eauto. }
      destruct (D _ _ Hk O1 V1) as [D1 D2]. destruct (D _ _ Hk' O2 V2) as [D3 D4].
      eapply (N5 k k'); eauto.
    - intros x Hx. destruct (N6 x Hx) as (k & K1 & K2).
      assert (Lk : k < length links).
      { apply nth_error_Some_lt in K2. lia. }
      destruct (nth_error_lt_Some links k Lk) as [[[i o] q] Hl].
      destruct (CELL _ _ _ _ Hl) as (idk & kv & B1 & B2 & _).
      eexists. split; [eapply nth_error_In; exact B1|]. cbn. congruence.
  Qed.

  (** *** numbers of a new step *)
  Lemma NoDup_map_nth : forall {A B} (f : A -> B) l,
    (forall k k' a a', k < k' -> nth_error l k = Some a -> nth_error l k' = Some a' -> f a <> f a') ->
    NoDup (map f l).
  Proof.
    intros A B f l H. apply NoDup_nth_error. intros k k' Lk E. rewrite map_length in Lk.
    rewrite !nth_error_map in E. destruct (nth_error_lt_Some l k Lk) as [a Ha]. rewrite Ha in E. simpl in E.
    destruct (nth_error l k') as [a'|] eqn:Ha'; [|discriminate]. simpl in E. injection E as E.
    destruct (Nat.lt_trichotomy k k') as [L|[L|L]]; auto; exfalso.
    - eapply (H k k'); eauto.
    - eapply (H k' k); eauto.
  Qed.
  Lemma nth_error_map_neq : forall {A B} (f : A -> B) l k k' a a',
    NoDup (map f l) -> k <> k' -> nth_error l k = Some a -> nth_error l k' = Some a' -> f a <> f a'.
  Proof.
    intros A B f l k k' a a' ND N Ha Ha' E. apply N.
    apply (proj1 (NoDup_nth_error _) ND).
    - rewrite map_length. eapply nth_error_Some_lt; eauto.
    - rewrite !nth_error_map, Ha, Ha'. simpl. now rewrite E.
  Qed.

  Lemma u1_i8 : forall z, u1 (i8 z) = u1 z.
  Proof.
    intros z. unfold u1, i8. rewrite Zminus_mod, Z.mod_mod, <- Zminus_mod by lia.
    now replace (z + 128 - 128)%Z with z by lia.
  Qed.
  Lemma u1_small : forall g, g <= 127 -> u1 (Z.of_nat g) = g.
  Proof. intros g H. unfold u1. rewrite Z.mod_small; lia. Qed.

  Lemma gap_None_all : forall h id, gap h id = None <-> forall s, In s h -> ~ In id (map c_id s).
  Proof.
    induction h as [|s h IH]; intros id; simpl; [split; [intros _ s []|auto]|].
    destruct (mem id (map c_id s)) eqn:E.
    - apply mem_In in E. split; [discriminate|]. intros H. exfalso. eapply H; eauto.
    - apply mem_false in E. destruct (gap h id) as [g|] eqn:G; simpl.
      + split; [discriminate|]. intros H. exfalso.
        assert (@None nat = Some g) as X; [|discriminate]. rewrite <- G. symmetry. apply IH. intros s' Hs'. apply H. auto.
      + split; auto. intros _ s' [<-|Hs']; auto. apply (proj1 (IH id) G); auto.
  Qed.

  Lemma gap_cons_in : forall s h id, In id (map c_id s) -> gap (s :: h) id = Some 0.
  Proof. intros. simpl. now rewrite (proj2 (mem_In _ _) H). Qed.
  Lemma gap_cons_out : forall s h id, ~ In id (map c_id s) -> gap (s :: h) id = option_map S (gap h id).
  Proof. intros. simpl. now rewrite (proj2 (mem_false _ _) H). Qed.

  Lemma nth_of_map : forall {A B} (f : A -> B) l b, In b (map f l) -> exists a, In a l /\ f a = b.
  Proof. intros. apply in_map_iff in H as (a & <- & H). eauto. Qed.

  Lemma new_step_ok : forall (virt : option (list vobs)) last h nb_real links corrs cur0 cur,
    hist nbv (last :: h) -> dense cur0 (last :: h) -> cur0 <= cur ->
    (forall c, In c last -> c_out c < nb_real) ->
    NoDup (map (fun l : nat * nat * Q => fst (fst l)) links) ->
    NoDup (map (fun l : nat * nat * Q => snd (fst l)) links) ->
    length corrs = length links ->
    (forall vs, virtual nbv = true -> virt = Some vs -> virt_ok (last :: h) vs) ->
    (forall k i o q, nth_error links k = Some (i, o, q) -> exists c, nth_error corrs k = Some c /\
         c_in c = i /\ c_out c = o /\ c_cost c = q /\ c_virtual c = (virtual nbv && (nb_real <=? i)) /\
         ((c_virtual c = true /\ exists vs v, virt = Some vs /\ nth_error vs (i - nb_real) = Some v /\
             c_id c = v_track v /\ c_vlen c = u1 (v_size v)) \/
          (c_virtual c = false /\ exists c', In c' last /\ c_out c' = i /\ c_id c = c_id c') \/
          (c_virtual c = false /\ (forall c', In c' last -> c_out c' <> i) /\ cur0 <= c_id c < cur))) ->
    (forall k k' c c', k < k' -> nth_error corrs k = Some c -> nth_error corrs k' = Some c' ->
         cur0 <= c_id c < cur -> cur0 <= c_id c' < cur ->
         (forall x, In x last -> c_out x <> c_in c) -> c_virtual c = false ->
         (forall x, In x last -> c_out x <> c_in c') -> c_virtual c' = false -> c_id c < c_id c') ->
    (forall x, cur0 <= x < cur -> exists c, In c corrs /\ c_id c = x) ->
    step_ok nbv (last :: h) corrs /\ dense cur (corrs :: last :: h).
  Proof.
    intros virt last h nb_real links corrs cur0 cur HH DD LC BO NI NO LL HV CELL FR ALL.
    inversion HH as [|? ? HH0 OKL]; subst.
    assert (DES : forall k c, nth_error corrs k = Some c -> exists o q,
       nth_error links k = Some (c_in c, o, q) /\ c_out c = o /\ c_virtual c = (virtual nbv && (nb_real <=? c_in c)) /\
         ((c_virtual c = true /\ exists vs v, virt = Some vs /\ nth_error vs (c_in c - nb_real) = Some v /\
             c_id c = v_track v /\ c_vlen c = u1 (v_size v)) \/
          (c_virtual c = false /\ exists c', In c' last /\ c_out c' = c_in c /\ c_id c = c_id c') \/
          (c_virtual c = false /\ (forall c', In c' last -> c_out c' <> c_in c) /\ cur0 <= c_id c < cur))).
    { intros k c Hk. assert (Lk : k < length links) by (rewrite <- LL; eapply nth_error_Some_lt; eauto).
      destruct (nth_error_lt_Some links k Lk) as [[[i o] q] Hl].
      destruct (CELL _ _ _ _ Hl) as (c1 & C1 & C2 & C3 & C4 & C5 & C6).
      rewrite Hk in C1. injection C1 as <-. subst i. exists o, q. auto. }
    assert (GA : forall vs v, virtual nbv = true -> virt = Some vs -> In v vs ->
                 exists g, gap (last :: h) (v_track v) = Some g /\ 1 <= g /\ u1 (v_size v) = u1 (Z.of_nat g) /\ (nbv <= 127 -> g <= nbv)).
    { intros vs v Hv E Hin. destruct (HV vs Hv E) as (_ & A & _). destruct (A v Hin) as (g & B & C & D & F).
      exists g. rewrite D, u1_i8. auto. }
    assert (MI : map c_in corrs = map (fun l => fst (fst l)) links).
    { apply map_from_nth; auto. intros k [[i o] q] Hl. destruct (CELL _ _ _ _ Hl) as (c & C1 & C2 & _).
      exists c. auto. }
    assert (MO : map c_out corrs = map (fun l => snd (fst l)) links).
    { apply map_from_nth; auto. intros k [[i o] q] Hl. destruct (CELL _ _ _ _ Hl) as (c & C1 & _ & C3 & _).
      exists c. auto. }
    assert (NI' : NoDup (map c_in corrs)) by now rewrite MI.
    assert (NO' : NoDup (map c_out corrs)) by now rewrite MO.
    assert (GC : forall id, cur0 <= id -> gap (last :: h) id = None).
    { intros id Hid. destruct (gap (last :: h) id) eqn:E; auto.
      assert (id < cur0) by (apply DD; congruence). lia. }
    (* gap of the number of each kind *)
    assert (KIND : forall k c, nth_error corrs k = Some c ->
      (c_virtual c = true /\ nb_real <= c_in c /\ exists vs v, virtual nbv = true /\ virt = Some vs /\
         nth_error vs (c_in c - nb_real) = Some v /\ c_id c = v_track v /\
         exists g, gap (last :: h) (c_id c) = Some g /\ 1 <= g /\ c_vlen c = u1 (Z.of_nat g) /\ (nbv <= 127 -> g <= nbv)) \/
      (c_virtual c = false /\ (exists c', In c' last /\ c_out c' = c_in c /\ c_id c = c_id c') /\ gap (last :: h) (c_id c) = Some 0) \/
      (c_virtual c = false /\ (forall c', In c' last -> c_out c' <> c_in c) /\ cur0 <= c_id c < cur /\ gap (last :: h) (c_id c) = None)).
    { intros k c Hk. destruct (DES k c Hk) as (o & q & D1 & D2 & D3 & D4).
      destruct D4 as [(D4 & vs & v & V1 & V2 & V3 & V4)|[(D4 & c' & K1 & K2 & K3)|(D4 & K1 & K2)]].
      - left. rewrite D4 in D3. symmetry in D3. apply andb_true_iff in D3 as [D5 D6]. apply Nat.leb_le in D6.
        split; auto. split; auto. exists vs, v.
        destruct (GA vs v D5 V1 (nth_error_In _ _ V2)) as (g & G1 & G2 & G3 & G4).
        split; auto. split; auto. split; auto. split; auto. exists g. rewrite V3, V4, G3. auto.
      - right. left. split; auto. split; eauto. rewrite K3. apply gap_cons_in. now apply in_map.
      - right. right. split; auto. split; auto. split; auto. apply GC. lia. }
    assert (ND : NoDup (map c_id corrs)).
    { apply NoDup_map_nth. intros k k' c c' Lk Hk Hk' E.
      pose proof (nth_error_map_neq c_in _ k k' c c' NI' ltac:(lia) Hk Hk') as NE.
      destruct (KIND k c Hk) as [(A1 & A2 & vs & v & A3 & A4 & A5 & A6 & g & A7 & A8 & A9 & A10)|[(A1 & (x & A2 & A3 & A4) & A5)|(A1 & A2 & A3 & A4)]];
      destruct (KIND k' c' Hk') as [(B1 & B2 & vs' & v' & B3 & B4 & B5 & B6 & g' & B7 & B8 & B9 & B10)|[(B1 & (x' & B2 & B3 & B4) & B5)|(B1 & B2 & B3 & B4)]];
      try (rewrite E in *; congruence);
      try (rewrite E in *; rewrite A7 in *; match goal with H : Some ?a = Some 0 |- _ => injection H; lia end);
      try (rewrite E in *; rewrite B7 in *; match goal with H : Some ?a = Some 0 |- _ => injection H; lia end).
      - rewrite A4 in B4. injection B4 as <-.
        destruct (HV vs A3 A4) as (NDV & _ & _).
        apply (nth_error_map_neq (@v_track V) vs (c_in c - nb_real) (c_in c' - nb_real) v v' NDV); auto; [lia|congruence].
      - apply NE. rewrite <- A3, <- B3. f_equal.
        assert (X : c_id x = c_id x') by congruence.
        apply In_nth_error in A2 as [a Ha]. apply In_nth_error in B2 as [b Hb].
        destruct (Nat.eq_dec a b) as [->|Nab]; [congruence|].
        exfalso. apply (nth_error_map_neq c_id last a b x x' (ok_ids _ _ _ OKL)); auto.
      - pose proof (FR k k' c c' Lk Hk Hk' A3 B3 A2 A1 B2 B1). lia. }
    assert (OK : step_ok nbv (last :: h) corrs).
    { constructor; auto. intros c Hc. apply In_nth_error in Hc as [k Hk].
      destruct (KIND k c Hk) as [(A1 & A2 & vs & v & A3 & A4 & A5 & A6 & g & A7 & A8 & A9 & A10)|[(A1 & (x & A2 & A3 & A4) & A5)|(A1 & A2 & A3 & A4)]].
      - right. right. split; auto. split; [exists g; auto|]. simpl.
        intros c' Hc'. specialize (BO c' Hc'). lia.
      - right. left. split; auto. exists x. auto.
      - left. auto. }
    split; auto.
    intros id. split.
    - intros Hid. destruct (in_dec Nat.eq_dec id (map c_id corrs)) as [IN|OUT].
      + rewrite gap_cons_in by auto. discriminate.
      + rewrite gap_cons_out by auto.
        assert (id < cur0).
        { destruct (Nat.lt_ge_cases id cur0) as [L|L]; auto. exfalso.
          destruct (ALL id ltac:(lia)) as (c & C1 & C2). apply OUT. rewrite <- C2. now apply in_map. }
        apply DD in H. destruct (gap (last :: h) id); simpl; congruence.
    - intros G. destruct (in_dec Nat.eq_dec id (map c_id corrs)) as [IN|OUT].
      + apply nth_of_map in IN as (c & Hc & <-). apply In_nth_error in Hc as [k Hk].
        destruct (KIND k c Hk) as [(A1 & A2 & vs & v & A3 & A4 & A5 & A6 & g & A7 & A8 & A9 & A10)|[(A1 & A2 & A5)|(A1 & A2 & A3 & A4)]].
        * assert (c_id c < cur0) by (apply DD; congruence). lia.
        * assert (c_id c < cur0) by (apply DD; congruence). lia.
        * lia.
      + rewrite gap_cons_out in G by auto.
        assert (id < cur0); [|lia]. apply DD. destruct (gap (last :: h) id); [discriminate|].
        simpl in G. congruence.
  Qed.

  (** *** recense *)
  Lemma map3_spec : forall {A B C D} (f : A -> B -> C -> D) a b c,
    length a = length c -> length b = length c ->
    length (map3 f a b c) = length c /\
    forall k z, nth_error c k = Some z -> exists x y, nth_error (map3 f a b c) k = Some (f x y z).
  Proof.
    induction a as [|x a IH]; intros [|y b] [|z c] L1 L2; simpl in *; try discriminate.
    - split; auto. intros [|k] z E; discriminate.
    - destruct (IH b c) as [I1 I2]; try lia. split; [simpl; auto|].
      intros [|k] z' E; simpl in *; [injection E as <-; eauto|eauto].
  Qed.

  Lemma NoDup_filter_map : forall {A} (f : A -> nat) (p : A -> bool) l,
    NoDup (map f l) -> NoDup (map f (filter p l)).
  Proof.
    induction l as [|a l IH]; intros H; simpl; auto. inversion H as [|? ? N1 N2]; subst.
    destruct (p a); simpl; auto. constructor; auto.
    intros C. apply N1. apply in_map_iff in C as (x & <- & Hx). apply filter_In in Hx as [Hx _]. now apply in_map.
  Qed.
  Lemma NoDup_app_intro : forall {A} (a b : list A), NoDup a -> NoDup b -> (forall x, In x a -> In x b -> False) -> NoDup (a ++ b).
  Proof.
    induction a as [|x a IH]; intros b Ha Hb H; simpl; auto.
    inversion Ha as [|? ? N1 N2]; subst. constructor.
    - rewrite in_app_iff. intros [C|C]; auto. eapply H; [left; reflexivity|exact C].
    - apply IH; auto. intros y Hy Hy'. eapply H; [right; exact Hy|exact Hy'].
  Qed.

  Lemma i8_small : forall z, (0 <= z <= 127)%Z -> i8 z = z.
  Proof. intros z H. unfold i8. rewrite Z.mod_small; lia. Qed.
  Lemma i8_succ : forall z, i8 (i8 z + 1) = i8 (z + 1).
  Proof.
    intros z. unfold i8. replace ((z + 128) mod 256 - 128 + 1 + 128)%Z with ((z + 128) mod 256 + 1)%Z by lia.
    rewrite Zplus_mod_idemp_l. f_equal. f_equal. lia.
  Qed.

  Lemma recense_spec : forall (st : state) s last h p2 prev,
    virtual nbv = true -> s_links st = s :: last :: h -> s_prev2 st = Some p2 -> s_prev st = Some prev ->
    (forall c, In c last -> c_in c < length p2) -> (forall c, In c last -> c_out c < length prev) ->
    virt_ok (last :: h) (match s_virt st with Some vs => vs | None => [] end) ->
    exists vs', recense extrapolate prolong nbv st =
      Some (mkstate (s_links st) (s_id st) (s_prev2 st) (s_prev st) (s_cur st) (Some vs') (s_virt st) (s_flg st)) /\
      virt_ok (s :: last :: h) vs'.
  Proof.
    intros st s last h p2 prev HVirt EL E2 E1 B2 B1 VO.
    assert (P : 1 <= nbv) by (unfold virtual in HVirt; apply Nat.ltb_lt in HVirt; lia).
    unfold recense. rewrite EL, HVirt. cbn [negb].
    set (old := match s_virt st with Some vs => vs | None => [] end) in *.
    destruct VO as (VN & VS & VC).
    set (dead := setdiff1d (map c_id last) (map c_id s)).
    (* observations to extend *)
    assert (EXT : exists ext,
      match s_virt st with
      | None => Some []
      | Some vs =>
          let! ix := index (map (@v_track V) vs) (setdiff1d (map (@v_track V) vs) (map c_id s)) in
          let! sel := gather vs ix in
          Some (filter (fun v => (v_size v <? Z.of_nat nbv)%Z) sel)
      end = Some ext /\ NoDup (map (@v_track V) ext) /\
      forall v, In v ext -> In v old /\ ~ In (v_track v) (map c_id s) /\ (v_size v < Z.of_nat nbv)%Z).
    { unfold old. destruct (s_virt st) as [vs|].
      - destruct (gather_index (@v_track V) vs (setdiff1d (map (@v_track V) vs) (map c_id s))) as (ix & sel & I1 & I2 & I3 & I4).
        { intros x Hx. now apply In_setdiff1d in Hx as [Hx _]. }
        rewrite I1. cbn [bind]. rewrite I2. cbn [bind].
        eexists. split; [reflexivity|]. split.
        + apply NoDup_filter_map. rewrite I3. apply NoDup_setdiff1d.
        + intros v Hv. apply filter_In in Hv as [Hv Hs]. apply Z.ltb_lt in Hs.
          split; auto. split; auto.
          assert (X : In (v_track v) (map (@v_track V) sel)) by now apply in_map.
          rewrite I3 in X. apply In_setdiff1d in X. tauto.
      - exists []. split; auto. split; [constructor|]. intros v []. }
    assert (EXC : forall ext, match s_virt st with
      | None => Some []
      | Some vs =>
          let! ix := index (map (@v_track V) vs) (setdiff1d (map (@v_track V) vs) (map c_id s)) in
          let! sel := gather vs ix in
          Some (filter (fun v => (v_size v <? Z.of_nat nbv)%Z) sel)
      end = Some ext -> forall v, In v old -> ~ In (v_track v) (map c_id s) -> (v_size v < Z.of_nat nbv)%Z ->
        exists v', In v' ext /\ v_track v' = v_track v).
    { intros ext E v Hv Ns Hs. unfold old in Hv. destruct (s_virt st) as [vs|]; [|contradiction].
      destruct (gather_index (@v_track V) vs (setdiff1d (map (@v_track V) vs) (map c_id s))) as (ix & sel & I1 & I2 & I3 & I4).
      { intros x Hx. now apply In_setdiff1d in Hx as [Hx _]. }
      rewrite I1 in E. cbn [bind] in E. rewrite I2 in E. cbn [bind] in E. injection E as <-.
      assert (X : In (v_track v) (map (@v_track V) sel)).
      { rewrite I3. apply In_setdiff1d. split; auto. now apply in_map. }
      apply nth_of_map in X as (v' & Hv' & Et). exists v'. split; auto.
      apply filter_In. split; auto. apply Z.ltb_lt.
      assert (v' = v); [|subst; auto].
      apply I4 in Hv'. apply In_nth_error in Hv' as [a Ha]. apply In_nth_error in Hv as [b Hb].
      destruct (Nat.eq_dec a b) as [->|Nab]; [congruence|].
      exfalso. apply (nth_error_map_neq (@v_track V) vs a b v' v VN); auto. }
    destruct EXT as (ext & EE & EN & ES). specialize (EXC ext EE).
    unfold bind at 1. change (@Corr_model.v_track V) with (@v_track V) in *.
    rewrite EE. clear EE.
    destruct (gather_index c_id last dead) as (ix & rows & I1 & I2 & I3 & I4).
    { intros x Hx. now apply In_setdiff1d in Hx as [Hx _]. }
    fold dead. rewrite I1. cbn [bind]. rewrite I2. cbn [bind]. rewrite E2, E1. cbn [bind].
    destruct (gather_total p2 (map c_in rows)) as [oa Ea].
    { intros i Hi. apply in_map_iff in Hi as (c & <- & Hc). auto. }
    rewrite Ea. cbn [bind].
    destruct (gather_total prev (map c_out rows)) as [ob Eb].
    { intros i Hi. apply in_map_iff in Hi as (c & <- & Hc). auto. }
    rewrite Eb. cbn [bind].
    destruct (proj1 (gather_Some _ _ _) Ea) as [La _]. destruct (proj1 (gather_Some _ _ _) Eb) as [Lb _].
    rewrite map_length in La, Lb.
    assert (Lr : length rows = length dead) by (rewrite <- I3; now rewrite map_length).
    set (fresh := map3 (fun a b t => mkvobs (extrapolate a b) t (i8 (0 + 1))) oa ob dead).
    destruct (map3_spec (fun a b t => mkvobs (extrapolate a b) t (i8 (0 + 1))) oa ob dead) as [M1 M2]; try lia.
    fold fresh in M1, M2.
    assert (FT : map (@v_track V) fresh = dead).
    { rewrite <- (map_id dead). apply map_from_nth; auto.
      intros k z Hz. destruct (M2 k z Hz) as (x & y & E). eexists. split; [exact E|]. reflexivity. }
    assert (FS : forall v, In v fresh -> v_size v = 1%Z).
    { intros v Hv. apply In_nth_error in Hv as [k Hk].
      assert (Lk : k < length dead) by (rewrite <- M1; eapply nth_error_Some_lt; eauto).
      destruct (nth_error_lt_Some dead k Lk) as [z Hz]. destruct (M2 k z Hz) as (x & y & E).
      rewrite Hk in E. injection E as ->. reflexivity. }
    set (extended := map (fun v => mkvobs (prolong (v_data v)) (v_track v) (i8 (v_size v + 1))) ext).
    assert (XT : map (@v_track V) extended = map (@v_track V) ext).
    { unfold extended. rewrite map_map. reflexivity. }
    exists (fresh ++ extended). split; [reflexivity|].
    assert (DG : forall id, In id dead -> gap (last :: h) id = Some 0 /\ ~ In id (map c_id s)).
    { intros id Hid. apply In_setdiff1d in Hid as [D1 D2]. split; auto. now apply gap_cons_in. }
    split; [|split].
    - rewrite map_app, FT, XT. apply NoDup_app_intro; auto.
      + apply NoDup_setdiff1d.
      + intros id H1 H2. destruct (DG id H1) as [G _]. apply nth_of_map in H2 as (v & Hv & <-).
        destruct (ES v Hv) as (O & _ & _). destruct (VS v O) as (g & S1 & S2 & _). rewrite G in S1. injection S1. lia.
    - intros v Hv. apply in_app_iff in Hv as [Hv|Hv].
      + rewrite (FS v Hv). exists 1.
        assert (D : In (v_track v) dead) by (rewrite <- FT; now apply in_map).
        destruct (DG _ D) as [G1 G2]. rewrite gap_cons_out, G1 by auto. repeat split; auto.
      + unfold extended in Hv. apply in_map_iff in Hv as (v0 & <- & Hv0).
        destruct (ES v0 Hv0) as (O & Ns & Sz). destruct (VS v0 O) as (g & S1 & S2 & S3 & S4). cbn [v_track v_size].
        exists (S g). rewrite gap_cons_out, S1 by auto. split; auto. split; [lia|]. split.
        * rewrite S3, i8_succ. f_equal. lia.
        * intros L. specialize (S4 L). rewrite S3, i8_small in Sz by lia. lia.
    - intros id g G Hg Hn.
      destruct (in_dec Nat.eq_dec id (map c_id s)) as [IN|OUT].
      { rewrite gap_cons_in in G by auto. injection G as <-. lia. }
      rewrite gap_cons_out in G by auto.
      destruct (gap (last :: h) id) as [g0|] eqn:G0; [|discriminate]. simpl in G. injection G as <-.
      destruct g0 as [|g0].
      + apply gap_0 in G0. simpl in G0.
        assert (D : In id dead) by (apply In_setdiff1d; auto).
        rewrite <- FT in D. apply nth_of_map in D as (v & Hv & Ev). exists v. rewrite in_app_iff. auto.
      + destruct (VC id (S g0) G0) as (v & Hv & Ev); [lia|lia|].
        destruct (VS v Hv) as (g1 & S1 & S2 & S3 & S4). rewrite Ev, G0 in S1. injection S1 as <-.
        destruct (EXC v Hv) as (v' & Hv' & Ev'); [now rewrite Ev| |].
        { rewrite S3. destruct (Nat.le_gt_cases nbv 127) as [L|L].
          - specialize (Hn L). rewrite i8_small; lia.
          - assert (i8 (Z.of_nat (S g0)) <= 127)%Z; [|lia]. unfold i8.
            pose proof (Z.mod_pos_bound (Z.of_nat (S g0) + 128) 256). lia. }
        exists (mkvobs (prolong (v_data v')) (v_track v') (i8 (v_size v' + 1))). split.
        * apply in_app_iff. right. unfold extended. apply in_map_iff. exists v'. auto.
        * cbn. congruence.
  Qed.

  Notation step := (step as_obs extrapolate prolong associate nbv).
  Notation steps := (steps as_obs extrapolate prolong associate nbv).
  Notation track := (track as_obs extrapolate prolong associate nbv).

  Lemma first_build : forall nb_real links cur,
    NoDup (map (fun l : nat * nat * Q => fst (fst l)) links) ->
    NoDup (map (fun l : nat * nat * Q => snd (fst l)) links) ->
    (forall i o q, In (i, o, q) links -> i < nb_real) ->
    let s := build nbv nb_real links (seq cur (length links)) (repeat 255 (length links)) in
    step_ok nbv [] s /\ (forall x, In x (map c_id s) <-> cur <= x < cur + length links) /\
    (forall c, In c s -> exists q, In (c_in c, c_out c, q) links) /\
    map (fun c => (c_in c, c_out c, c_cost c)) s = links /\ (forall c, In c s -> c_virtual c = false).
  Proof.
    intros nb_real links cur NI NO B s.
    assert (CELL : forall k i o q, nth_error links k = Some (i, o, q) ->
      nth_error s k = Some (mkcorr i o (cur + k) q false 255)).
    { intros k i o q H. unfold s.
      pose proof (nth_error_Some_lt _ _ _ H) as L.
      rewrite (build_nth nb_real links _ _ k (i, o, q) (cur + k) 255); auto.
      - cbn [fst snd].
        assert (i < nb_real) by (eapply B, nth_error_In; eauto).
        rewrite (proj2 (Nat.leb_gt nb_real i)) by lia. now rewrite andb_false_r.
      - rewrite nth_error_seq, (proj2 (Nat.ltb_lt _ _) L). reflexivity.
      - rewrite nth_error_repeat_lt, (proj2 (Nat.ltb_lt _ _) L). reflexivity. }
    assert (LL : length s = length links).
    { apply build_length; [apply seq_length|apply repeat_length]. }
    assert (DES : forall k c, nth_error s k = Some c -> exists i o q, nth_error links k = Some (i, o, q) /\ c = mkcorr i o (cur + k) q false 255).
    { intros k c Hk. assert (Lk : k < length links) by (rewrite <- LL; eapply nth_error_Some_lt; eauto).
      destruct (nth_error_lt_Some links k Lk) as [[[i o] q] Hl]. exists i, o, q. split; auto.
      rewrite (CELL _ _ _ _ Hl) in Hk. congruence. }
    assert (MI : map c_in s = map (fun l => fst (fst l)) links).
    { apply map_from_nth; auto. intros k [[i o] q] Hl. eexists. split; [apply (CELL _ _ _ _ Hl)|reflexivity]. }
    assert (MO : map c_out s = map (fun l => snd (fst l)) links).
    { apply map_from_nth; auto. intros k [[i o] q] Hl. eexists. split; [apply (CELL _ _ _ _ Hl)|reflexivity]. }
    assert (MID : map c_id s = seq cur (length links)).
    { rewrite <- (map_id (seq cur (length links))). apply map_from_nth; [now rewrite seq_length|].
      intros k x Hx. rewrite nth_error_seq in Hx. destruct (Nat.ltb_spec k (length links)) as [Lk|]; [|discriminate].
      injection Hx as <-. destruct (nth_error_lt_Some links k Lk) as [[[i o] q] Hl].
      eexists. split; [apply (CELL _ _ _ _ Hl)|reflexivity]. }
    split; [|split; [|split; [|split]]].
    - constructor.
      + rewrite MID. apply seq_NoDup.
      + now rewrite MI.
      + now rewrite MO.
      + intros c Hc. left. apply In_nth_error in Hc as [k Hk]. destruct (DES k c Hk) as (i & o & q & _ & ->).
        cbn. split; auto.
    - intros x. rewrite MID, in_seq. lia.
    - intros c Hc. apply In_nth_error in Hc as [k Hk]. destruct (DES k c Hk) as (i & o & q & Hl & ->).
      cbn. exists q. eapply nth_error_In; eauto.
    - rewrite <- (map_id links). apply map_from_nth; auto.
      intros k [[i o] q] Hl. eexists. split; [apply (CELL _ _ _ _ Hl)|reflexivity].
    - intros c Hc. apply In_nth_error in Hc as [k Hk]. destruct (DES k c Hk) as (i & o & q & Hl & ->). reflexivity.
  Qed.

  Lemma hist_head : forall s h, hist nbv (s :: h) -> step_ok nbv h s.
  Proof. intros s h H. now inversion H. Qed.

  (** The stored step [s] holds the links found between the date [real], with
      possible extra eddies after it, and the date [d]. *)
  Definition from_dates (real d : list Obs) (s : list corr) : Prop :=
    (forall c, In c s -> c_out c < length d /\ (c_virtual c = true <-> length real <= c_in c)) /\
    exists extra, associate (real ++ extra) d = Some (map (fun c => (c_in c, c_out c, c_cost c)) s) /\
      (virtual nbv = false -> extra = []).

  (** One iteration: it succeeds, keeps the invariant and adds one step. *)
  Lemma inv_step : forall (st : state) real d,
    inv st -> s_cur st = Some real ->
    exists st' s, step st d = Some st' /\ inv st' /\ s_links st' = s :: s_links st /\ s_cur st' = Some d /\
      from_dates real d s.
  Proof.
    intros st real d (HH & DD & REST) EC.
    unfold Corr_model.step, swap. cbn [s_links s_id s_prev2 s_prev s_cur s_virt s_pvirt s_flg].
    rewrite EC. cbn [bind].
    destruct (s_links st) as [|last h] eqn:EL.
    - (* first step *)
      destruct REST as (E1 & E2 & E3 & _). rewrite E3. cbn [bind].
      destruct (HA real d) as (links & EA & NI & NO & R). rewrite EA. cbn [bind].
      unfold store_correspondance. cbn [s_prev2 s_links s_id]. rewrite E1. cbn [bind].
      destruct (first_build (length real) links (s_id st) NI NO) as (S1 & S2 & S3 & S4 & S5).
      { intros i o q H. eapply R; eauto. }
      set (s := build nbv (length real) links (seq (s_id st) (length links)) (repeat 255 (length links))) in *.
      eexists. exists s. split; [reflexivity|].
      assert (BD : forall c, In c s -> c_in c < length real /\ c_out c < length d).
      { intros c Hc. destruct (S3 c Hc) as [q Hq]. eapply R; eauto. }
      split; [|split; [reflexivity|split; [reflexivity|]]].
      + split; [|split]; cbn [s_links s_id s_prev2 s_prev s_cur s_virt s_pvirt s_flg].
        * constructor; [constructor|exact S1].
        * intros id. split.
          -- intros Hid. assert (~ id < s_id st). { intros X. apply DD in X. simpl in X. congruence. }
             rewrite gap_cons_in; [discriminate|]. apply S2. lia.
          -- intros G. destruct (in_dec Nat.eq_dec id (map c_id s)) as [IN|OUT].
             ++ apply S2 in IN. lia.
             ++ rewrite gap_cons_out in G by auto. simpl in G. congruence.
        * split; [|split].
          -- exists real. split; auto. intros c Hc. now apply BD.
          -- exists d. split; auto. intros c Hc. now apply BD.
          -- rewrite E2. auto.
      + split.
        * intros c Hc. destruct (BD c Hc). split; auto. rewrite (S5 c Hc). split; [discriminate|lia].
        * exists []. rewrite app_nil_r. split; auto. rewrite S4. exact EA.
    - (* later steps *)
      destruct REST as ((p2 & E1 & B1) & (d0 & Ed & B2) & REST).
      rewrite EC in Ed. injection Ed as <-.
      pose proof (hist_head _ _ HH) as OKL.
      (* the state of the virtual observations *)
      assert (VIRT : exists prev,
         (if s_flg st then let! vs := s_virt st in Some (real ++ map (fun v => as_obs (v_data v)) vs) else Some real) = Some prev /\
         length real <= length prev /\ (exists extra, prev = real ++ extra) /\
         (virtual nbv = false -> prev = real) /\
         (virtual nbv = true -> virt_ok (last :: h) (match s_virt st with Some vs => vs | None => [] end)) /\
         (forall i, length real <= i -> i < length prev -> virtual nbv = true ->
            exists vs v, s_virt st = Some vs /\ nth_error vs (i - length real) = Some v)).
      { assert (EMPTY : h = [] -> virt_ok (last :: h) []).
        { intros ->. split; [constructor|]. split; [intros v []|]. intros id g G Hg. exfalso.
          destruct (in_dec Nat.eq_dec id (map c_id last)) as [IN|OUT].
          - rewrite gap_cons_in in G by auto. injection G. lia.
          - rewrite gap_cons_out in G by auto. discriminate. }
        destruct h as [|s2 h2].
        - destruct REST as [R1 R2]. rewrite R1, R2. exists real. split; auto. split; auto. split; [exists []; now rewrite app_nil_r|]. split; auto. split; auto.
          intros i Hi1 Hi2. lia.
        - destruct (virtual nbv) eqn:EV.
          + destruct REST as ((vs & R1 & R3) & R2). rewrite R1, R2. cbn [bind].
            exists (real ++ map (fun v => as_obs (v_data v)) vs). split; auto.
            rewrite app_length, map_length. split; [lia|]. split; [eauto|]. split; [discriminate|]. split; auto.
            intros i Hi1 Hi2 _. destruct (nth_error_lt_Some vs (i - length real)) as [v Hv]; [lia|].
            exists vs, v. auto.
          + destruct REST as [R1 R2]. rewrite R1, R2. exists real. split; auto. split; auto. split; [exists []; now rewrite app_nil_r|]. split; auto.
            split; [discriminate|]. intros i Hi1 Hi2. lia. }
      destruct VIRT as (prev & EP & LP & (extra & EX) & NV & VO & VX).
      match goal with |- context [bind ?e _] =>
        match e with context [s_flg st] => change e with
          (if s_flg st then let! vs := s_virt st in Some (real ++ map (fun v => as_obs (v_data v)) vs) else Some real) end end.
      rewrite EP. cbn [bind].
      destruct (HA prev d) as (links & EA & NI & NO & R). rewrite EA. cbn [bind].
      set (st1 := mkstate (last :: h) (s_id st) (s_prev st) (Some prev) (Some d) (s_virt st) (s_pvirt st) (s_flg st)).
      destruct (store_spec st1 (length real) links prev p2 last h) as (corrs & cur & ES & LL & LC & CELL & FR & ALL); auto.
      { apply (ok_outs _ _ _ OKL). }
      { intros i o q H. eapply R; eauto. }
      rewrite ES. cbn [bind]. cbn [s_links s_id s_prev2 s_prev s_cur s_virt s_pvirt s_flg st1].
      destruct (new_step_ok (s_virt st) last h (length real) links corrs (s_id st) cur) as [OK DN]; auto.
      { intros vs EV E. specialize (VO EV). now rewrite E in VO. }
      assert (HH' : hist nbv (corrs :: last :: h)) by (constructor; auto).
      assert (DES : forall c, In c corrs -> c_in c < length prev /\ c_out c < length d /\
                 c_virtual c = (virtual nbv && (length real <=? c_in c))).
      { intros c Hc. apply In_nth_error in Hc as [k Hk].
        assert (Lk : k < length links) by (rewrite <- LL; eapply nth_error_Some_lt; eauto).
        destruct (nth_error_lt_Some links k Lk) as [[[i o] q] Hl].
        destruct (CELL _ _ _ _ Hl) as (c1 & C1 & C2 & C3 & C4 & C5 & _). rewrite Hk in C1. injection C1 as <-.
        subst i o. destruct (R _ _ _ (nth_error_In _ _ Hl)). auto. }
      assert (BOUND : from_dates real d corrs).
      { split.
        - intros c Hc. destruct (DES c Hc) as (X & Y & Z). split; auto. rewrite Z.
          destruct (virtual nbv) eqn:EV.
          + simpl. apply Nat.leb_le.
          + rewrite (NV eq_refl) in X. simpl. split; [discriminate|lia].
        - exists extra. split.
          + rewrite <- EX, EA. f_equal. rewrite <- (map_id links) at 1. symmetry. apply map_from_nth; auto.
            intros k [[i o] q] Hl. destruct (CELL _ _ _ _ Hl) as (c1 & C1 & C2 & C3 & C4 & C5 & _).
            exists c1. split; auto. unfold id. now rewrite C2, C3, C4.
          + intros F. specialize (NV F). rewrite EX in NV. rewrite <- (app_nil_r real) in NV at 2.
            now apply app_inv_head in NV. }
      set (st2 := mkstate (corrs :: last :: h) cur (s_prev st) (Some prev) (Some d) (s_virt st) (s_pvirt st) (s_flg st)).
      destruct (virtual nbv) eqn:EV.
      + destruct (recense_spec st2 corrs last h p2 prev) as (vs' & ER & VO'); auto.
        { intros c Hc. specialize (B2 c Hc). lia. }
        rewrite ER. cbn [bind]. eexists. exists corrs. split; [reflexivity|].
        cbn [s_links s_id s_prev2 s_prev s_cur s_virt s_pvirt s_flg st2].
        split; [|split; [reflexivity|split; [reflexivity|exact BOUND]]].
        split; [exact HH'|]. split; [exact DN|].
        cbn [s_links s_id s_prev2 s_prev s_cur s_virt s_pvirt s_flg]. rewrite EV. split; [|split].
        * exists prev. split; auto. intros c Hc. now apply DES.
        * exists d. split; auto. intros c Hc. now apply DES.
        * eauto.
      + assert (ER : recense extrapolate prolong nbv st2 = Some st2) by (unfold recense; cbn [s_links st2]; rewrite EV; reflexivity).
        rewrite ER. cbn [bind]. eexists. exists corrs. split; [reflexivity|].
        cbn [s_links s_id s_prev2 s_prev s_cur s_virt s_pvirt s_flg st2].
        split; [|split; [reflexivity|split; [reflexivity|exact BOUND]]].
        split; [exact HH'|]. split; [exact DN|].
        cbn [s_links s_id s_prev2 s_prev s_cur s_virt s_pvirt s_flg]. rewrite EV. split; [|split].
        * exists prev. split; auto. intros c Hc. now apply DES.
        * exists d. split; auto. intros c Hc. now apply DES.
        * destruct h; [exact REST|]. exact REST.
  Qed.

  (** links made from the dates [d0 :: ds], most recent first *)
  Inductive bounded : list (list corr) -> list (list Obs) -> Prop :=
  | bounded_start : forall d, bounded [] [d]
  | bounded_step : forall h s d real ds, bounded h (real :: ds) ->
      from_dates real d s -> bounded (s :: h) (d :: real :: ds).

  Lemma steps_inv : forall ds (st : state) real past,
    inv st -> s_cur st = Some real -> bounded (s_links st) (real :: past) ->
    exists st', steps st ds = Some st' /\ inv st' /\ bounded (s_links st') (rev ds ++ real :: past).
  Proof.
    induction ds as [|d ds IH]; intros st real past I EC B; simpl.
    - eauto.
    - destruct (inv_step st real d I EC) as (st1 & s & E & I1 & L1 & C1 & BD). rewrite E. cbn [bind].
      destruct (IH st1 d (real :: past) I1 C1) as (st' & E' & I' & B').
      + rewrite L1. constructor; auto.
      + exists st'. split; auto. split; auto. now rewrite <- app_assoc.
  Qed.

  Lemma track_inv : forall d ds, exists st, track (d :: ds) = Some st /\ inv st /\
    bounded (s_links st) (rev (d :: ds)).
  Proof.
    intros d ds. simpl. apply (steps_inv ds (start d) d []).
    - apply inv_start.
    - reflexivity.
    - constructor.
  Qed.
End Run.
