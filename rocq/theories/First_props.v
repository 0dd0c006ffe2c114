(** * Association row by row with one link per target ([solve_first]). *)
From Coq Require Import List Arith Bool QArith Lia Lqa.
From Verif Require Import Base Qaux Solver_model Solver_proofs.
Import ListNotations.
Local Close Scope Q_scope.
Local Open Scope nat_scope.

(** ** Specification.
    [first_come cost L i j]: cell [(i, j)] is allowed, no earlier row took
    target [j], and among the allowed targets of row [i] which no earlier row
    took, [j] is the cheapest (the first one on equal costs).  [L] is looked at
    for the earlier rows only. *)
Definition free (L : nat -> nat -> Prop) (i j : nat) : Prop := forall i', i' < i -> ~ L i' j.
Definition first_come (cost : mat (option Q)) (L : nat -> nat -> Prop) (i j : nat) : Prop :=
  exists c, get cost i j = Some (Some c) /\ free L i j /\
    forall j' c', get cost i j' = Some (Some c') -> free L i j' ->
      (c <= c')%Q /\ (j' < j -> (c < c')%Q).

Section One.
  Context (n m : nat) (cost : mat (option Q)) (ki kj : list nat).
  Context (SH : shaped n m cost).
  Context (Ii : incr ki) (Ij : incr kj).
  Context (Bi : forall i, In i ki -> i < n) (Bj : forall j, In j kj -> j < m).
  Context (Closed : forall i j c, In i ki -> allowed cost i j c -> In j kj).

  Definition seen (a : nat) (mask : mat bool) (i j : nat) : Prop :=
    In i (firstn a ki) /\ linked mask i j.

  Record ginv (a : nat) (mask : mat bool) (red : mat (option Q)) : Prop := {
    ginv_shape : shaped n m mask;
    ginv_red_shape : shaped (length ki) (length kj) red;
    ginv_red : forall k b i j c, a <= k -> nth_error ki k = Some i -> nth_error kj b = Some j ->
      (get red k b = Some (Some c) <-> allowed cost i j c /\ forall i', ~ seen a mask i' j);
    ginv_done : forall i j, In i (firstn a ki) ->
      (linked mask i j <-> first_come cost (seen a mask) i j);
    ginv_todo : forall i j, ~ In i (firstn a ki) ->
      (linked mask i j <-> (exists c, allowed cost i j c) /\ forall i', ~ seen a mask i' j)
  }.

  Lemma In_firstn : forall a k i, a <= k -> nth_error ki k = Some i -> forall i', In i' (firstn a ki) -> i' < i.
  Proof.
    intros a k i Hk Hi i' X. apply In_nth_error in X as [q Hq].
    assert (q < a). { apply nth_error_Some_lt in Hq. rewrite firstn_length in Hq. lia. }
    assert (nth_error ki q = Some i').
    { rewrite <- (firstn_skipn a ki). rewrite nth_error_app1; auto. eapply nth_error_Some_lt; eauto. }
    eapply (incr_nth ki Ii q k); eauto. lia.
  Qed.

  Lemma first_come_ext : forall L L' i j,
    (forall i' j', i' < i -> (L i' j' <-> L' i' j')) ->
    (first_come cost L i j <-> first_come cost L' i j).
  Proof.
    intros L L' i j E.
    assert (FE : forall j', free L i j' <-> free L' i j').
    { intros j'. unfold free. split; intros F i' Li X; apply (F i' Li); apply E; auto. }
    unfold first_come. split; intros (c & A & F & B); exists c; (split; [exact A|]); (split; [now apply FE|]);
      intros j' c' A' F'; apply B; auto; now apply FE.
  Qed.

  Lemma first_come_unique : forall L i j j', first_come cost L i j -> first_come cost L i j' -> j = j'.
  Proof.
    intros L i j j' (c & A & F & H) (c' & A' & F' & H').
    destruct (H j' c' A' F') as [X X']. destruct (H' j c A F) as [Y Y'].
    destruct (Nat.lt_trichotomy j j') as [Lt|[Lt|Lt]]; auto.
    - specialize (Y' Lt). lra.
    - specialize (X' Lt). lra.
  Qed.

  Lemma ginv_step : forall a mask red,
    a < length ki -> ginv a mask red ->
    exists mask' red', take_first false ki kj (mask, red) a = Some (mask', red') /\ ginv (S a) mask' red'.
  Proof.
    intros a mask red Ha G. unfold take_first.
    destruct (nth_error_lt_Some ki a Ha) as [i Hi].
    pose proof (ginv_red_shape _ _ _ G) as [RL RF].
    destruct (nth_error_lt_Some red a) as [r Hr]; [lia|]. rewrite Hr. cbn [bind].
    assert (Iki : In i ki) by (eapply nth_error_In; eauto).
    assert (Gr : forall b, nth_error r b = get red a b) by (intros; unfold get; now rewrite Hr).
    assert (Old : forall i', In i' (firstn a ki) -> i' < i) by (apply (In_firstn a a); auto).
    assert (Nf : ~ In i (firstn a ki)) by (intros X; apply Old in X; lia).
    assert (Fr : forall j, free (seen a mask) i j <-> forall i', ~ seen a mask i' j).
    { intros j. split; intros F; intros i'.
      - intros X. apply (F i'); auto. apply Old, X.
      - intros _. apply F. }
    assert (AG : forall j c, allowed cost i j c -> free (seen a mask) i j ->
                 exists b, nth_error kj b = Some j /\ nth_error r b = Some (Some c)).
    { intros j c A F. pose proof (Closed _ _ _ Iki A) as Hj. apply In_nth_error in Hj as [b Hb].
      exists b. split; auto. rewrite Gr. apply (ginv_red _ _ _ G a b i j c); auto. split; auto. now apply Fr. }
    destruct (argmin r) as [b|] eqn:E.
    - destruct (argmin_Some _ _ E) as (c & Hc & Hmin & Hfst).
      assert (Hb : b < length kj).
      { apply nth_error_Some_lt in Hc. rewrite Forall_forall in RF. rewrite (RF r (nth_error_In _ _ Hr)) in Hc. exact Hc. }
      destruct (nth_error_lt_Some kj b Hb) as [j Hj]. rewrite Hi, Hj. cbn [bind].
      eexists. eexists. split; [reflexivity|].
      assert (Al : allowed cost i j c /\ forall i', ~ seen a mask i' j).
      { apply (ginv_red _ _ _ G a b i j c); auto. now rewrite <- Gr. }
      destruct Al as [Al Fj].
      assert (FC : first_come cost (seen a mask) i j).
      { exists c. split; [exact Al|]. split; [now apply Fr|]. intros j' c' A' F'.
        destruct (AG _ _ A' F') as (b' & Hb' & Hc').
        split; [eapply Hmin; eauto|]. intros Lj. apply (Hfst b'); auto.
        destruct (Nat.lt_trichotomy b' b) as [X|[X|X]]; auto.
        - subst. rewrite Hj in Hb'. injection Hb' as ->. lia.
        - pose proof (incr_nth kj Ij b b' j j' X Hj Hb'). lia. }
      set (mask' := set_cell (set_col (set_row mask i false) j false) i j true).
      assert (LM : forall i' j', linked mask' i' j' <->
                   (i' = i /\ j' = j) \/ (i' <> i /\ j' <> j /\ linked mask i' j')).
      { intros i' j'. unfold linked, mask'. rewrite get_set_cell, get_set_col, get_set_row.
        destruct (Nat.eqb_spec i' i) as [->|Ni].
        - destruct (Nat.eqb_spec j' j) as [->|Nj]; cbn [andb].
          + destruct (shaped_get _ _ _ i j (ginv_shape _ _ _ G) (Bi _ Iki) (Bj _ (nth_error_In _ _ Hj))) as [v ->].
            cbn. split; auto.
          + split; [destruct (get mask i j'); discriminate|]. intros [[_ X]|[X _]]; congruence.
        - cbn [andb]. destruct (Nat.eqb_spec j' j) as [->|Nj].
          + split; [destruct (get mask i' j); discriminate|]. intros [[X _]|[_ [X _]]]; congruence.
          + replace (option_map _ _) with (get mask i' j') by (destruct (get mask i' j'); reflexivity).
            split; [auto|]. intros [[X _]|[_ [_ X]]]; [congruence|exact X]. }
      assert (SE : forall i' j', seen (S a) mask' i' j' <-> seen a mask i' j' \/ (i' = i /\ j' = j)).
      { intros i' j'. unfold seen. rewrite (firstn_S _ _ _ Hi), in_app_iff. cbn [In]. rewrite LM. split.
        - intros [[X|[X|[]]] [Y|(Y & Y1 & Y2)]]; auto. congruence.
        - intros [(X & Y)|[-> ->]]; [|split; auto].
          split; auto. right. split; [intros ->; auto|]. split; auto.
          intros ->. apply (Fj i'). split; auto. }
      assert (SEl : forall i0, (In i0 (firstn a ki) \/ i0 = i) -> forall i' j', i' < i0 -> (seen (S a) mask' i' j' <-> seen a mask i' j')).
      { intros i0 H0 i' j' Li. rewrite SE. split; [|auto]. intros [X|[-> _]]; auto.
        exfalso. destruct H0 as [H0| ->]; [apply Old in H0|]; lia. }
      constructor.
      + apply shaped_set_cell, shaped_set_col, shaped_set_row, (ginv_shape _ _ _ G).
      + apply shaped_set_col, shaped_set_row, (ginv_red_shape _ _ _ G).
      + intros k b' i' j' c' Hk Hi' Hj'. rewrite get_set_col, get_set_row.
        destruct (Nat.eqb_spec k a); [lia|].
        pose proof (ginv_red _ _ _ G k b' i' j' c' ltac:(lia) Hi' Hj') as IR.
        destruct (Nat.eqb_spec b' b) as [->|Nb].
        * rewrite Hj in Hj'. injection Hj' as <-. split.
          -- destruct (get red k b); discriminate.
          -- intros [_ X]. exfalso. apply (X i). apply SE. auto.
        * replace (option_map _ _) with (get red k b') by (destruct (get red k b'); reflexivity).
          rewrite IR. apply and_iff_compat_l. split; intros F i0 X.
          -- apply SE in X as [X|[_ X]]; [exact (F i0 X)|]. subst j'.
             destruct (Nat.lt_trichotomy b b') as [Y|[Y|Y]]; [|congruence|].
             ++ pose proof (incr_nth kj Ij b b' j j Y Hj Hj'). lia.
             ++ pose proof (incr_nth kj Ij b' b j j Y Hj' Hj). lia.
          -- apply (F i0). apply SE. auto.
      + intros i' j' Hin. rewrite (firstn_S _ _ _ Hi), in_app_iff in Hin. cbn [In] in Hin.
        rewrite (first_come_ext _ (seen a mask)).
        2:{ intros i0 j0 L0. apply (SEl i'); auto. destruct Hin as [X|[X|[]]]; auto. }
        destruct Hin as [X|[X|[]]].
        * rewrite <- (ginv_done _ _ _ G i' j' X), LM.
          assert (i' <> i) by (intros ->; auto). split.
          -- intros [[Y _]|(_ & _ & Y)]; [congruence|auto].
          -- intros Y. right. split; auto. split; auto. intros ->. apply (Fj i'). split; auto.
        * subst i'. rewrite LM. split.
          -- intros [[_ ->]|[Y _]]; [auto|congruence].
          -- intros Y. left. split; auto. eapply first_come_unique; eauto.
      + intros i' j' Hin. rewrite (firstn_S _ _ _ Hi), in_app_iff in Hin. cbn [In] in Hin.
        assert (N1 : ~ In i' (firstn a ki)) by auto.
        assert (N2 : i' <> i) by (intros ->; auto).
        rewrite LM, (ginv_todo _ _ _ G i' j' N1). split.
        * intros [[Y _]|(_ & Y & Y1 & Y2)]; [congruence|]. split; auto.
          intros i0 X. apply SE in X as [X|[_ X]]; [exact (Y2 i0 X)|congruence].
        * intros [Y Y2]. right. split; auto. split.
          -- intros ->. apply (Y2 i). apply SE. auto.
          -- split; auto. intros i0 X. apply (Y2 i0). apply SE. auto.
    - exists mask, red. split; [reflexivity|].
      assert (NL : forall j, ~ linked mask i j).
      { intros j L0. apply (ginv_todo _ _ _ G i j Nf) in L0 as [[c A] F].
        destruct (AG j c A) as (b & _ & Hb); [now apply Fr|]. exact (argmin_None _ E _ _ Hb). }
      assert (SE : forall i' j', seen (S a) mask i' j' <-> seen a mask i' j').
      { intros i' j'. unfold seen. rewrite (firstn_S _ _ _ Hi), in_app_iff. cbn [In]. split.
        - intros [[X|[X|[]]] Y]; auto. subst. exfalso. exact (NL _ Y).
        - intros [X Y]; auto. }
      constructor.
      + apply (ginv_shape _ _ _ G).
      + apply (ginv_red_shape _ _ _ G).
      + intros k b i' j c Hk Hi' Hj. rewrite (ginv_red _ _ _ G k b i' j c ltac:(lia) Hi' Hj).
        apply and_iff_compat_l. split; intros F i0 X; apply (F i0); now apply SE.
      + intros i' j Hin. rewrite (first_come_ext _ (seen a mask)) by (intros; apply SE).
        rewrite (firstn_S _ _ _ Hi), in_app_iff in Hin. cbn [In] in Hin.
        destruct Hin as [X|[X|[]]]; [apply (ginv_done _ _ _ G); auto|]. subst i'. split.
        * intros X. exfalso. exact (NL _ X).
        * intros (c & A & F & _). exfalso. destruct (AG j c A F) as (b & _ & Hb). exact (argmin_None _ E _ _ Hb).
      + intros i' j Hin. rewrite (firstn_S _ _ _ Hi), in_app_iff in Hin. cbn [In] in Hin.
        rewrite (ginv_todo _ _ _ G i' j) by auto.
        apply and_iff_compat_l. split; intros F i0 X; apply (F i0); now apply SE.
  Qed.

  Lemma ginv_loop : forall k a mask red,
    a + k = length ki -> ginv a mask red ->
    exists st, first_loop false ki kj (seq a k) (mask, red) = Some st /\ ginv (length ki) (fst st) (snd st).
  Proof.
    induction k as [|k IH]; intros a mask red Hk G.
    - exists (mask, red). split; auto. simpl. replace (length ki) with a by lia. exact G.
    - cbn [seq first_loop]. destruct (ginv_step a mask red ltac:(lia) G) as (mask' & red' & E & G').
      rewrite E. cbn [bind]. apply IH; auto. lia.
  Qed.
End One.

Lemma solve_first_one : forall n m cost,
  shaped n m cost -> 0 < n -> 0 < m ->
  exists mask, solve_first false m cost = Some mask /\ shaped n m mask /\
    forall i j, linked mask i j <-> first_come cost (linked mask) i j.
Proof.
  intros n m cost SH Pn Pm. unfold solve_first.
  pose proof (shaped_is_some n m cost SH) as SM.
  set (mask0 := map (map is_some) cost) in *.
  assert (L0 : forall i j, linked mask0 i j <-> exists c, allowed cost i j c) by apply linked_init.
  destruct (Nat.eqb_spec (length cost * m) 0) as [Zm|Zm].
  { exfalso. destruct SH as [L _]. rewrite L in Zm. nia. }
  destruct (existsb (fun b => b) (separation mask0) || existsb (fun b => b) (merging m mask0)) eqn:T.
  - set (ki := self_keep m mask0). set (kj := other_keep m mask0).
    assert (Ii : incr ki) by apply incr_where.
    assert (Ij : incr kj) by apply incr_where.
    assert (Bi : forall i, In i ki -> i < n) by (apply self_keep_bound; auto).
    assert (Bj : forall j, In j kj -> j < m) by (apply (other_keep_bound n); auto).
    destruct (submatrix_spec n m cost ki kj SH Bi Bj) as (red & ER & SR & GR).
    rewrite ER. cbn [bind].
    assert (Closed : forall i j c, In i ki -> allowed cost i j c -> In j kj).
    { intros i j c Hi A. eapply (keep_closed_row n); eauto. apply L0. eauto. }
    destruct (ginv_loop n m cost ki kj Ii Ij Bi Bj Closed (length ki) 0 mask0 red eq_refl) as ([mask red'] & EL & G).
    { constructor; auto; simpl.
      - intros k b i j c _ Hi Hj. rewrite (GR k b i j Hi Hj). split; [|intros [A _]; exact A].
        intros A. split; auto. intros i' [[] _].
      - intros i j [].
      - intros i j _. rewrite L0. split; [|intros [A _]; exact A]. intros A. split; auto. intros i' [[] _]. }
    exists mask. split.
    { change (list (list bool)) with (mat bool) in *.
      transitivity (bind (first_loop false ki kj (seq 0 (length ki)) (mask0, red)) (fun st => Some (fst st))); [reflexivity|].
      rewrite EL. reflexivity. }
    cbn [fst snd] in G.
    split; [apply (ginv_shape _ _ _ _ _ _ _ _ G)|].
    assert (Sub : forall i j, linked mask i j -> linked mask0 i j).
    { intros i j H. apply L0. destruct (in_dec Nat.eq_dec i (firstn (length ki) ki)) as [Y|Y].
      - apply (ginv_done _ _ _ _ _ _ _ _ G i j Y) in H as (c & A & _). exists c. exact A.
      - now apply (ginv_todo _ _ _ _ _ _ _ _ G i j Y) in H as [A _]. }
    intros i j. destruct (in_dec Nat.eq_dec i ki) as [Hin|Hin].
    + pose proof (ginv_done _ _ _ _ _ _ _ _ G i j) as D. rewrite firstn_all in D. rewrite (D Hin).
      assert (FE : forall j' c', get cost i j' = Some (Some c') ->
                   (free (seen ki (length ki) mask) i j' <-> free (linked mask) i j')).
      { intros j' c' A. unfold free, seen. rewrite firstn_all. split; intros F i' Li X.
        - apply (F i' Li). split; auto. apply (keep_closed_col n m mask0 SM i' j'); [|now apply Sub].
          exact (Closed _ _ _ Hin A).
        - apply (F i' Li), X. }
      unfold first_come. split; intros (c & A & F & B); exists c; (split; [exact A|]); (split; [now apply (FE j c A)|]);
        intros j' c' A' F'; apply B; auto; now apply (FE j' c' A').
    + pose proof (ginv_todo _ _ _ _ _ _ _ _ G i j) as D. rewrite firstn_all in D. rewrite (D Hin).
      assert (Col : forall i' j' c', allowed cost i j' c' -> linked mask0 i' j' -> i' = i).
      { intros i' j' c' A X. destruct (Nat.eq_dec i' i); auto. exfalso. apply Hin.
        eapply (keep_col_conflict n m mask0 SM i i' j'); auto. apply L0. eauto. }
      assert (Row : forall j' c' c, allowed cost i j c -> allowed cost i j' c' -> j' = j).
      { intros j' c' c A A'. destruct (Nat.eq_dec j' j); auto. exfalso. apply Hin.
        eapply (keep_row_conflict n m mask0 SM i j j'); auto; apply L0; eauto. }
      split.
      * intros [[c A] _]. exists c. split; [exact A|]. split.
        -- intros i' Li X. apply Sub in X. apply (Col _ _ _ A) in X. lia.
        -- intros j' c' A' _. pose proof (Row _ _ _ A A'). subst. unfold allowed in *.
           assert (c = c') by congruence. subst. split; [lra|lia].
      * intros (c & A & _). split; [exists c; exact A|].
        intros i' [X Y]. rewrite firstn_all in X. apply Sub in Y. apply (Col _ _ _ A) in Y. subst. auto.
  - exists mask0. split; auto. split; auto.
    destruct (no_conflict n m mask0 SM T) as [N1 N2].
    intros i j. rewrite L0. split.
    + intros [c A]. exists c. split; [exact A|]. split.
      * intros i' Li X. assert (i' = i); [|lia]. apply (N2 i' i j); auto. apply L0. eauto.
      * intros j' c' A' _. assert (j' = j) by (apply (N1 i); apply L0; eauto). subst.
        unfold allowed in *. assert (c = c') by congruence. subst. split; [lra|lia].
    + intros (c & A & _). exists c. exact A.
Qed.

(** ** C139.  For every rectangular matrix of costs with at least one row and
    one column ([None]: link not allowed), the association row by row with one
    link per target returns a matrix of the same shape in which row [i] is
    linked to target [j] exactly when [first_come] says so for the very links
    returned: only allowed links, at most one link per row and per target, and
    every allowed link not kept has its row linked, or its target taken by an
    earlier row. *)
Theorem C139_first_come : forall n m (cost : mat (option Q)),
  length cost = n -> Forall (fun r => length r = m) cost -> 0 < n -> 0 < m ->
  exists mask, solve_first false m cost = Some mask /\
    length mask = n /\ Forall (fun r => length r = m) mask /\
    (forall i j, get mask i j = Some true <->
       first_come cost (fun i j => get mask i j = Some true) i j) /\
    (forall i j j', get mask i j = Some true -> get mask i j' = Some true -> j = j') /\
    (forall i i' j, get mask i j = Some true -> get mask i' j = Some true -> i = i') /\
    (forall i j c, get cost i j = Some (Some c) -> get mask i j <> Some true ->
       (exists j', get mask i j' = Some true) \/ (exists i', i' < i /\ get mask i' j = Some true)).
Proof.
  intros n m cost Ln F Pn Pm.
  destruct (solve_first_one n m cost (conj Ln F) Pn Pm) as (mask & E & [SL SF] & C).
  change (forall i j, get mask i j = Some true <-> first_come cost (fun i j => get mask i j = Some true) i j) in C.
  exists mask. do 4 (split; [assumption|]). split; [|split].
  - intros i j j' H H'. apply C in H, H'. eapply first_come_unique; eauto.
  - intros i i' j H H'. pose proof (proj1 (C i j) H) as (_ & _ & Fi & _).
    pose proof (proj1 (C i' j) H') as (_ & _ & Fi' & _).
    destruct (Nat.lt_trichotomy i i') as [Lt|[Lt|Lt]]; auto; exfalso.
    + exact (Fi' _ Lt H).
    + exact (Fi _ Lt H').
  - intros i j c A N.
    (* the cheapest free allowed cell of the row, if any *)
    set (row := match nth_error cost i with Some r => r | None => [] end).
    assert (Row : forall j', nth_error row j' = get cost i j').
    { intros j'. unfold get, row. destruct (nth_error cost i); auto. now destruct j'. }
    assert (FD : forall j', free (fun i j => get mask i j = Some true) i j' \/ (exists i', i' < i /\ get mask i' j' = Some true)).
    { intros j'. unfold free. clear - mask. induction i as [|i IH]; [left; intros; lia|].
      destruct IH as [H|(i' & H1 & H2)]; [|right; exists i'; auto].
      destruct (get mask i j') as [[|]|] eqn:E; [right; exists i; auto| |];
        left; intros i' Li X; destruct (Nat.eq_dec i' i) as [->|]; try congruence; apply (H i'); auto; lia. }
    destruct (FD j) as [Fj|Tj]; [left|right; exact Tj].
    set (tk := fun j' => existsb (fun i' => match get mask i' j' with Some true => true | _ => false end) (seq 0 i)).
    assert (TK : forall j', tk j' = false <-> free (fun i j => get mask i j = Some true) i j').
    { intros j'. unfold tk, free. split.
      - intros H i' Li X. assert (existsb (fun i' => match get mask i' j' with Some true => true | _ => false end) (seq 0 i) = true); [|congruence].
        apply existsb_exists. exists i'. split; [apply in_seq; lia|]. now rewrite X.
      - intros H. apply not_true_iff_false. intros X. apply existsb_exists in X as (i' & X1 & X2).
        apply in_seq in X1. apply (H i'); [lia|]. destruct (get mask i' j') as [[|]|]; congruence. }
    set (l := map (fun j' => if tk j' then None else match nth_error row j' with Some x => x | None => None end) (seq 0 (length row))).
    assert (NL : forall j' c', nth_error l j' = Some (Some c') <-> get cost i j' = Some (Some c') /\ tk j' = false).
    { intros j' c'. unfold l. rewrite nth_error_map, nth_error_seq, <- Row.
      destruct (Nat.ltb_spec j' (length row)) as [Lj|Lj]; cbn [option_map Nat.add].
      - destruct (nth_error_lt_Some row j' Lj) as [x ->]. destruct (tk j'); split; try intros [? ?]; try discriminate; intros; try split; congruence.
      - pose proof (proj2 (nth_error_None row j') Lj) as ->. split; [discriminate|]. intros [? _]. discriminate. }
    destruct (argmin l) as [b|] eqn:EA.
    + destruct (argmin_Some _ _ EA) as (c0 & H1 & H2 & H3). exists b. apply C. apply NL in H1 as [H1 H1'].
      exists c0. split; auto. split; [now apply TK|]. intros j' c' A' F'.
      assert (nth_error l j' = Some (Some c')) by (apply NL; split; auto; now apply TK).
      split; [eapply H2; eauto|]. intros Lj. eapply H3; eauto.
    + exfalso. apply (argmin_None _ EA j c). apply NL. split; auto. now apply TK.
Qed.
Print Assumptions C139_first_come.

(** The links of [first_come] are unique: two matrices of links which both
    follow the rule are equal. *)
Theorem C139_first_come_unique : forall (cost : mat (option Q)) (L L' : nat -> nat -> Prop),
  (forall i j, L i j <-> first_come cost L i j) ->
  (forall i j, L' i j <-> first_come cost L' i j) ->
  forall i j, L i j <-> L' i j.
Proof.
  intros cost L L' H H' i. induction i as [i IH] using (well_founded_induction lt_wf). intros j.
  rewrite H, H'. apply first_come_ext. auto.
Qed.
Print Assumptions C139_first_come_unique.

(** Three rows, three targets: row 0 takes its cheapest target 1, so that row 1,
    for which 1 is cheaper, is left with target 0, and row 2, which may only be
    linked to 1, with nothing. *)
Example C139_case :
  solve_first false 3 [[Some 2; Some 1; None]; [Some 3; Some (1#2); None]; [None; Some (1#4); None]]%Q
  = Some [[false; true; false]; [true; false; false]; [false; false; false]].
Proof. reflexivity. Qed.
(** With several links allowed per target the three rows share target 1. *)
Example C139_case_multiple :
  solve_first true 3 [[Some 2; Some 1; None]; [Some 3; Some (1#2); None]; [None; Some (1#4); None]]%Q
  = Some [[false; true; false]; [false; true; false]; [false; true; false]].
Proof. reflexivity. Qed.

(** The result depends on the order of the rows: the same two observations the
    other way round are not linked to the same targets. *)
Theorem C139_order_refuted : exists c1 c2 : list (option Q), exists m1 m2,
  solve_first false 2 [c1; c2] = Some m1 /\ solve_first false 2 [c2; c1] = Some m2 /\ m2 <> rev m1.
Proof.
  exists [Some 1; Some 2]%Q, [Some (1#2); Some 3]%Q. do 2 eexists.
  split; [reflexivity|]. split; [reflexivity|]. discriminate.
Qed.
Print Assumptions C139_order_refuted.

(** A matrix without a row or without a column is an error (the maximum of
    no number). *)
Theorem C139_empty : forall b m (cost : mat (option Q)), length cost = 0 \/ m = 0 -> solve_first b m cost = None.
Proof.
  intros b m cost H. unfold solve_first.
  replace (length cost * m =? 0) with true; auto.
  symmetry. apply Nat.eqb_eq. nia.
Qed.
Print Assumptions C139_empty.
