From Coq Require Import List Arith ZArith QArith Qabs Qround Bool Lia Lqa.
From Verif Require Import Base Qaux Spec Obs_model Pix_model Poly_wind Eid_model Eid_spec.
Import ListNotations.
Local Close Scope Q_scope.
Local Open Scope nat_scope.

(** ** Tables *)
Lemma nth2_value : forall {A} (g : list (list A)) i j v, nth2 g i j = Some v <-> value_at g (i, j) v.
Proof.
  intros A g i j v. unfold nth2, value_at. cbn [fst snd]. destruct (nth_error g i) as [r|]; cbn [bind]; split.
  - intros E. exists r. split; [reflexivity|exact E].
  - intros (r' & E & H). apply Some_inj in E. subst. exact H.
  - intros X; discriminate X.
  - intros (r' & E & _). discriminate E.
Qed.
Lemma value_fun : forall {A} (g : list (list A)) c v w, value_at g c v -> value_at g c w -> v = w.
Proof. intros A g c v w (r & E & H) (r' & E' & H'). rewrite E in E'. apply Some_inj in E'. subst r'. rewrite H in H'. apply Some_inj in H'. exact H'. Qed.
Lemma rect_value : forall {A} n m (g : list (list A)) c, rect n m g -> fst c < n -> snd c < m -> exists v, value_at g c v.
Proof.
  intros A n m g c (L & R) H1 H2. destruct (nth_error_lt_Some g (fst c)) as (r & E); [lia|]. destruct (nth_error_lt_Some r (snd c)) as (v & F); [rewrite (R r (nth_error_In _ _ E)); exact H2|]. exists v, r. split; assumption.
Qed.
Lemma value_range : forall {A} n m (g : list (list A)) c v, rect n m g -> value_at g c v -> fst c < n /\ snd c < m.
Proof. intros A n m g c v (L & R) (r & E & F). apply nth_error_Some_lt in F. rewrite (R r (nth_error_In _ _ E)) in F. apply nth_error_Some_lt in E. split; lia. Qed.
Lemma pyidx_mod : forall n z i, pyidx n z = Some i -> i = Z.to_nat (z mod Z.of_nat n) /\ i < n.
Proof.
  intros n z i. unfold pyidx. destruct (Z.leb_spec 0 z).
  - destruct (Z.ltb_spec z (Z.of_nat n)); [|intros X; discriminate X]. intros E. apply Some_inj in E. subst i. rewrite Z.mod_small by lia. split; [reflexivity|lia].
  - destruct (Z.leb_spec (- Z.of_nat n) z); [|intros X; discriminate X]. intros E. apply Some_inj in E. subst i. split; [|lia]. f_equal. replace z with ((z + Z.of_nat n) + (-1) * Z.of_nat n)%Z at 2 by lia. rewrite Z_mod_plus_full. rewrite Z.mod_small by lia. reflexivity.
Qed.
Lemma get2_cell : forall {A} n m (g : list (list A)) p v, rect n m g -> get2 g p = Some v -> value_at g (cell_of n m p) v /\ fst (cell_of n m p) < n /\ snd (cell_of n m p) < m.
Proof.
  intros A n m g p v (L & R). unfold get2, pyget. destruct (pyidx (length g) (fst p)) as [i|] eqn:E; [|intros X; discriminate X]. cbn [bind]. destruct (nth_error g i) as [r|] eqn:F; [|intros X; discriminate X]. cbn [bind]. destruct (pyidx (length r) (snd p)) as [j|] eqn:E'; [|intros X; discriminate X]. cbn [bind]. intros V.
  apply pyidx_mod in E as [E I]. apply pyidx_mod in E' as [E' J]. rewrite (R r (nth_error_In _ _ F)) in E', J. rewrite L in E, I. unfold cell_of. rewrite <- E, <- E'. cbn [fst snd]. split; [exists r; split; assumption|split; assumption].
Qed.
Lemma get_all_In : forall {A} (g : list (list A)) ps vs, get_all g ps = Some vs -> length vs = length ps /\ (forall v, In v vs -> exists p, In p ps /\ get2 g p = Some v) /\ (forall p, In p ps -> exists v, In v vs /\ get2 g p = Some v).
Proof.
  intros A g ps. induction ps as [|p ps IH]; cbn [get_all]; intros vs H.
  - apply Some_inj in H. subst. split; [reflexivity|]. split; [intros v []|intros p []].
  - destruct (get2 g p) as [v|] eqn:E; [|discriminate H]. cbn [bind] in H. destruct (get_all g ps) as [ws|]; [|discriminate H]. cbn [bind] in H. apply Some_inj in H. subst vs. destruct (IH ws eq_refl) as (L & I1 & I2). split; [cbn; lia|]. split.
    + intros w [<-|I]; [exists p; split; [left; reflexivity|exact E]|]. destruct (I1 w I) as (p' & I' & E'). exists p'. split; [right; exact I'|exact E'].
    + intros p' [<-|I]; [exists v; split; [left; reflexivity|exact E]|]. destruct (I2 p' I) as (w & I' & E'). exists w. split; [right; exact I'|exact E'].
Qed.
Lemma put2_spec : forall {A} n m (g g' : list (list A)) p v, rect n m g -> put2 g p v = Some g' ->
  rect n m g' /\ (forall c w, value_at g' c w <-> (c = cell_of n m p /\ w = v) \/ (c <> cell_of n m p /\ value_at g c w)).
Proof.
  intros A n m g g' p v (L & R). unfold put2, pyget, pystore. destruct (pyidx (length g) (fst p)) as [i|] eqn:E; [|intros X; discriminate X]. cbn [bind]. destruct (nth_error g i) as [r|] eqn:F; [|intros X; discriminate X]. cbn [bind]. destruct (pyidx (length r) (snd p)) as [j|] eqn:E'; [|intros X; discriminate X]. cbn [bind].
  assert (LR : length r = m) by (apply R; exact (nth_error_In _ _ F)).
  apply pyidx_mod in E as [E I]. apply pyidx_mod in E' as [E' J]. rewrite LR in E'. rewrite L in E. unfold cell_of. rewrite <- E, <- E'. clear E E'.
  unfold store. destruct (Nat.ltb_spec j (length r)); [|lia]. cbn [bind]. destruct (Nat.ltb_spec i (length g)); [|lia]. intros X. apply Some_inj in X. subst g'. split.
  - split; [rewrite length_upd; exact L|]. intros row IR. apply In_nth_error in IR as (i' & IR). destruct (Nat.eq_dec i' i) as [->|D].
    + rewrite nth_error_upd_eq in IR by assumption. apply Some_inj in IR. subst row. rewrite length_upd. exact LR.
    + rewrite nth_error_upd_neq in IR by congruence. apply R. exact (nth_error_In _ _ IR).
  - intros [a b] w. unfold value_at. cbn [fst snd]. destruct (Nat.eq_dec a i) as [->|D].
    + rewrite nth_error_upd_eq by assumption. destruct (Nat.eq_dec b j) as [->|D'].
      * split.
        -- intros (r' & X & Y). apply Some_inj in X. subst r'. rewrite nth_error_upd_eq in Y by assumption. apply Some_inj in Y. left. split; congruence.
        -- intros [[_ ->]|[X _]]; [|congruence]. eexists. split; [reflexivity|]. apply nth_error_upd_eq. assumption.
      * split.
        -- intros (r' & X & Y). apply Some_inj in X. subst r'. rewrite nth_error_upd_neq in Y by congruence. right. split; [congruence|]. exists r. split; assumption.
        -- intros [[X _]|[_ (r' & X & Y)]]; [congruence|]. rewrite F in X. apply Some_inj in X. subst r'. eexists. split; [reflexivity|]. rewrite nth_error_upd_neq by congruence. exact Y.
    + rewrite nth_error_upd_neq by congruence. split; [intros X; right; split; [congruence|exact X]|intros [[X _]|[_ X]]; [congruence|exact X]].
Qed.
Lemma put_all_spec : forall {A} n m ps (g g' : list (list A)) v, rect n m g -> put_all g ps v = Some g' ->
  rect n m g' /\ (forall c w, value_at g' c w <-> (In c (map (cell_of n m) ps) /\ w = v) \/ (~ In c (map (cell_of n m) ps) /\ value_at g c w)).
Proof.
  intros A n m ps. induction ps as [|p ps IH]; intros g g' v R H; cbn [put_all] in H.
  - apply Some_inj in H. subst g'. split; [exact R|]. intros c w. cbn. tauto.
  - destruct (put2 g p v) as [g1|] eqn:E; [|discriminate H]. cbn [bind] in H. destruct (put2_spec n m g g1 p v R E) as [R1 S1]. destruct (IH g1 g' v R1 H) as [R2 S2]. split; [exact R2|]. intros c w. rewrite S2, S1. cbn [map In].
    assert (DC : {c = cell_of n m p} + {c <> cell_of n m p}) by (decide equality; apply Nat.eq_dec). destruct DC as [->|D].
    + destruct (in_dec (fun a b : nat * nat => ltac:(decide equality; apply Nat.eq_dec)) (cell_of n m p) (map (cell_of n m) ps)) as [I|I]; split; intros X; tauto.
    + split; intros X; [destruct X as [[X Y]|[X [[Y _]|[_ Y]]]]; [left; split; [right; exact X|exact Y]|contradiction|right; split; [intros [Z|Z]; [congruence|contradiction]|exact Y]]|].
      destruct X as [[[X|X] Y]|[X Y]]; [congruence|left; split; assumption|right]. split; [tauto|right; split; assumption].
Qed.
(** Tables of any shape, indexed by naturals. *)
Lemma set2_spec : forall {A} (g g' : list (list A)) k v, set2 g k v = Some g' -> forall c w, value_at g' c w <-> (c = k /\ w = v) \/ (c <> k /\ value_at g c w).
Proof.
  intros A g g' [i j] v. unfold set2. cbn [fst snd]. destruct (nth_error g i) as [r|] eqn:F; [|intros X; discriminate X]. cbn [bind]. unfold store. destruct (Nat.ltb_spec j (length r)); [|intros X; discriminate X]. cbn [bind]. destruct (Nat.ltb_spec i (length g)); [|intros X; discriminate X]. intros X. apply Some_inj in X. subst g'.
  intros [a b] w. unfold value_at. cbn [fst snd]. destruct (Nat.eq_dec a i) as [->|D].
    + rewrite nth_error_upd_eq by assumption. destruct (Nat.eq_dec b j) as [->|D'].
      * split.
        -- intros (r' & X & Y). apply Some_inj in X. subst r'. rewrite nth_error_upd_eq in Y by assumption. apply Some_inj in Y. left. split; congruence.
        -- intros [[_ ->]|[X _]]; [|congruence]. eexists. split; [reflexivity|]. apply nth_error_upd_eq. assumption.
      * split.
        -- intros (r' & X & Y). apply Some_inj in X. subst r'. rewrite nth_error_upd_neq in Y by congruence. right. split; [congruence|]. exists r. split; assumption.
        -- intros [[X _]|[_ (r' & X & Y)]]; [congruence|]. rewrite F in X. apply Some_inj in X. subst r'. eexists. split; [reflexivity|]. rewrite nth_error_upd_neq by congruence. exact Y.
    + rewrite nth_error_upd_neq by congruence. split; [intros X; right; split; [congruence|exact X]|intros [[X _]|[_ X]]; [congruence|exact X]].
Qed.
Definition pair_eq_dec (a b : nat * nat) : {a = b} + {a <> b}.
Proof. decide equality; apply Nat.eq_dec. Defined.
Lemma set_all_spec : forall {A} ks (g g' : list (list A)) v, set_all g ks v = Some g' -> forall c w, value_at g' c w <-> (In c ks /\ w = v) \/ (~ In c ks /\ value_at g c w).
Proof.
  intros A ks. induction ks as [|k ks IH]; intros g g' v H c w; cbn [set_all] in H.
  - apply Some_inj in H. subst g'. cbn. tauto.
  - destruct (set2 g k v) as [g1|] eqn:E; [|discriminate H]. cbn [bind] in H. pose proof (set2_spec g g1 k v E) as S1. pose proof (IH g1 g' v H) as S2. rewrite S2, S1. cbn [In]. destruct (pair_eq_dec c k) as [->|D].
    + destruct (in_dec pair_eq_dec k ks) as [I|I]; split; intros X; tauto.
    + split; intros X; [destruct X as [[X Y]|[X [[Y _]|[_ Y]]]]; [left; split; [right; exact X|exact Y]|contradiction|right; split; [intros [Z|Z]; [congruence|contradiction]|exact Y]]|].
      destruct X as [[[X|X] Y]|[X Y]]; [congruence|left; split; assumption|right]. split; [tauto|right; split; assumption].
Qed.

(** ** Levels *)
Lemma iter_all_up : forall n, iter_levels n None true = seq 0 n.
Proof. intros n. unfold iter_levels. change (Z.to_nat 0) with 0. rewrite Nat.sub_0_r. reflexivity. Qed.
Lemma iter_all_down : forall n, iter_levels n None false = rev (seq 0 n).
Proof. intros n. unfold iter_levels. replace (Z.to_nat (Z.of_nat n - 1 + 1)) with n by lia. reflexivity. Qed.
Lemma iter_from_up : forall n l, l < n -> iter_levels n (Some (Z.of_nat l + 1)%Z) true = seq (S l) (n - S l).
Proof. intros n l H. unfold iter_levels. destruct (Z.ltb_spec (Z.of_nat l + 1) 0); [lia|]. replace (Z.to_nat (Z.min (Z.of_nat l + 1) (Z.of_nat n))) with (S l) by lia. reflexivity. Qed.
Lemma iter_from_down : forall n l, l < n -> iter_levels n (Some (- Z.of_nat (n - 1 - l) - 1 + -1)%Z) false = rev (seq 0 l).
Proof. intros n l H. unfold iter_levels. destruct (Z.ltb_spec (- Z.of_nat (n - 1 - l) - 1 + -1) 0); [|lia]. replace (Z.to_nat (Z.max (- Z.of_nat (n - 1 - l) - 1 + -1 + Z.of_nat n) (-1) + 1)) with l by lia. reflexivity. Qed.
Lemma nth_rev_seq : forall n i, nth_error (rev (seq 0 n)) i = if i <? n then Some (n - 1 - i) else None.
Proof.
  intros n. induction n as [|n IH]; intros i; [destruct i; reflexivity|]. rewrite seq_S, rev_app_distr. cbn [rev app plus]. destruct i as [|i]; cbn [nth_error]; [destruct (Nat.ltb_spec 0 (S n)); [f_equal; lia|lia]|]. rewrite IH. destruct (Nat.ltb_spec i n), (Nat.ltb_spec (S i) (S n)); try lia; [f_equal; lia|reflexivity].
Qed.
(** The index of the code for a level. *)
Definition code_index (n : nat) (anticyclonic : bool) (l : nat) : Z := if anticyclonic then Z.of_nat l else (- Z.of_nat (n - 1 - l) - 1)%Z.
Lemma pyget_code : forall {A} (t : list A) (anticyclonic : bool) l i, l < length t -> (if anticyclonic then l + i < length t else i <= l) ->
  pyget t (code_index (length t) anticyclonic l + (if anticyclonic then 1 else -1) * Z.of_nat i)%Z = nth_error t (if anticyclonic then l + i else l - i).
Proof.
  intros A t anti l i L H. unfold pyget, pyidx, code_index. destruct anti.
  - destruct (Z.leb_spec 0 (Z.of_nat l + 1 * Z.of_nat i)); [|lia]. destruct (Z.ltb_spec (Z.of_nat l + 1 * Z.of_nat i) (Z.of_nat (length t))); [|lia]. cbn [bind]. f_equal. lia.
  - destruct (Z.leb_spec 0 (- Z.of_nat (length t - 1 - l) - 1 + -1 * Z.of_nat i)); [lia|]. destruct (Z.leb_spec (- Z.of_nat (length t)) (- Z.of_nat (length t - 1 - l) - 1 + -1 * Z.of_nat i)); [|lia]. cbn [bind]. f_equal. lia.
Qed.
Lemma iter_next : forall n (anticyclonic : bool) l, l < n ->
  forall i, nth_error (iter_levels n (Some (code_index n anticyclonic l + (if anticyclonic then 1 else -1))%Z) anticyclonic) i =
    if anticyclonic then (if S l + i <? n then Some (S l + i) else None) else (if i <? l then Some (l - S i) else None).
Proof.
  intros n anti l H i. destruct anti.
  - unfold code_index. rewrite iter_from_up by exact H. rewrite nth_error_seq. destruct (Nat.ltb_spec i (n - S l)), (Nat.ltb_spec (S l + i) n); try lia; reflexivity.
  - unfold code_index. rewrite (iter_from_down n l H). rewrite nth_rev_seq. destruct (Nat.ltb_spec i l); [f_equal; lia|reflexivity].
Qed.
