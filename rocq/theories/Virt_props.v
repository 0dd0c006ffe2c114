(** C117: positions given to the lost eddies while they are waited for.

    Specification: a lost eddy goes on in a straight line; after [k] dates it is at
    B + k (B - A), B its last real position and A the one before. *)
From Coq Require Import List Arith ZArith Lia QArith Bool Lqa.
From Verif Require Import Base Qaux Generic_model Obs_model Corr_model Corr_spec Corr_proofs Corr_props Virt_model.
Import ListNotations.
Local Close Scope Q_scope.
Local Open Scope nat_scope.

(** ** Columns and rows *)
Section Cols.
Context {K C : Type} (zero_k : K) (zero_c : C).
Notation eddy := (@eddy K C).
Notation veddy := (@virtual_eddy K C).
Notation vrow := (@vobs veddy).
(** The columns of a list of rows. *)
Definition columns_of (l : list vrow) : @columns K C :=
  let e := fun v => row (v_data v) in
  Columns (map (fun v => lon (e v)) l) (map (fun v => lat (e v)) l) (map (fun v => time (e v)) l) (map (fun v => other (e v)) l)
    (map (fun v => contour (e v)) l) (map (fun v => dlon (v_data v)) l) (map (fun v => dlat (v_data v)) l) (map v_track l) (map v_size l).

Lemma assign_head : forall {A} (l v : list A), length v <= length l -> assign l None (Some (Z.of_nat (length v))) v = Some (v ++ skipn (length v) l).
Proof.
  intros A l v L. unfold assign. cbn [start_of stop_of]. unfold clip. replace (Z.of_nat (length v) <? 0)%Z with false by (symmetry; apply Z.ltb_ge; lia).
  rewrite Nat2Z.id, Nat.min_l, Nat.max_r, Nat.sub_0_r, Nat.eqb_refl by lia. reflexivity.
Qed.
Lemma assign_tail : forall {A} (l v : list A) n, n + length v = length l -> assign l (Some (Z.of_nat n)) None v = Some (firstn n l ++ v).
Proof.
  intros A l v n L. unfold assign. cbn [start_of stop_of]. unfold clip. replace (Z.of_nat n <? 0)%Z with false by (symmetry; apply Z.ltb_ge; lia).
  rewrite Nat2Z.id, Nat.min_l, Nat.max_r by lia. replace (length v =? length l - n) with true by (symmetry; apply Nat.eqb_eq; lia).
  rewrite skipn_all, app_nil_r. reflexivity.
Qed.
Lemma pyslice_head : forall {A} (l v : list A), pyslice (v ++ l) None (Some (Z.of_nat (length v))) = v.
Proof.
  intros A l v. unfold pyslice. cbn [start_of stop_of]. unfold clip. replace (Z.of_nat (length v) <? 0)%Z with false by (symmetry; apply Z.ltb_ge; lia).
  rewrite app_length, Nat2Z.id, Nat.min_l by lia. unfold slice. rewrite Nat.sub_0_r. cbn [skipn]. rewrite firstn_app, Nat.sub_diag, firstn_all. cbn [firstn]. apply app_nil_r.
Qed.
Lemma skipn_zeros : forall {A} (z : A) n e, skipn n (repeat z (n + e)) = repeat z e.
Proof. induction n as [|n IH]; intros e; [reflexivity|apply IH]. Qed.
Lemma head_zeros : forall {A} (z : A) (v : list A) n e, length v = n -> assign (repeat z (n + e)) None (Some (Z.of_nat n)) v = Some (v ++ repeat z e).
Proof. intros A z v n e <-. rewrite assign_head by (rewrite repeat_length; lia). rewrite skipn_zeros. reflexivity. Qed.
Lemma tail_zeros : forall {A} (z : A) (v w : list A) n e, length v = n -> length w = e -> assign (v ++ repeat z e) (Some (Z.of_nat n)) None w = Some (v ++ w).
Proof. intros A z v w n e <- <-. rewrite assign_tail by (rewrite app_length, repeat_length; lia). rewrite firstn_app, Nat.sub_diag, firstn_all. cbn [firstn]. rewrite app_nil_r. reflexivity. Qed.
Lemma slice_zeros : forall {A} (l v : list A) n, length v = n -> pyslice (v ++ l) None (Some (Z.of_nat n)) = v.
Proof. intros A l v n <-. apply pyslice_head. Qed.
Lemma repeat_map : forall {A B} (f : A -> B) z l, (forall x, In x l -> f x = z) -> map f l = repeat z (length l).
Proof. induction l as [|x l IH]; intros E; [reflexivity|]. cbn. rewrite E by (now left). f_equal. apply IH. intros y I. apply E. now right. Qed.
Lemma qplus_len : forall a b, length a = length b -> length (qplus a b) = length a.
Proof. induction a as [|x a IH]; intros [|y b] E; try discriminate E; [reflexivity|]. cbn in *. f_equal. apply IH. lia. Qed.
Lemma qminus_len : forall a b, length a = length b -> length (qminus a b) = length a.
Proof. induction a as [|x a IH]; intros [|y b] E; try discriminate E; [reflexivity|]. cbn in *. f_equal. apply IH. lia. Qed.

(** The rows which [recense] of [Corr_model] makes, with the concrete rows. *)
Definition first_rows (area : bool) (a b : list eddy) (dead : list nat) : list vrow := map3 (fun x y t => mkvobs (extrapolate zero_c area x y) t 1%Z) a b dead.
Definition next_rows (area : bool) (ext : list vrow) : list vrow := map (fun v => mkvobs (prolong zero_c area (v_data v)) (v_track v) (i8 (v_size v + 1))) ext.

Lemma first_cols : forall area a b dead, length b = length a -> length dead = length a ->
  let l := first_rows area a b dead in let d := qminus (map lon b) (map lon a) in let d' := qminus (map lat b) (map lat a) in
  columns_of l = Columns (qplus (map lon b) d) (qplus (map lat b) d') (repeat 0%Q (length a)) (map other b) (if area then map contour b else repeat zero_c (length a)) d d' dead (repeat 1%Z (length a)).
Proof.
  intros area. induction a as [|x a IH]; intros [|y b] [|t dead] L1 L2; try discriminate; [destruct area; reflexivity|]. cbn in L1, L2. injection L1 as L1. injection L2 as L2. specialize (IH b dead L1 L2). unfold columns_of, first_rows in *. cbn in *.
  injection IH as E1 E2 E3 E4 E5 E6 E7 E8 E9. rewrite E1, E2, E3, E4, E5, E6, E7, E8, E9. destruct area; reflexivity.
Qed.
Lemma next_cols : forall area ext, let e := map v_data ext in
  columns_of (next_rows area ext) = Columns (qplus (map (fun v => lon (row v)) e) (map dlon e)) (qplus (map (fun v => lat (row v)) e) (map dlat e)) (repeat 0%Q (length ext))
    (map (fun v => other (row v)) e) (if area then map (fun v => contour (row v)) e else repeat zero_c (length ext)) (map dlon e) (map dlat e) (map v_track ext) (map (fun s => i8 (s + 1)) (map v_size ext)).
Proof.
  intros area. induction ext as [|v ext IH]; [destruct area; reflexivity|]. unfold columns_of, next_rows in *. cbn in *. injection IH as E1 E2 E3 E4 E5 E6 E7 E8 E9. rewrite E1, E2, E3, E4, E5, E6, E7, E8, E9. destruct area; reflexivity.
Qed.
Lemma cols_app : forall a b : list vrow, let x := columns_of a in let y := columns_of b in
  columns_of (a ++ b) = Columns (col_lon x ++ col_lon y) (col_lat x ++ col_lat y) (col_time x ++ col_time y) (col_other x ++ col_other y) (col_contour x ++ col_contour y)
    (col_dlon x ++ col_dlon y) (col_dlat x ++ col_dlat y) (col_track x ++ col_track y) (col_size x ++ col_size y).
Proof. intros a b. unfold columns_of. cbn. rewrite !map_app. reflexivity. Qed.

Lemma propagate_spec : forall a b ext dead, length b = length a -> length dead = length a ->
  propagate zero_k zero_c a b ext dead (length a + length ext) = Some (columns_of (first_rows false a b dead ++ next_rows false ext)).
Proof.
  intros a b ext dead LB LD. unfold propagate.
  assert (D1 : length (qminus (map lon b) (map lon a)) = length a) by (rewrite qminus_len; rewrite !map_length; assumption).
  assert (D2 : length (qminus (map lat b) (map lat a)) = length a) by (rewrite qminus_len; rewrite !map_length; assumption).
  rewrite (head_zeros zero_k) by (rewrite map_length; exact LB). cbn [bind].
  rewrite (head_zeros 0%Q (qminus (map lon b) (map lon a))) by exact D1. cbn [bind].
  rewrite (head_zeros 0%Q (qminus (map lat b) (map lat a))) by exact D2. cbn [bind].
  rewrite (slice_zeros _ _ _ D1), (slice_zeros _ _ _ D2).
  rewrite (head_zeros 0%Q (qplus _ _)) by (rewrite qplus_len; rewrite map_length; congruence). cbn [bind].
  rewrite (head_zeros 0%Q (qplus (map lat b) _)) by (rewrite qplus_len; rewrite map_length; congruence). cbn [bind].
  rewrite (head_zeros 0 dead) by exact LD. cbn [bind].
  rewrite cols_app, (first_cols false a b dead LB LD), next_cols. cbn [col_lon col_lat col_time col_other col_contour col_dlon col_dlat col_track col_size].
  rewrite <- !repeat_app.
  destruct ext as [|v ext].
  - rewrite Nat.add_0_r, Z.sub_diag. cbn [Z.ltb Z.compare bind map length repeat qplus]. rewrite !app_nil_r. cbn [col_lon col_lat col_time col_other col_contour col_dlon col_dlat col_track col_size].
    rewrite (repeat_map (fun s => i8 (s + 1)) 1%Z); [rewrite repeat_length; reflexivity|]. intros x I. apply repeat_spec in I. subst x. reflexivity.
  - set (e := v :: ext). assert (P : 0 < length e) by (cbn; lia). replace (0 <? Z.of_nat (length a + length e) - Z.of_nat (length a))%Z with true by (symmetry; apply Z.ltb_lt; lia). clearbody e. clear v ext.
    rewrite (tail_zeros zero_k) by (rewrite ?map_length; auto). cbn [bind].
    rewrite (tail_zeros 0%Q _ (map dlon _)) by (rewrite ?map_length; auto). cbn [bind].
    rewrite (tail_zeros 0%Q _ (map dlat _)) by (rewrite ?map_length; auto). cbn [bind].
    rewrite (tail_zeros 0%Q) by (rewrite qplus_len; rewrite ?map_length; congruence). cbn [bind].
    rewrite (tail_zeros 0%Q) by (rewrite qplus_len; rewrite ?map_length; congruence). cbn [bind].
    rewrite (tail_zeros 0) by (rewrite ?map_length; auto). cbn [bind].
    rewrite repeat_app, (tail_zeros 0%Z) by (rewrite ?repeat_length, ?map_length; auto). cbn [bind col_lon col_lat col_time col_other col_contour col_dlon col_dlat col_track col_size].
    rewrite map_app. rewrite (repeat_map (fun s => i8 (s + 1)) 1%Z (repeat 0%Z _)); [rewrite repeat_length; reflexivity|]. intros x I. apply repeat_spec in I. subst x. reflexivity.
Qed.
Lemma propagate_area_spec : forall a b ext dead, length b = length a -> length dead = length a ->
  propagate_area zero_k zero_c a b ext dead (length a + length ext) = Some (columns_of (first_rows true a b dead ++ next_rows true ext)).
Proof.
  intros a b ext dead LB LD. unfold propagate_area. rewrite propagate_spec by assumption. cbn [bind]. rewrite !cols_app, !(first_cols _ a b dead LB LD), !next_cols. cbn [col_lon col_lat col_time col_other col_contour col_dlon col_dlat col_track col_size].
  rewrite <- repeat_app, (head_zeros zero_c) by (rewrite map_length; exact LB). cbn [bind]. destruct ext as [|v ext].
  - rewrite Nat.add_0_r, Z.sub_diag. cbn [Z.ltb Z.compare bind map length repeat qplus]. reflexivity.
  - set (e := v :: ext). assert (P : 0 < length e) by (cbn; lia). replace (0 <? Z.of_nat (length a + length e) - Z.of_nat (length a))%Z with true by (symmetry; apply Z.ltb_lt; lia). clearbody e. clear v ext.
    rewrite (tail_zeros zero_c) by (rewrite ?map_length; auto). cbn [bind]. rewrite !map_map. reflexivity.
Qed.
End Cols.

(** ** The run *)
(** [x] is eddy [i] of date [t]. *)
Definition eddy_at {Obs} (D : list (list Obs)) (t i : nat) (x : Obs) : Prop := exists d, nth_error D t = Some d /\ nth_error d i = Some x.

Section Foreseen.
  Context {Obs V : Type} (as_obs : V -> Obs) (extrapolate : Obs -> Obs -> V) (prolong : V -> V).
  Context (associate : list Obs -> list Obs -> option (list (nat * nat * Q))) (nbv : nat).
  (** [foreseen H D t id k v]: at date [t] the track [id] has been lost for [k]
      dates and its eddy is supposed to be [v].  It is extrapolated from the two eddies
      of its last link, the first of them possibly being itself foreseen, then goes on. *)
  Inductive foreseen (H : list (list corr)) (D : list (list Obs)) : nat -> nat -> nat -> V -> Prop :=
  | lost : forall t c a b, link_at H t c -> c_virtual c = false -> eddy_at D t (c_in c) a -> eddy_at D (S t) (c_out c) b ->
      ~ seen H (S t) (c_id c) -> foreseen H D (S (S t)) (c_id c) 1 (extrapolate a b)
  | lost_again : forall t c k v b, link_at H t c -> c_virtual c = true -> foreseen H D t (c_id c) k v -> eddy_at D (S t) (c_out c) b ->
      ~ seen H (S t) (c_id c) -> foreseen H D (S (S t)) (c_id c) 1 (extrapolate (as_obs v) b)
  | still_lost : forall t id k v, foreseen H D t id k v -> ~ seen H t id -> foreseen H D (S t) id (S k) (prolong v).
  (** [v] is what is foreseen of its track at date [t]. *)
  Definition waited H D (t : nat) (v : @vobs V) : Prop :=
    exists k, 1 <= k <= nbv /\ v_size v = Z.of_nat k /\ foreseen H D t (v_track v) k (v_data v).
  (** What step [t] associates to the date [t + 1]: the eddies of date [t] then
      [vs], the eddies waited for. *)
  Definition step_from H D (t : nat) (s : list corr) (real : list Obs) (vs : list (@vobs V)) (next : list Obs) : Prop :=
    nth_error D t = Some real /\ nth_error D (S t) = Some next /\ (forall v, In v vs -> waited H D t v) /\
    associate (real ++ map (fun v => as_obs (v_data v)) vs) next = Some (map (fun c => (c_in c, c_out c, c_cost c)) s) /\
    forall c, In c s -> c_out c < length next /\
      if c_virtual c then length real <= c_in c /\ exists v, nth_error vs (c_in c - length real) = Some v /\ v_track v = c_id c /\ v_size v = Z.of_nat (c_vlen c)
      else c_in c < length real.

  Lemma link_at_app : forall H s t c, link_at H t c -> link_at (H ++ [s]) t c.
  Proof. intros H s t c (x & X & I). exists x. split; [|exact I]. rewrite nth_error_app1; [exact X|]. eapply nth_error_Some_lt; eauto. Qed.
  Lemma not_seen_app : forall H s t id, t < length H -> ~ seen H t id -> ~ seen (H ++ [s]) t id.
  Proof. intros H s t id L N (c & (x & X & I) & E). apply N. exists c. split; [|exact E]. exists x. split; [|exact I]. rewrite nth_error_app1 in X by exact L. exact X. Qed.
  Lemma eddy_at_app : forall (D : list (list Obs)) d t i x, eddy_at D t i x -> eddy_at (D ++ [d]) t i x.
  Proof. intros D d t i x (l & L & I). exists l. split; [|exact I]. rewrite nth_error_app1; [exact L|]. eapply nth_error_Some_lt; eauto. Qed.
  Lemma foreseen_app : forall H D s d t id k v, foreseen H D t id k v -> t <= length H -> foreseen (H ++ [s]) (D ++ [d]) t id k v.
  Proof.
    intros H D s d t id k v F. induction F as [t c a b L VF A B N|t c k v b L VF F IH B N|t id k v F IH N]; intros LE.
    - apply lost; auto using link_at_app, eddy_at_app. apply not_seen_app; [lia|exact N].
    - eapply lost_again; auto using link_at_app, eddy_at_app; [apply IH; lia|]. apply not_seen_app; [lia|exact N].
    - apply still_lost; [apply IH; lia|]. apply not_seen_app; [lia|exact N].
  Qed.
  Lemma waited_app : forall H D s d t v, waited H D t v -> t <= length H -> waited (H ++ [s]) (D ++ [d]) t v.
  Proof. intros H D s d t v (k & K1 & K2 & F) L. exists k. split; [exact K1|]. split; [exact K2|]. apply foreseen_app; assumption. Qed.
  Lemma step_from_app : forall H D s d t l real vs next, step_from H D t l real vs next -> t <= length H -> step_from (H ++ [s]) (D ++ [d]) t l real vs next.
  Proof.
    intros H D s d t l real vs next (A & B & W & AS & C) L. split; [rewrite nth_error_app1; [exact A|eapply nth_error_Some_lt; eauto]|]. split; [rewrite nth_error_app1; [exact B|eapply nth_error_Some_lt; eauto]|].
    split; [|split; assumption]. intros v I. apply waited_app; auto.
  Qed.

  (** *** store_correspondance and recense, read from their results *)
  Lemma build_inv : forall nb links ids vl c, In c (build nbv nb links ids vl) ->
    exists k i o q id kv, nth_error links k = Some (i, o, q) /\ nth_error ids k = Some id /\ nth_error vl k = Some kv /\ c = mkcorr i o id q (virtual nbv && (nb <=? i)) kv.
  Proof.
    induction links as [|[[i o] q] links IH]; intros [|id ids] [|kv vl] c I; try (destruct I; fail). destruct I as [<-|I].
    - exists 0, i, o, q, id, kv. repeat split.
    - destruct (IH ids vl c I) as (k & i' & o' & q' & id' & kv' & A & B & E & F). exists (S k), i', o', q', id', kv'. repeat split; assumption.
  Qed.
  Lemma build_map : forall nb links ids vl, length ids = length links -> length vl = length links ->
    map (fun c => (c_in c, c_out c, c_cost c)) (build nbv nb links ids vl) = links.
  Proof. induction links as [|[[i o] q] links IH]; intros [|id ids] [|kv vl] L1 L2; try discriminate; [reflexivity|]. cbn in *. f_equal. apply IH; lia. Qed.
  Lemma cells_inv : forall virt nb ins ids cells, virtual_cells (V := V) nbv virt nb ins ids = Some cells -> length cells = length ins /\
    forall k i, nth_error ins k = Some i -> virtual nbv && (nb <=? i) = true ->
      exists vs v, virt = Some vs /\ nth_error vs (i - nb) = Some v /\ nth_error cells k = Some (Some (v_track v), u1 (v_size v)).
  Proof.
    induction ins as [|i ins IH]; intros [|id ids] cells E; try discriminate.
    - apply Some_inj in E. subst cells. split; [reflexivity|]. intros [|k] i E; discriminate.
    - cbn [virtual_cells] in E. apply bind_Some in E as (x & X & E). apply bind_Some in E as (r & R & E). apply Some_inj in E. subst cells. destruct (IH ids r R) as [L N]. split; [cbn; lia|].
      intros [|k] j J VJ; [|apply (N k j J VJ)]. cbn in J. apply Some_inj in J. subst j. unfold virtual_cell in X. rewrite VJ in X. apply bind_Some in X as (vs & VS & X). apply bind_Some in X as (v & VV & X). apply Some_inj in X. subst x. exists vs, v. repeat split; assumption.
  Qed.
  Lemma store_inv : forall (st : @state Obs V) nb links corrs cur first, store_correspondance nbv st nb links = Some (corrs, cur, first) ->
    (if first then s_prev2 st = None else s_prev2 st <> None) /\ map (fun c => (c_in c, c_out c, c_cost c)) corrs = links /\
    forall c, In c corrs -> c_virtual c = virtual nbv && (nb <=? c_in c) /\
      (first = false -> c_virtual c = true -> exists vs v, s_virt st = Some vs /\ nth_error vs (c_in c - nb) = Some v /\ v_track v = c_id c /\ c_vlen c = u1 (v_size v)).
  Proof.
    intros st nb links corrs cur first E. unfold store_correspondance in E. destruct (s_prev2 st) as [p2|].
    - apply bind_Some in E as (prev & EP & E). apply bind_Some in E as (last & EL & E). apply bind_Some in E as (idp & EI & E). apply bind_Some in E as (ids & EG & E). apply bind_Some in E as (cells & EC & E).
      destruct (number_new (s_id st) (map fst cells)) as [ids' cur'] eqn:En. apply Some_inj in E. injection E as <- <- <-.
      destruct (number_new_spec _ _ _ _ En) as (N1 & _ & N3 & _). destruct (cells_inv _ _ _ _ _ EC) as [LC NC]. rewrite map_length in LC, N1.
      split; [discriminate|]. split; [apply build_map; rewrite ?map_length; congruence|]. intros c I. apply build_inv in I as (k & i & o & q & id & kv & A1 & A2 & A3 & ->). cbn [c_in c_out c_id c_virtual c_vlen]. split; [reflexivity|].
      intros _ VJ. destruct (NC k i ltac:(rewrite nth_error_map, A1; reflexivity) VJ) as (vs & v & B1 & B2 & B3). exists vs, v. split; [exact B1|]. split; [exact B2|].
      assert (X : nth_error ids' k = Some (v_track v)) by (apply N3; rewrite nth_error_map, B3; reflexivity). rewrite nth_error_map, B3 in A3. cbn in A3. split; congruence.
    - apply Some_inj in E. injection E as <- <- <-. split; [reflexivity|]. split; [apply build_map; [apply seq_length|apply repeat_length]|].
      intros c I. apply build_inv in I as (k & i & o & q & id & kv & A1 & A2 & A3 & ->). cbn [c_in c_virtual]. split; [reflexivity|discriminate].
  Qed.

  Lemma map3_inv : forall {A B C D} (f : A -> B -> C -> D) a b c x, In x (map3 f a b c) -> exists k u v w, nth_error a k = Some u /\ nth_error b k = Some v /\ nth_error c k = Some w /\ x = f u v w.
  Proof.
    induction a as [|u a IH]; intros [|v b] [|w c] x I; try (destruct I; fail). destruct I as [<-|I]; [exists 0, u, v, w; repeat split|].
    destruct (IH b c x I) as (k & u' & v' & w' & A1 & A2 & A3 & A4). exists (S k), u', v', w'. repeat split; assumption.
  Qed.
  Lemma recense_inv : forall (st st' : @state Obs V) last before h, s_links st = last :: before :: h -> recense extrapolate prolong nbv st = Some st' ->
    s_links st' = s_links st /\ s_cur st' = s_cur st /\ s_prev st' = s_prev st /\
    if virtual nbv then exists vs p2 p, s_virt st' = Some vs /\ s_prev2 st = Some p2 /\ s_prev st = Some p /\ forall v, In v vs ->
      (exists c a b, In c before /\ ~ In (c_id c) (map c_id last) /\ nth_error p2 (c_in c) = Some a /\ nth_error p (c_out c) = Some b /\ v = mkvobs (extrapolate a b) (c_id c) 1) \/
      (exists old v0, s_virt st = Some old /\ In v0 old /\ ~ In (v_track v0) (map c_id last) /\ (v_size v0 < Z.of_nat nbv)%Z /\ v = mkvobs (prolong (v_data v0)) (v_track v0) (i8 (v_size v0 + 1)))
    else st' = st.
  Proof.
    intros st st' last before h EL E. unfold recense in E. rewrite EL in E. destruct (virtual nbv); cbn [negb] in E.
    2:{ apply Some_inj in E. subst st'. repeat split. }
    apply bind_Some in E as (ext & EX & E).
    destruct (gather_index c_id before (setdiff1d (map c_id before) (map c_id last))) as (ix & rows & I1 & I2 & I3 & I4).
    { intros x Hx. now apply In_setdiff1d in Hx as [Hx _]. }
    rewrite I1 in E. cbn [bind] in E. rewrite I2 in E. cbn [bind] in E. apply bind_Some in E as (p2 & E2 & E). apply bind_Some in E as (p & E1 & E). apply bind_Some in E as (oa & EA & E). apply bind_Some in E as (ob & EB & E).
    apply Some_inj in E. subst st'. cbn [s_links s_cur s_prev s_virt]. split; [first [reflexivity|symmetry; exact EL]|]. split; [reflexivity|]. split; [reflexivity|].
    eexists. exists p2, p. split; [reflexivity|]. split; [exact E2|]. split; [exact E1|]. intros v I. apply in_app_iff in I as [I|I].
    - left. apply map3_inv in I as (k & a & b & t & K1 & K2 & K3 & ->). apply gather_Some in EA as [LA GA]. apply gather_Some in EB as [LB GB].
      rewrite <- I3, nth_error_map in K3. destruct (nth_error rows k) as [c|] eqn:R; [|discriminate]. cbn in K3. apply Some_inj in K3. subst t.
      exists c, a, b. assert (IR : In c rows) by (eapply nth_error_In; eauto). split; [apply I4; exact IR|]. split.
      + assert (X : In (c_id c) (map c_id rows)) by (apply in_map; exact IR). rewrite I3 in X. apply In_setdiff1d in X. tauto.
      + destruct (GA k (c_in c)) as (a' & A1 & A2); [rewrite nth_error_map, R; reflexivity|]. destruct (GB k (c_out c)) as (b' & B1 & B2); [rewrite nth_error_map, R; reflexivity|].
        rewrite K1 in A2. rewrite K2 in B2. split; [congruence|]. split; [congruence|reflexivity].
    - right. apply in_map_iff in I as (v0 & <- & I). destruct (s_virt st) as [old|]; [|apply Some_inj in EX; subst ext; destruct I].
      destruct (gather_index (@v_track V) old (setdiff1d (map (@v_track V) old) (map c_id last))) as (ix' & sel & J1 & J2 & J3 & J4).
      { intros x Hx. now apply In_setdiff1d in Hx as [Hx _]. }
      rewrite J1 in EX. cbn [bind] in EX. rewrite J2 in EX. cbn [bind] in EX. apply Some_inj in EX. subst ext. apply filter_In in I as [I F]. apply Z.ltb_lt in F.
      exists old, v0. split; [reflexivity|]. split; [apply J4; exact I|]. split; [|split; [exact F|reflexivity]].
      assert (X : In (v_track v0) (map (@v_track V) sel)) by (apply in_map; exact I). rewrite J3 in X. apply In_setdiff1d in X. tauto.
  Qed.

  (** *** Invariant of the run *)
  Context (HA : one_to_one associate) (SMALL : nbv <= 127).
  Notation step := (step as_obs extrapolate prolong associate nbv).
  Notation steps := (steps as_obs extrapolate prolong associate nbv).
  Notation track := (track as_obs extrapolate prolong associate nbv).
  Definition vinv (st : @state Obs V) (D : list (list Obs)) : Prop :=
    let H := rev (s_links st) in
    length D = S (length H) /\ s_cur st = nth_error D (length H) /\
    (forall vs v, s_virt st = Some vs -> In v vs -> waited H D (length H) v) /\
    (forall t s, nth_error H t = Some s -> exists real vs next, step_from H D t s real vs next) /\
    (forall s h, s_links st = s :: h -> exists real vs next, step_from H D (length h) s real vs next /\ s_prev st = Some (real ++ map (fun v => as_obs (v_data v)) vs)).

  Lemma vinv_start : forall d, vinv (start d) [d].
  Proof.
    intros d. split; [reflexivity|]. split; [reflexivity|]. split; [intros vs v E; discriminate E|]. split; [intros [|t] s E; discriminate E|]. intros s h E. discriminate E.
  Qed.
  Lemma u1_size : forall k, k <= nbv -> Z.of_nat (u1 (Z.of_nat k)) = Z.of_nat k.
  Proof. intros k L. unfold u1. rewrite Z.mod_small by lia. now rewrite Nat2Z.id. Qed.

  Lemma vinv_step : forall st D d st', inv nbv st -> vinv st D -> step st d = Some st' -> vinv st' (D ++ [d]).
  Proof.
    intros st D d st' INV (LD & CUR & VIRT & PAST & PREV) E.
    unfold Corr_model.step, swap in E. cbn [s_links s_id s_prev2 s_prev s_cur s_virt s_pvirt s_flg] in E.
    apply bind_Some in E as (real & ER & E). apply bind_Some in E as (prev & EP & E). apply bind_Some in E as (links & EA & E). apply bind_Some in E as ([[corrs cur] first] & ES & E).
    destruct (HA prev d) as (links' & EA' & _ & _ & BND). rewrite EA in EA'. apply Some_inj in EA'. subst links'.
    apply store_inv in ES as (FST & MAP & CS). cbn [s_prev2 s_virt] in FST, CS.
    set (H := rev (s_links st)) in *. set (n := length H) in *.
    assert (LH : length (s_links st) = n) by (unfold n, H; now rewrite rev_length).
    rewrite ER in CUR. symmetry in CUR.
    (* the candidates of this step *)
    assert (CAND : exists vs, prev = real ++ map (fun v => as_obs (v_data v)) vs /\ (forall v, In v vs -> waited H D n v) /\
              (vs <> [] -> s_virt st = Some vs) /\ (s_flg st = false -> vs = [])).
    { destruct (s_flg st).
      - apply bind_Some in EP as (vs & EV & EP). apply Some_inj in EP. exists vs. split; [symmetry; exact EP|]. split; [intros v I; apply (VIRT vs v EV I)|]. split; [intros _; exact EV|discriminate].
      - apply Some_inj in EP. exists []. split; [cbn; rewrite app_nil_r; symmetry; exact EP|]. split; [intros v []|]. split; [intros X; now contradiction X|reflexivity]. }
    destruct CAND as (vs & -> & WV & SV & FV).
    assert (PV : s_prev st = None -> s_virt st = None /\ s_flg st = false).
    { intros X. destruct INV as (_ & _ & REST). destruct (s_links st); [destruct REST as (_ & A & B & _); split; assumption|]. destruct REST as ((p & P & _) & _). rewrite X in P. discriminate P. }
    assert (NV : virtual nbv = false -> s_virt st = None /\ s_flg st = false).
    { intros X. destruct INV as (_ & _ & REST). destruct (s_links st) as [|a [|b h]]; [destruct REST as (_ & A & B & _); split; assumption|destruct REST as (_ & _ & REST); exact REST|]. rewrite X in REST. destruct REST as (_ & _ & REST). exact REST. }
    set (H' := H ++ [corrs]). set (D' := D ++ [d]).
    assert (NEW : step_from H' D' n corrs real vs d).
    { split; [unfold D'; rewrite nth_error_app1 by lia; exact CUR|]. split; [unfold D'; rewrite nth_error_app2 by lia; replace (S n - length D) with 0 by lia; reflexivity|].
      split; [intros v I; apply waited_app; [apply WV; exact I|unfold n; lia]|]. split; [rewrite MAP; exact EA|].
      intros c I. assert (IL : In (c_in c, c_out c, c_cost c) links) by (rewrite <- MAP; apply in_map_iff; exists c; split; [reflexivity|exact I]).
      destruct (BND _ _ _ IL) as [B1 B2]. split; [exact B2|]. destruct (CS c I) as [CV CN]. rewrite app_length, map_length in B1.
      destruct (c_virtual c) eqn:EV.
      - symmetry in CV. apply andb_true_iff in CV as [_ CV]. apply Nat.leb_le in CV. split; [exact CV|].
        assert (VN : vs <> []) by (intros ->; cbn in B1; lia). destruct first.
        + destruct (PV FST) as [X _]. rewrite (SV VN) in X. discriminate X.
        + destruct (CN eq_refl eq_refl) as (vs' & v & A1 & A2 & A3 & A4). rewrite (SV VN) in A1. apply Some_inj in A1. subst vs'. exists v. split; [exact A2|]. split; [exact A3|].
          destruct (WV v (nth_error_In _ _ A2)) as (k & K1 & K2 & _). rewrite A4, K2. symmetry. apply u1_size. lia.
      - symmetry in CV. destruct (virtual nbv); cbn [andb] in CV; [apply Nat.leb_gt in CV; exact CV|]. rewrite (FV (proj2 (NV eq_refl))) in B1. cbn in B1. lia. }
    assert (LH' : length H' = S n) by (unfold H'; rewrite app_length; cbn; fold n; lia).
    assert (PASTS : forall t s, nth_error H' t = Some s -> exists real vs next, step_from H' D' t s real vs next).
    { intros t s T. unfold H' in T. destruct (Nat.lt_ge_cases t n) as [L|L].
      - rewrite nth_error_app1 in T by (fold n; lia). destruct (PAST t s T) as (r & w & nx & P). exists r, w, nx. apply step_from_app; [exact P|fold n; lia].
      - assert (t = n). { apply nth_error_Some_lt in T. rewrite app_length in T. cbn in T. fold n in T. lia. } subst t. rewrite nth_error_app2 in T by (fold n; lia). fold n in T. rewrite Nat.sub_diag in T. apply Some_inj in T. subst s. exists real, vs, d. exact NEW. }
    assert (LD' : length D' = S (length H')) by (unfold D'; rewrite app_length; cbn; lia).
    assert (CUR' : Some d = nth_error D' (length H')) by (unfold D'; rewrite nth_error_app2 by lia; replace (length H' - length D) with 0 by lia; reflexivity).
    destruct first.
    - (* first step *)
      apply Some_inj in E. subst st'. unfold vinv. cbn [s_links s_cur s_virt s_prev rev]. fold H. fold H'. fold D'. split; [exact LD'|]. split; [exact CUR'|]. split; [intros w v X; rewrite (proj1 (PV FST)) in X; discriminate X|]. split; [exact PASTS|].
      intros s h X. injection X as <- <-. rewrite LH. exists real, vs, d. split; [exact NEW|reflexivity].
    - apply bind_Some in E as (st3 & RC & E). apply Some_inj in E. subst st'.
      destruct (s_links st) as [|last h] eqn:EL. { destruct INV as (_ & _ & REST). rewrite EL in REST. destruct REST as (X & _). rewrite X in FST. now contradiction FST. }
      destruct (PREV last h eq_refl) as (real0 & vs0 & next0 & (F1 & F2 & F3 & F4 & F5) & EPV). apply (recense_inv _ _ corrs last h) in RC; [|reflexivity]. cbn [s_links s_cur s_prev s_prev2 s_virt] in RC. destruct RC as (R1 & R2 & R3 & R4).
      unfold vinv. cbn [s_links s_cur s_virt s_prev]. rewrite R1, R2, R3. change (rev (corrs :: last :: h)) with (rev (last :: h) ++ [corrs]). fold H. fold H'. fold D'.
      split; [exact LD'|]. split; [exact CUR'|]. split; [|split; [exact PASTS|]].
      2:{ intros s h0 X. injection X as <- <-. rewrite LH. exists real, vs, d. split; [exact NEW|reflexivity]. }
      intros ws w EW IW. destruct (virtual nbv) eqn:EV.
      2:{ subst st3. cbn [s_virt] in EW. rewrite (proj1 (NV eq_refl)) in EW. discriminate EW. }
      destruct R4 as (vs' & p2 & p & A1 & A2 & A3 & A4). rewrite A1 in EW. apply Some_inj in EW. subst ws. rewrite EPV in A2. apply Some_inj in A2. apply Some_inj in A3. rewrite LH'.
      assert (NS : forall id, ~ In id (map c_id corrs) -> ~ seen H' n id).
      { intros id NI (c & (s & S1 & S2) & S3). unfold H' in S1. rewrite nth_error_app2 in S1 by (fold n; lia). fold n in S1. rewrite Nat.sub_diag in S1. apply Some_inj in S1. subst s. apply NI. rewrite <- S3. apply in_map. exact S2. }
      assert (N1 : 1 <= nbv) by (unfold virtual in EV; apply Nat.ltb_lt in EV; lia).
      destruct (A4 w IW) as [(c & a & b & I & ND & NA & NB & ->)|(old & v0 & EO & IO & ND & SZ & ->)].
      + change (S (length h) = n) in LH. assert (LK : link_at H' (length h) c).
        { exists last. split; [|exact I]. unfold H', H. cbn [rev]. rewrite nth_error_app1 by (rewrite app_length, rev_length; cbn; lia). rewrite nth_error_app2 by (rewrite rev_length; lia). rewrite rev_length, Nat.sub_diag. reflexivity. }
        destruct (F5 c I) as [BO BI]. replace (S (length h)) with n in F2 by lia. rewrite CUR in F2. apply Some_inj in F2. subst next0.
        assert (EB : eddy_at D' (S (length h)) (c_out c) b).
        { exists real. split; [unfold D'; rewrite nth_error_app1 by lia; replace (S (length h)) with n by lia; exact CUR|]. rewrite <- A3 in NB. rewrite nth_error_app1 in NB by exact BO. exact NB. }
        assert (LOST : ~ seen H' (S (length h)) (c_id c)) by (replace (S (length h)) with n by lia; apply NS; exact ND).
        exists 1. split; [lia|]. split; [reflexivity|]. cbn [v_track v_data]. replace (S n) with (S (S (length h))) by lia. rewrite <- A2 in NA.
        destruct (c_virtual c) eqn:CV.
        * destruct BI as (GE & v & VN & VT & VS). rewrite nth_error_app2 in NA by exact GE. rewrite nth_error_map, VN in NA. cbn in NA. apply Some_inj in NA. subst a.
          destruct (F3 v (nth_error_In _ _ VN)) as (k & _ & _ & FK). rewrite VT in FK. eapply lost_again; [exact LK|exact CV| |exact EB|exact LOST]. apply foreseen_app; [exact FK|fold n; lia].
        * apply lost; [exact LK|exact CV| |exact EB|exact LOST]. exists real0. split; [unfold D'; rewrite nth_error_app1 by (eapply nth_error_Some_lt; eauto); exact F1|]. rewrite nth_error_app1 in NA by exact BI. exact NA.
      + destruct (VIRT old v0 EO IO) as (k & K1 & K2 & FK). exists (S k). cbn [v_size v_track v_data]. rewrite K2 in SZ. split; [lia|]. split; [rewrite K2; unfold i8; rewrite Z.mod_small; lia|].
        apply still_lost; [apply foreseen_app; [exact FK|fold n; lia]|apply NS; exact ND].
  Qed.
  Lemma vinv_steps : forall ds st D st', inv nbv st -> vinv st D -> steps st ds = Some st' -> vinv st' (D ++ ds).
  Proof.
    induction ds as [|d ds IH]; intros st D st' I VI E.
    - apply Some_inj in E. subst st'. rewrite app_nil_r. exact VI.
    - cbn [Corr_model.steps] in E. apply bind_Some in E as (st1 & E1 & E). pose proof (vinv_step st D d st1 I VI E1) as VI1.
      assert (EC : exists real, s_cur st = Some real). { destruct VI as (L & C & _). destruct (nth_error D (length (rev (s_links st)))) as [r|] eqn:X; [exists r; exact C|]. apply nth_error_None in X. lia. }
      destruct EC as (real & EC). destruct (inv_step as_obs extrapolate prolong associate nbv HA st real d I EC) as (st2 & s & S1 & I1 & _). rewrite E1 in S1. apply Some_inj in S1. subst st2.
      replace (D ++ d :: ds) with ((D ++ [d]) ++ ds) by (rewrite <- app_assoc; reflexivity). apply (IH st1); assumption.
  Qed.
  Lemma vinv_track : forall d ds, exists st, track (d :: ds) = Some st /\ vinv st (d :: ds).
  Proof.
    intros d ds. destruct (track_inv as_obs extrapolate prolong associate nbv HA d ds) as (st & E & _). exists st. split; [exact E|]. apply (vinv_steps ds (start d) [d]); [apply inv_start|apply vinv_start|exact E].
  Qed.
End Foreseen.

(** ** Theorems *)
Section Final.
Context {K C : Type} (zero_k : K) (zero_c : C) (area : bool).
Notation eddy := (@eddy K C).
Notation veddy := (@virtual_eddy K C).
(** [x] is at [b] moved [k] times of the way from [a] to [b]. *)
Definition straight (a b : eddy) (k : nat) (x : eddy) : Prop :=
  (lon x == lon b + inject_Z (Z.of_nat k) * (lon b - lon a))%Q /\
  (lat x == lat b + inject_Z (Z.of_nat k) * (lat b - lat a))%Q.
Lemma straight_foreseen : forall H (D : list (list eddy)) t id k v, foreseen as_eddy (extrapolate zero_c area) (prolong zero_c area) H D t id k v ->
  exists l c a b, link_at H l c /\ c_id c = id /\ t = l + 1 + k /\ (forall t', l < t' < t -> ~ seen H t' id) /\
    (if c_virtual c then exists k' w, foreseen as_eddy (extrapolate zero_c area) (prolong zero_c area) H D l id k' w /\ a = row w else eddy_at D l (c_in c) a) /\
    eddy_at D (S l) (c_out c) b /\ straight a b k (row v) /\ other (row v) = other b /\ time (row v) = 0%Q /\ contour (row v) = (if area then contour b else zero_c) /\
    dlon v = (lon b - lon a)%Q /\ dlat v = (lat b - lat a)%Q.
Proof.
  intros H D t id k v F. induction F as [t c a b L VF A B N|t c k v b L VF F _ B N|t id k v F IH N].
  - exists t, c, a, b. split; [exact L|]. split; [reflexivity|]. split; [lia|]. split; [intros t' T; replace t' with (S t) by lia; exact N|]. rewrite VF. split; [exact A|]. split; [exact B|].
    split; [split; cbn; change (inject_Z 1) with 1%Q; ring|]. repeat split.
  - exists t, c, (as_eddy v), b. split; [exact L|]. split; [reflexivity|]. split; [lia|]. split; [intros t' T; replace t' with (S t) by lia; exact N|]. rewrite VF. split; [exists k, v; split; [exact F|reflexivity]|]. split; [exact B|].
    split; [split; cbn; change (inject_Z 1) with 1%Q; ring|]. repeat split.
  - destruct IH as (l & c & a & b & L & E & T & NS & SA & B & (S1 & S2) & O & TM & CT & DX & DY). exists l, c, a, b. split; [exact L|]. split; [exact E|]. split; [lia|].
    split; [intros t' T'; destruct (Nat.eq_dec t' t) as [->|]; [exact N|apply NS; lia]|]. split; [exact SA|]. split; [exact B|].
    split; [|cbn; rewrite CT; repeat split; try assumption; destruct area; reflexivity]. unfold straight. replace (Z.of_nat (S k)) with (Z.of_nat k + 1)%Z by lia.
    split; cbn [prolong row lon lat]; rewrite ?DX, ?DY, inject_Z_plus; [rewrite S1|rewrite S2]; change (inject_Z 1) with 1%Q; ring.
Qed.
End Final.

(** The columns written by [propagate] are those of the rows used by the model of
    the run ([recense] of [Corr_model]): first the tracks just lost, extrapolated from
    their last two eddies, then the ones already lost, prolonged. *)
Theorem C117_columns : forall {K C} (zero_k : K) (zero_c : C) a b ext dead, length b = length a -> length dead = length a ->
  let rows := fun area => map3 (fun x y t => mkvobs (extrapolate zero_c area x y) t (i8 (0 + 1))) a b dead ++
                         map (fun v => mkvobs (prolong zero_c area (v_data v)) (v_track v) (i8 (v_size v + 1))) ext in
  propagate zero_k zero_c a b ext dead (length a + length ext) = Some (columns_of (rows false)) /\
  propagate_area zero_k zero_c a b ext dead (length a + length ext) = Some (columns_of (rows true)).
Proof. intros K C zk zc a b ext dead LB LD. split; [apply (propagate_spec zk zc a b ext dead LB LD)|apply (propagate_area_spec zk zc a b ext dead LB LD)]. Qed.
Print Assumptions C117_columns.
(** Each step associates the eddies of its date then the ones waited for, each as
    foreseen from the links before, and each link carries on the right track. *)
Theorem C117_run : forall {Obs V} as_obs extrapolate prolong associate nbv, one_to_one associate -> nbv <= 127 ->
  forall d ds, exists st : @state Obs V, track as_obs extrapolate prolong associate nbv (d :: ds) = Some st /\
    let H := rev (s_links st) in
    (forall t s, nth_error H t = Some s -> exists real vs next, step_from as_obs extrapolate prolong associate nbv H (d :: ds) t s real vs next) /\
    (forall vs v, s_virt st = Some vs -> In v vs -> waited as_obs extrapolate prolong nbv H (d :: ds) (length ds) v).
Proof.
  intros Obs V as_obs ex pr associate nbv HA L d ds. destruct (vinv_track as_obs ex pr associate nbv HA L d ds) as (st & E & (LD & CUR & VIRT & PAST & PREV)). exists st. split; [exact E|]. split; [exact PAST|].
  intros vs v EV I. cbn in LD. injection LD as LD. rewrite LD. apply (VIRT vs v EV I).
Qed.
Print Assumptions C117_run.
(** An eddy lost for [k] dates is supposed to go on in a straight line at the
    speed of its last link; its other values stay the last ones, its date is null, and its
    contours are null, or the last ones where they were when the areas are compared. *)
Theorem C117_straight : forall {K C} (zero_c : C) area H (D : list (list (@eddy K C))) t id k v,
  foreseen as_eddy (extrapolate zero_c area) (prolong zero_c area) H D t id k v ->
  exists l c a b, link_at H l c /\ c_id c = id /\ t = l + 1 + k /\ (forall t', l < t' < t -> ~ seen H t' id) /\
    (if c_virtual c then exists k' w, foreseen as_eddy (extrapolate zero_c area) (prolong zero_c area) H D l id k' w /\ a = row w else eddy_at D l (c_in c) a) /\
    eddy_at D (S l) (c_out c) b /\ straight a b k (row v) /\ other (row v) = other b /\ time (row v) = 0%Q /\ contour (row v) = (if area then contour b else zero_c).
Proof.
  intros K C zc area H D t id k v F. destruct (straight_foreseen zc area H D t id k v F) as (l & c & a & b & A1 & A2 & A3 & A4 & A5 & A6 & A7 & A8 & A9 & A10 & _). exists l, c, a, b. repeat (split; [assumption|]). assumption.
Qed.
Print Assumptions C117_straight.
(** The number of turns of the longitudes does not matter. *)
Theorem C117_turn : forall {K C} (a b a' b' x x' : @eddy K C) k, straight a b k x -> straight a' b' k x' ->
  Qcong 360 (lon a) (lon a') -> Qcong 360 (lon b) (lon b') -> Qcong 360 (lon x) (lon x').
Proof.
  intros K C a b a' b' x x' k (E & _) (E' & _) (m & M) (n & N). exists (n + Z.of_nat k * (n - m))%Z. rewrite E, E'.
  rewrite inject_Z_plus, inject_Z_mult. unfold Z.sub. rewrite inject_Z_plus, inject_Z_opp.
  assert (A : (lon a == lon a' + 360 * inject_Z m)%Q) by lra. assert (B : (lon b == lon b' + 360 * inject_Z n)%Q) by lra. rewrite A, B. ring.
Qed.
Print Assumptions C117_turn.

(** Two eddies, the first one lost at date 2 then found at date 3 half a degree
    further than foreseen; at the end the second one is lost. *)
Definition ex_near (a b : @eddy nat nat) : option Q :=
  let d := (Qabs.Qabs (lon a - lon b) + Qabs.Qabs (lat a - lat b))%Q in if Qle_bool d 1 then Some d else None.
Definition ex_eddy (x y : Q) (n : nat) : @eddy nat nat := Eddy x y 100%Q n (10 + n).
Definition ex_dates : list (list (@eddy nat nat)) :=
  [[ex_eddy 0 0 1; ex_eddy 9 50 2]; [ex_eddy 1 0 3; ex_eddy 9 51 4]; [ex_eddy 9 52 5]; [ex_eddy 9 53 6; ex_eddy (5#2) 0 7]; [ex_eddy (7#2) 0 8]; []]%Q.
Example C117_example :
  let run := track as_eddy (extrapolate 0 true) (prolong 0 true) (solver_associate ex_near) 2 ex_dates in
  option_map (fun st => map (map (fun c => (c_in c, c_out c, c_id c, c_virtual c, c_vlen c))) (rev (s_links st))) run =
    Some [[(0, 0, 0, false, 255); (1, 1, 1, false, 255)]; [(1, 0, 1, false, 255)]; [(0, 0, 1, false, 255); (1, 1, 0, true, 1)]; [(1, 0, 0, false, 255)]; []] /\
  option_map (fun st => option_map (map (fun v => (Qred (lon (row (v_data v))), Qred (lat (row (v_data v))), other (row (v_data v)), contour (row (v_data v)), v_track v, v_size v))) (s_virt st)) run =
    Some (Some [((9#2)%Q, 0%Q, 8, 18, 0, 1%Z); (9%Q, 55%Q, 6, 16, 1, 2%Z)]).
Proof. vm_compute. split; reflexivity. Qed.
