(** Match of two datasets, tracks which stay close to another atlas. *)
From Coq Require Import List Arith ZArith Bool QArith Qround Qabs Lia Lqa Permutation.
From Verif Require Import Base Qaux Spec Generic_model Corr_model Corr_proofs Obs_spec Obs_model Obs_words Obs_proofs Obs_align Obs_pairs Solver_proofs Net_links Poly_model Poly_spec Poly_pairs Poly_props TrackObs_spec TrackObs_model TrackObs_props NetGroup_more NetTab_cache Match_model Obs_props TrackObs_proofs.
Import ListNotations.
Local Close Scope Q_scope.
Local Open Scope nat_scope.

(** ** C109 *)
(** Rows of a dataset of [n] rows which a subset holds, in its order. *)
Definition positions (s : subset) (n : nat) : list nat :=
  match s with Whole => seq 0 n | Rows r => rows_list r | Mask m => where_ m end.
Definition valid_subset (s : subset) (n : nat) : Prop :=
  match s with Whole => True | Rows r => forall k, In k (rows_list r) -> k < n | Mask m => length m = n end.
(** Contours are not empty, and any two of them are less than a half turn wide together. *)
Definition contours_fit (w : way) (intern : bool) (self other : list eddy) : Prop :=
  match w with
  | Overlap _ _ _ => (forall e, In e self \/ In e other -> contour intern e <> []) /\
      forall e0 e1 p q r t, In e0 self -> In e1 other -> In p (contour intern e0) -> In q (contour intern e0) -> In r (contour intern e1) -> In t (contour intern e1) -> ((fst p - fst q) + (fst r - fst t) < 180)%Q
  | CloseCenter _ => True
  | OtherMethod => False
  end.
(** The two observations match with score [v]. *)
Definition close_pair (areas : list point -> list point -> Q * Q * Q) (w : way) (intern : bool) (cmin : Q) (e0 e1 : eddy) (v : Q) : Prop :=
  (cmin <= v)%Q /\
  match w with
  | Overlap mode hybrid t => exists b0 b1 l i a0 a1, bbox (contour intern e0) = Some b0 /\ bbox (contour intern e1) = Some b1 /\ boxes_meet b0 b1 /\
      get_wrap_vertice (contour intern e0) (contour intern e1) = Some l /\ areas (contour intern e0) l = (i, a0, a1) /\ v = overlap_score mode hybrid t i a0 a1
  | CloseCenter delta => v = 1%Q /\ (exists k, Qabs (fst (centre e1) - fst (centre e0) + 360 * inject_Z k) <= delta)%Q /\ (Qabs (snd (centre e1) - snd (centre e0)) <= delta)%Q
  | OtherMethod => False
  end.

Lemma nth_where : forall m l k, length m = length l -> nth_error (select m l) k = match nth_error (where_ m) k with Some r => nth_error (l : list eddy) r | None => None end.
Proof.
  assert (G : forall m (l l' : list eddy) k c, length m = length l -> (forall j, nth_error l' (c + j) = nth_error l j) -> nth_error (select m l) k = match nth_error (where_from c m) k with Some r => nth_error l' r | None => None end).
  { induction m as [|b m IH]; intros [|x l] l' k c L H; try discriminate L; [destruct k; reflexivity|]. cbn [select where_from]. cbn in L.
    assert (H' : forall j, nth_error l' (S c + j) = nth_error l j) by (intros j; specialize (H (S j)); cbn in H; rewrite <- H; f_equal; lia).
    destruct b; [|apply IH; [lia|exact H']]. destruct k as [|k]; [cbn; specialize (H 0); rewrite Nat.add_0_r in H; symmetry; exact H|]. cbn. apply IH; [lia|exact H']. }
  intros m l k L. apply (G m l l k 0 L). reflexivity.
Qed.
Lemma take_spec : forall l s, valid_subset s (length l) -> exists l', take l s = Some l' /\ length l' = length (positions s (length l)) /\
  forall k, nth_error l' k = match nth_error (positions s (length l)) k with Some r => nth_error (l : list eddy) r | None => None end.
Proof.
  intros l [|[a b|ix]|m] V; cbn [take positions rows_list valid_subset] in *.
  - exists l. split; [reflexivity|]. split; [rewrite seq_length; reflexivity|]. intros k. rewrite nth_error_seq. destruct (Nat.ltb_spec k (length l)); [reflexivity|]. apply nth_error_None. lia.
  - exists (slice l a b). assert (N : forall k, nth_error (slice l a b) k = match nth_error (seq a (b - a)) k with Some r => nth_error l r | None => None end).
    { intros k. rewrite NetTab_cache.nth_slice_, nth_error_seq. destruct (k <? b - a); reflexivity. }
    split; [reflexivity|]. split; [|exact N]. rewrite seq_length. destruct (Nat.le_gt_cases b a) as [L|L]; [unfold slice; replace (b - a) with 0 by lia; reflexivity|].
    apply NetTab_cache.slice_len. pose proof (V (b - 1) ltac:(apply in_seq; lia)). lia.
  - destruct (gather_total l ix V) as [l' E]. exists l'. split; [exact E|]. apply gather_Some in E as [E1 E2]. split; [exact E1|]. intros k. destruct (nth_error ix k) as [r|] eqn:R; [destruct (E2 _ _ R) as (x & X & Y); congruence|]. apply nth_error_None. apply nth_error_None in R. lia.
  - rewrite V, Nat.eqb_refl. exists (select m l). split; [reflexivity|]. split; [|intros k; apply nth_where; exact V].
    unfold where_. rewrite length_where_from. apply length_select. exact V.
Qed.

Lemma seq_map_all : forall {X Y} (f : X -> option Y) l, (forall x, In x l -> exists y, f x = Some y) -> exists r, sequence (map f l) = Some r.
Proof.
  induction l as [|x l IH]; intros H; cbn [map sequence]; [eauto|]. destruct (H x (or_introl eq_refl)) as [y ->]. cbn [bind]. destruct IH as [r ->]; [intros; apply H; right; assumption|]. cbn [bind]. eauto.
Qed.
Lemma seq_map_in : forall {X Y} (f : X -> option Y) l r, sequence (map f l) = Some r -> forall y, In y r <-> exists x, In x l /\ f x = Some y.
Proof.
  induction l as [|x l IH]; intros r H y; cbn [map sequence] in H.
  - apply Some_inj in H. subst r. split; [intros []|intros (x & [] & _)].
  - destruct (f x) as [z|] eqn:F; cbn [bind] in H; [|discriminate H]. destruct (sequence (map f l)) as [r'|] eqn:E; cbn [bind] in H; [|discriminate H]. apply Some_inj in H. subst r.
    cbn [In]. rewrite (IH r' eq_refl). split.
    + intros [<-|(x' & I & G)]; [exists x; auto|exists x'; auto].
    + intros (x' & [<-|I] & G); [left; congruence|right; exists x'; auto].
Qed.
Lemma lex_filter : forall {V} (f : nat * nat * V -> bool) l, lex_sorted (map fst l) -> lex_sorted (map fst (filter f l)).
Proof.
  induction l as [|x l IH]; intros H; [constructor|]. cbn [map] in H. inversion H as [|? ? H1 H2]; subst. cbn [filter]. destruct (f x); [|exact (IH H2)]. cbn [map]. constructor; [|exact (IH H2)].
  intros b B. apply H1. apply in_map_iff in B as (y & <- & B). apply filter_In in B as [B _]. apply in_map. exact B.
Qed.
Lemma seq_map_fst : forall {X V} (f : X -> option (X * V)) l r, (forall x y, f x = Some y -> fst y = x) -> sequence (map f l) = Some r -> map fst r = l.
Proof.
  induction l as [|x l IH]; intros r H E; cbn [map sequence] in E; [apply Some_inj in E; subst; reflexivity|].
  destruct (f x) as [z|] eqn:F; cbn [bind] in E; [|discriminate E]. destruct (sequence (map f l)) as [r'|] eqn:E'; cbn [bind] in E; [|discriminate E]. apply Some_inj in E. subst r. cbn [map]. rewrite (H _ _ F), (IH r' H eq_refl). reflexivity.
Qed.

Section Props.
Variable areas : list point -> list point -> Q * Q * Q.
Notation match_ := (match_ areas).
Notation close_pair := (close_pair areas).

(** C109: the pairs given are those of the subsets which match, each once, ordered
    by first then by second position. *)
Theorem C109_match : forall w intern cmin self other i_self i_other, contours_fit w intern self other ->
  valid_subset i_self (length self) -> valid_subset i_other (length other) ->
  exists out, match_ w intern cmin self other i_self i_other = Some out /\ lex_sorted (map fst out) /\
  forall i j v, In (i, j, v) out <-> exists a b e0 e1, nth_error (positions i_self (length self)) i = Some a /\ nth_error (positions i_other (length other)) j = Some b /\
    nth_error self a = Some e0 /\ nth_error other b = Some e1 /\ close_pair w intern cmin e0 e1 v.
Proof.
  intros w intern cmin self other si so FIT V0 V1. destruct (take_spec self si V0) as (s & E0 & _ & N0). destruct (take_spec other so V1) as (o & E1 & _ & N1).
  assert (ROW : forall (P : eddy -> eddy -> Prop) i j, (exists e0 e1, nth_error s i = Some e0 /\ nth_error o j = Some e1 /\ P e0 e1) <->
    exists a b e0 e1, nth_error (positions si (length self)) i = Some a /\ nth_error (positions so (length other)) j = Some b /\ nth_error self a = Some e0 /\ nth_error other b = Some e1 /\ P e0 e1).
  { intros P i j. split.
    - intros (e0 & e1 & H0 & H1 & H). rewrite N0 in H0. rewrite N1 in H1. destruct (nth_error (positions si _) i) as [a|]; [|discriminate H0]. destruct (nth_error (positions so _) j) as [b|]; [|discriminate H1]. exists a, b, e0, e1. auto.
    - intros (a & b & e0 & e1 & A & B & H0 & H1 & H). exists e0, e1. rewrite N0, N1, A, B. auto. }
  assert (IN0 : forall e, In e s -> In e self). { intros e H. apply In_nth_error in H as [k K]. rewrite N0 in K. destruct (nth_error (positions si _) k); [|discriminate K]. eapply nth_error_In; eauto. }
  assert (IN1 : forall e, In e o -> In e other). { intros e H. apply In_nth_error in H as [k K]. rewrite N1 in K. destruct (nth_error (positions so _) k); [|discriminate K]. eapply nth_error_In; eauto. }
  unfold Match_model.match_. rewrite E0. cbn [bind]. rewrite E1. cbn [bind].
  assert (G : forall scored, lex_sorted (map fst scored) -> (forall i j v, In (i, j, v) scored <-> exists e0 e1, nth_error s i = Some e0 /\ nth_error o j = Some e1 /\ forall c, (c <= v)%Q -> close_pair w intern c e0 e1 v) ->
    exists out, Some (filter (fun x => Qle_bool cmin (snd x)) scored) = Some out /\ lex_sorted (map fst out) /\ forall i j v, In (i, j, v) out <-> exists a b e0 e1, nth_error (positions si (length self)) i = Some a /\ nth_error (positions so (length other)) j = Some b /\
    nth_error self a = Some e0 /\ nth_error other b = Some e1 /\ close_pair w intern cmin e0 e1 v).
  { intros scored L H. eexists. split; [reflexivity|]. split; [apply lex_filter; exact L|]. intros i j v. rewrite filter_In, H. cbn [snd]. rewrite Qle_bool_iff. rewrite <- (ROW (fun e0 e1 => close_pair w intern cmin e0 e1 v)). split.
    - intros [(e0 & e1 & A & B & C) D]. exists e0, e1. auto.
    - intros (e0 & e1 & A & B & C). split; [|exact (proj1 C)]. exists e0, e1. split; [exact A|]. split; [exact B|]. intros c D. split; [exact D|exact (proj2 C)]. }
  destruct w as [mode hybrid t|delta|]; [| |destruct FIT].
  - destruct FIT as [NE W]. destruct (C56_pairs (map (contour intern) s) (map (contour intern) o)) as (pairs & B & LS & IFF).
    { intros c [H|H]; apply in_map_iff in H as (e & <- & H); apply NE; auto. }
    { intros c0 c1 p q r t0 H0 H1. apply in_map_iff in H0 as (e0 & <- & H0). apply in_map_iff in H1 as (e1 & <- & H1). intros. apply (W e0 e1); auto. }
    rewrite B. cbn [bind]. set (f := fun p : nat * nat => _).
    assert (F : forall i j, f (i, j) = match nth_error s i, nth_error o j with Some e0, Some e1 => option_map (fun c => ((i, j), c)) (pair_score areas mode hybrid t (contour intern e0) (contour intern e1)) | _, _ => None end).
    { intros i j. unfold f. cbn [fst snd]. rewrite !nth_error_map. destruct (nth_error s i); cbn [option_map bind]; [|reflexivity]. destruct (nth_error o j); cbn [option_map bind]; [|reflexivity]. destruct (pair_score _ _ _ _ _ _); reflexivity. }
    assert (PS : forall c0 c1, c0 <> [] -> c1 <> [] -> exists l i a0 a1, get_wrap_vertice c0 c1 = Some l /\ areas c0 l = (i, a0, a1) /\ pair_score areas mode hybrid t c0 c1 = Some (overlap_score mode hybrid t i a0 a1)).
    { intros [|[x0 y0] c0] [|[x1 y1] c1] H0 H1; try congruence. unfold pair_score, get_wrap_vertice. destruct (Qlt_bool 180 (Qabs (x0 - x1))); cbn [bind];
        match goal with |- context [areas ?a ?b] => destruct (areas a b) as [[i a0] a1] eqn:E end; eexists; exists i, a0, a1; (split; [reflexivity|]); (split; [exact E|reflexivity]). }
    destruct (seq_map_all f pairs) as [scored SC].
    { intros [i j] H. apply IFF in H as (c0 & c1 & b0 & b1 & H0 & H1 & _). rewrite nth_error_map in H0, H1. rewrite F. destruct (nth_error s i) as [e0|] eqn:I; [|discriminate H0]. destruct (nth_error o j) as [e1|] eqn:J; [|discriminate H1].
      destruct (PS (contour intern e0) (contour intern e1)) as (l & x & a0 & a1 & _ & _ & ->); [apply NE; left; apply IN0; eapply nth_error_In; eauto|apply NE; right; apply IN1; eapply nth_error_In; eauto|]. cbn. eauto. }
    rewrite SC. cbn [bind]. apply G.
    + rewrite (seq_map_fst f pairs scored); [exact LS| |exact SC]. intros [i j] y Y. rewrite F in Y. destruct (nth_error s i); [|discriminate Y]. destruct (nth_error o j); [|discriminate Y]. destruct (pair_score _ _ _ _ _ _); [|discriminate Y]. cbn in Y. apply Some_inj in Y. subst y. reflexivity.
    + intros i j v. rewrite (seq_map_in _ _ _ SC). split.
      * intros ([i' j'] & H & Y). rewrite F in Y. destruct (nth_error s i') as [e0|] eqn:I; [|discriminate Y]. destruct (nth_error o j') as [e1|] eqn:J; [|discriminate Y].
        destruct (PS (contour intern e0) (contour intern e1)) as (l & x & a0 & a1 & L & A & P); [apply NE; left; apply IN0; eapply nth_error_In; eauto|apply NE; right; apply IN1; eapply nth_error_In; eauto|].
        rewrite P in Y. cbn in Y. apply Some_inj in Y. injection Y as -> -> <-. exists e0, e1. split; [exact I|]. split; [exact J|]. intros c C. split; [exact C|].
        apply IFF in H as (c0 & c1 & b0 & b1 & H0 & H1 & B0 & B1 & M). rewrite nth_error_map, I in H0. rewrite nth_error_map, J in H1. apply Some_inj in H0, H1. subst c0 c1. exists b0, b1, l, x, a0, a1. auto 10.
      * intros (e0 & e1 & I & J & H). destruct (H v ltac:(lra)) as [_ (b0 & b1 & l & x & a0 & a1 & B0 & B1 & M & L & A & V)]. exists (i, j). split.
        { apply IFF. exists (contour intern e0), (contour intern e1), b0, b1. rewrite !nth_error_map, I, J. auto. }
        rewrite F, I, J. unfold pair_score. rewrite L. cbn [bind]. rewrite A. cbn. rewrite V. reflexivity.
  - cbn [bind]. destruct (C82_close (map centre s) (map centre o) delta) as [LS IFF]. apply G.
    + rewrite map_map. cbn [fst]. rewrite map_id. exact LS.
    + intros i j v. rewrite in_map_iff. split.
      * intros (p & E & H). injection E as -> <-. apply IFF in H as (a & b & A & B & C & D). rewrite nth_error_map in A, B. destruct (nth_error s i) as [e0|]; [|discriminate A]. destruct (nth_error o j) as [e1|]; [|discriminate B]. apply Some_inj in A, B. subst a b. exists e0, e1. split; [reflexivity|]. split; [reflexivity|]. intros c L. split; [exact L|]. auto.
      * intros (e0 & e1 & I & J & H). destruct (H v ltac:(lra)) as [_ (-> & C & D)]. exists (i, j). split; [reflexivity|]. apply IFF. exists (centre e0), (centre e1). rewrite !nth_error_map, I, J. auto.
Qed.
(** C109: the positions are translated in rows of the dataset. *)
Theorem C109_rows : forall ref index, (forall k, In k index -> k < length (rows_list ref)) -> exists l, re_reference_index index ref = Some l /\ length l = length index /\
  forall p k, nth_error index p = Some k -> nth_error l p = nth_error (rows_list ref) k.
Proof.
  intros [a b|ix] index H; cbn [re_reference_index rows_list] in *.
  - eexists. split; [reflexivity|]. split; [apply map_length|]. intros p k P. rewrite nth_error_map, P. cbn [option_map]. specialize (H k (nth_error_In _ _ P)). rewrite seq_length in H. rewrite nth_error_seq. replace (k <? b - a) with true by (symmetry; apply Nat.ltb_lt; exact H). f_equal. lia.
  - destruct (gather_total ix index H) as [l E]. exists l. split; [exact E|]. apply gather_Some in E as [E1 E2]. split; [exact E1|]. intros p k P. destruct (E2 p k P) as (x & X & Y). congruence.
Qed.
(** C109: an unknown method is an error. *)
Theorem C109_method : forall intern cmin self other i_self i_other, match_ OtherMethod intern cmin self other i_self i_other = None.
Proof. intros. unfold Match_model.match_. destruct (take self i_self); cbn [bind]; [|reflexivity]. destruct (take other i_other); reflexivity. Qed.

(** ** C110 *)
Lemma nodup_flat_map : forall {X Y} (f : X -> list Y) l, NoDup l -> (forall x, In x l -> NoDup (f x)) -> (forall x y p, In x l -> In y l -> In p (f x) -> In p (f y) -> x = y) -> NoDup (flat_map f l).
Proof.
  intros X Y f. induction l as [|x l IH]; intros N F D; [constructor|]. cbn [flat_map]. inversion N as [|? ? N1 N2]; subst. apply NoDup_app_intro.
  - apply F. left. reflexivity.
  - apply IH; [exact N2|intros; apply F; right; assumption|]. intros a b p A B. apply D; right; assumption.
  - intros p P Q. apply in_flat_map in Q as (y & Y0 & Q). apply N1. rewrite (D x y p); auto; [left; reflexivity|right; exact Y0].
Qed.
Lemma increasing_nodup : forall {X} (f : X -> Q) l, increasing (map f l) -> NoDup l /\ forall x y, In x l -> In y l -> (f x == f y)%Q -> x = y.
Proof.
  intros X f l I. assert (K : forall u v x y, nth_error l u = Some x -> nth_error l v = Some y -> (f x == f y)%Q -> u = v).
  { intros u v x y U V E. pose proof (map_nth_error f _ _ U) as U'. pose proof (map_nth_error f _ _ V) as V'. destruct (lt_eq_lt_dec u v) as [[L|L]|L]; [|exact L|].
    - pose proof (I u v _ _ L U' V'). lra.
    - pose proof (I v u _ _ L V' U'). lra. }
  split.
  - apply NoDup_nth_error. intros u v L E. destruct (nth_error_lt_Some l u L) as [x U]. rewrite U in E. apply (K u v x x U (eq_sym E)). lra.
  - intros x y X0 Y0 E. apply In_nth_error in X0 as [u U]. apply In_nth_error in Y0 as [v V]. pose proof (K u v x y U V E). subst v. congruence.
Qed.
Lemma nodup_group : forall (gs : list group) g, NoDup (concat (map (fun g => fst (fst g)) (map view gs))) -> In g gs -> NoDup (rows_list (fst (fst g))).
Proof.
  induction gs as [|h gs IH]; intros g N G; [destruct G|]. cbn [map concat] in N. destruct G as [<-|G].
  - apply NetGroup_more.NoDup_app_l in N. exact N.
  - apply NetGroup_more.NoDup_app_r in N. exact (IH g N G).
Qed.
Lemma aligned_groups : forall argsort x y bins, sorts argsort -> increasing bins -> 2 <= length bins -> iterable bins x -> iterable bins y ->
  exists ps, align_on false (iter_on argsort false x (Some bins)) (iter_on argsort false y (Some bins)) = (ps, true) /\
    increasing (map (fun p : aligned => snd (fst p)) ps) /\
    (forall rx ry lo hi, In (rx, ry, lo, hi) ps -> NoDup (rows_list rx) /\ NoDup (rows_list ry) /\
       (exists j, nth_error bins j = Some lo /\ nth_error bins (S j) = Some hi) /\
       (forall k, In k (rows_list rx) <-> exists v, nth_error x k = Some v /\ within lo hi v) /\
       (forall k, In k (rows_list ry) <-> exists v, nth_error y k = Some v /\ within lo hi v)) /\
    (forall j lo hi, nth_error bins j = Some lo -> nth_error bins (S j) = Some hi -> (exists v, In v x /\ within lo hi v) -> (exists v, In v y /\ within lo hi v) -> exists rx ry, In (rx, ry, lo, hi) ps).
Proof.
  intros argsort x y bins AS I L IX IY. destruct (align_pairs argsort false x y bins AS I L IX IY ltac:(discriminate)) as (ps & E & IL & G & C). exists ps. split; [exact E|]. split; [exact IL|]. split.
  - intros rx ry lo hi H. destruct (G _ _ _ _ H) as (G1 & G2 & G3).
    destruct (iterable_groups argsort bins x AS I L IX) as (gs & EG & (NG & _ & _ & LG) & _). destruct (iterable_groups argsort bins y AS I L IY) as (hs & EH & (NH & _ & _ & LH) & NEH & _). rewrite lows_view in LG, LH.
    rewrite EG, EH, (align_on_spec false gs true hs true) in E; auto; [|discriminate]. apply (f_equal fst) in E. cbn [fst] in E. rewrite <- E in H. apply in_flat_map in H as ([[r b0] b1] & Hg & H). cbn [pairs_of] in H.
    destruct (find (same_low b0) hs) as [o|] eqn:F; [|destruct H]. destruct H as [H|[]]. injection H as <- <- <- <-. apply find_some in F as [Ho _].
    split; [exact (nodup_group gs _ NG Hg)|]. split; [exact (nodup_group hs _ NH Ho)|]. auto.
  - intros j lo hi A B X Y. apply (proj2 (C j lo hi A B)). auto.
Qed.
Lemma seq_some : forall {X Y} (f : X -> option Y) g l, (forall x, In x l -> f x = Some (g x)) -> sequence (map f l) = Some (map g l).
Proof. induction l as [|x l IH]; intros H; [reflexivity|]. cbn [map sequence]. rewrite (H x (or_introl eq_refl)). cbn [bind]. rewrite IH by (intros; apply H; right; assumption). reflexivity. Qed.
Lemma count_pairs : forall tracks (l : list (nat * nat)) tr t, gather tracks (map snd l) = Some tr -> count_occ Nat.eq_dec tr t = length (filter (fun p => nth (snd p) tracks 0 =? t) l).
Proof.
  intros tracks. induction l as [|p l IH]; intros tr t H; cbn [map gather] in H; [apply Some_inj in H; subst; reflexivity|].
  destruct (nth_error tracks (snd p)) as [a|] eqn:A; cbn [bind] in H; [|discriminate H]. destruct (gather tracks (map snd l)) as [r|] eqn:R; cbn [bind] in H; [|discriminate H]. apply Some_inj in H. subst tr.
  cbn [filter]. rewrite (nth_error_nth _ _ 0 A). cbn [count_occ]. destruct (Nat.eq_dec a t) as [->|N]; [rewrite Nat.eqb_refl; cbn [length]; f_equal; apply IH; reflexivity|]. replace (a =? t) with false by (symmetry; apply Nat.eqb_neq; exact N). apply IH. reflexivity.
Qed.
Lemma lex_nodup : forall l, lex_sorted l -> NoDup l.
Proof. induction l as [|a l IH]; intros H; [constructor|]. inversion H as [|? ? H1 H2]; subst. constructor; [|exact (IH H2)]. intros I. specialize (H1 a I). destruct H1 as [H1|[_ H1]]; lia. Qed.

Section Close.
Variables (argsort : list Z -> list nat) (w : way) (intern : bool) (cmin : Q) (self other : list eddy) (t_self t_other : list Q).
Hypothesis AS : sorts argsort.
Hypothesis FIT : contours_fit w intern self other.
Hypothesis LS : length t_self = length self.
Hypothesis LO : length t_other = length other.
(** Rows [i] and [j] have their times in the same bin and match. *)
Definition bin_pair (bins : list Q) (i j : nat) : Prop :=
  (exists k lo hi ti tj, nth_error bins k = Some lo /\ nth_error bins (S k) = Some hi /\ nth_error t_self i = Some ti /\ nth_error t_other j = Some tj /\ within lo hi ti /\ within lo hi tj) /\
  exists e0 e1 v, nth_error self i = Some e0 /\ nth_error other j = Some e1 /\ close_pair w intern cmin e0 e1 v.
Definition row_pairs (p : aligned) : list (nat * nat) :=
  let '(r, s, _, _) := p in
  match match_ w intern cmin self other (Rows r) (Rows s) with
  | Some m => map (fun x => (nth (fst (fst x)) (rows_list r) 0, nth (snd (fst x)) (rows_list s) 0)) m
  | None => []
  end.
Lemma row_pairs_spec : forall r s lo hi, (forall k, In k (rows_list r) -> k < length self) -> (forall k, In k (rows_list s) -> k < length other) -> NoDup (rows_list r) -> NoDup (rows_list s) ->
  let p := (r, s, lo, hi) in
  (let! m := match_ w intern cmin self other (Rows r) (Rows s) in re_reference_index (map (fun x => snd (fst x)) m) s) = Some (map snd (row_pairs p)) /\ NoDup (row_pairs p) /\
  forall i j, In (i, j) (row_pairs p) <-> In i (rows_list r) /\ In j (rows_list s) /\ exists e0 e1 v, nth_error self i = Some e0 /\ nth_error other j = Some e1 /\ close_pair w intern cmin e0 e1 v.
Proof.
  intros r s lo hi VR VS NR NS p. destruct (C109_match w intern cmin self other (Rows r) (Rows s) FIT VR VS) as (out & E & L & IFF). cbn [positions] in IFF. unfold p, row_pairs. rewrite E. cbn [bind].
  assert (NTH : forall (l : list nat) i a, nth_error l i = Some a -> nth i l 0 = a) by (intros l i a H; apply nth_error_nth; exact H).
  split; [|split].
  - destruct (C109_rows s (map (fun x => snd (fst x)) out)) as (l & R & RL & RN).
    { intros k K. apply in_map_iff in K as ([[i j] v] & <- & K). apply IFF in K as (a & b & e0 & e1 & _ & B & _). cbn [fst snd]. eapply nth_error_Some_lt; eauto. }
    rewrite R. f_equal. apply nth_error_ext. intros k. rewrite map_map. cbn [snd]. rewrite nth_error_map. destruct (nth_error out k) as [[[i j] v]|] eqn:K; cbn [option_map fst snd].
    + rewrite (RN k j) by (rewrite nth_error_map, K; reflexivity). destruct (proj1 (IFF i j v) (nth_error_In _ _ K)) as (a & b & e0 & e1 & _ & B & _). rewrite B. f_equal. symmetry. apply NTH. exact B.
    + apply nth_error_None. rewrite RL, map_length. apply nth_error_None. exact K.
  - apply lex_nodup in L. assert (G : forall l, NoDup (map fst l) -> (forall x, In x l -> In x out) -> NoDup (map (fun x : nat * nat * Q => (nth (fst (fst x)) (rows_list r) 0, nth (snd (fst x)) (rows_list s) 0)) l)).
    { induction l as [|[[i j] v] l IH]; intros N IN; [constructor|]. cbn [map fst snd] in N |- *. inversion N as [|? ? N1 N2]; subst. constructor; [|apply IH; [exact N2|intros; apply IN; right; assumption]].
      intros H. apply in_map_iff in H as ([[i' j'] v'] & EQ & H). cbn [fst snd] in EQ. injection EQ as E1 E2. apply N1.
      destruct (proj1 (IFF i j v) (IN _ (or_introl eq_refl))) as (a & b & _ & _ & A & B & _). destruct (proj1 (IFF i' j' v') (IN _ (or_intror H))) as (a' & b' & _ & _ & A' & B' & _).
      rewrite (NTH _ _ _ A), (NTH _ _ _ A') in E1. rewrite (NTH _ _ _ B), (NTH _ _ _ B') in E2. subst a' b'.
      assert (i' = i) by (apply (proj1 (NoDup_nth_error _) NR); [eapply nth_error_Some_lt; eauto|congruence]). assert (j' = j) by (apply (proj1 (NoDup_nth_error _) NS); [eapply nth_error_Some_lt; eauto|congruence]). subst i' j'. apply (in_map fst) in H. exact H. }
    apply G; [exact L|auto].
  - intros i j. rewrite in_map_iff. split.
    + intros ([[i' j'] v] & EQ & H). cbn [fst snd] in EQ. injection EQ as E1 E2. apply IFF in H as (a & b & e0 & e1 & A & B & C). rewrite (NTH _ _ _ A) in E1. rewrite (NTH _ _ _ B) in E2. subst a b. split; [eapply nth_error_In; eauto|]. split; [eapply nth_error_In; eauto|]. exists e0, e1, v. exact C.
    + intros (I & J & e0 & e1 & v & C). apply In_nth_error in I as [i' I]. apply In_nth_error in J as [j' J]. exists (i', j', v). cbn [fst snd]. rewrite (NTH _ _ _ I), (NTH _ _ _ J). split; [reflexivity|]. apply IFF. exists i, j, e0, e1. auto.
Qed.
Lemma close_ids_spec : forall bins nb tracks, increasing bins -> 2 <= length bins -> iterable bins t_self -> iterable bins t_other -> length tracks = length other ->
  exists ps, NoDup ps /\ (forall i j, In (i, j) ps <-> bin_pair bins i j) /\
   ((exists k lo hi, nth_error bins k = Some lo /\ nth_error bins (S k) = Some hi /\ (exists v, In v t_self /\ within lo hi v) /\ exists v, In v t_other /\ within lo hi v) ->
    exists ids, close_ids areas argsort w intern cmin nb self t_self other t_other tracks bins = Some ids /\
      forall t, In t ids <-> 1 <= length (filter (fun p => nth (snd p) tracks 0 =? t) ps) /\ nb <= length (filter (fun p => nth (snd p) tracks 0 =? t) ps)) /\
   (~ (exists k lo hi, nth_error bins k = Some lo /\ nth_error bins (S k) = Some hi /\ (exists v, In v t_self /\ within lo hi v) /\ exists v, In v t_other /\ within lo hi v) ->
    close_ids areas argsort w intern cmin nb self t_self other t_other tracks bins = None).
Proof.
  intros bins nb tracks I L IX IY LT. destruct (aligned_groups argsort t_self t_other bins AS I L IX IY) as (al & E & IL & G & C). destruct (increasing_nodup _ _ IL) as [ND UL].
  assert (SP : forall p, In p al -> (let '(r, s, _, _) := p in let! m := match_ w intern cmin self other (Rows r) (Rows s) in re_reference_index (map (fun x => snd (fst x)) m) s) = Some (map snd (row_pairs p)) /\ NoDup (row_pairs p) /\
    forall i j, In (i, j) (row_pairs p) <-> In i (rows_list (fst (fst (fst p)))) /\ In j (rows_list (snd (fst (fst p)))) /\ exists e0 e1 v, nth_error self i = Some e0 /\ nth_error other j = Some e1 /\ close_pair w intern cmin e0 e1 v).
  { intros [[[r s] lo] hi] P. destruct (G _ _ _ _ P) as (NR & NS & _ & R & S0). apply (row_pairs_spec r s lo hi); auto.
    - intros k K. apply R in K as (v & K & _). rewrite <- LS. eapply nth_error_Some_lt; eauto.
    - intros k K. apply S0 in K as (v & K & _). rewrite <- LO. eapply nth_error_Some_lt; eauto. }
  exists (flat_map row_pairs al). assert (IFF : forall i j, In (i, j) (flat_map row_pairs al) <-> bin_pair bins i j).
  { intros i j. rewrite in_flat_map. split.
    - intros ([[[r s] lo] hi] & P & H). destruct (SP _ P) as (_ & _ & Q). apply Q in H as (HI & HJ & M). cbn [fst snd] in HI, HJ. destruct (G _ _ _ _ P) as (_ & _ & (k & K1 & K2) & R & S0). apply R in HI as (ti & TI & WI). apply S0 in HJ as (tj & TJ & WJ). split; [|exact M]. exists k, lo, hi, ti, tj. auto 10.
    - intros [(k & lo & hi & ti & tj & K1 & K2 & TI & TJ & WI & WJ) M]. destruct (C k lo hi K1 K2) as (rx & ry & P); [exists ti; split; [eapply nth_error_In; eauto|exact WI]|exists tj; split; [eapply nth_error_In; eauto|exact WJ]|].
      exists (rx, ry, lo, hi). split; [exact P|]. destruct (G _ _ _ _ P) as (_ & _ & _ & R & S0). apply (proj2 (proj2 (SP _ P))). cbn [fst snd]. split; [apply R; eauto|]. split; [apply S0; eauto|exact M]. }
  split; [|split; [exact IFF|]].
  - apply nodup_flat_map; [exact ND|intros p P; exact (proj1 (proj2 (SP p P)))|]. intros [[[r s] lo] hi] [[[r' s'] lo'] hi'] [i j] P P' H H'. apply UL; [exact P|exact P'|]. cbn [fst snd].
    apply (proj2 (proj2 (SP _ P))) in H as (HI & _). apply (proj2 (proj2 (SP _ P'))) in H' as (HI' & _). cbn [fst snd] in HI, HI'. destruct (G _ _ _ _ P) as (_ & _ & (k & K1 & K2) & R & _). destruct (G _ _ _ _ P') as (_ & _ & (k' & K1' & K2') & R' & _).
    apply R in HI as (v & V & W1 & W2). apply R' in HI' as (v' & V' & W1' & W2'). rewrite V in V'. apply Some_inj in V'. subst v'.
    assert (X : forall a b la ha lb, nth_error bins (S a) = Some ha -> nth_error bins b = Some lb -> (la <= v)%Q -> (v < ha)%Q -> (lb <= v)%Q -> a < b -> False).
    { intros a b la ha lb Ha Hb _ Q2 Q3 LTT. destruct (Nat.eq_dec (S a) b) as [<-|N]; [rewrite Ha in Hb; apply Some_inj in Hb; subst; lra|]. pose proof (I (S a) b ha lb ltac:(lia) Ha Hb). lra. }
    destruct (lt_eq_lt_dec k k') as [[LTT|EQ]|LTT]; [destruct (X k k' lo hi lo' K2 K1' W1 W2 W1' LTT)| |destruct (X k' k lo' hi' lo K2' K1 W1' W2' W1 LTT)]. subst k'. rewrite K1 in K1'. apply Some_inj in K1'. subst. lra.
  - unfold close_ids. rewrite E. cbn [negb]. split.
    + intros (k & lo & hi & K1 & K2 & X & Y). destruct (C k lo hi K1 K2 X Y) as (rx & ry & P). destruct al as [|p0 al']; [destruct P|]. set (al := p0 :: al') in *. clearbody al. clear p0 al'.
      rewrite (seq_some _ (fun p => map snd (row_pairs p))) by (intros p Hp; exact (proj1 (SP p Hp))). cbn [bind].
      assert (CM : concat (map (fun p => map snd (row_pairs p)) al) = map snd (flat_map row_pairs al)) by (clear; induction al as [|p al IH]; [reflexivity|]; cbn [map concat flat_map]; rewrite map_app, IH; reflexivity). rewrite CM.
      destruct (gather_total tracks (map snd (flat_map row_pairs al))) as [tr TR].
      { intros j J. apply in_map_iff in J as ([i j'] & <- & J). apply IFF in J as [_ (e0 & e1 & v & _ & J & _)]. cbn [snd]. rewrite LT. eapply nth_error_Some_lt; eauto. }
      rewrite TR. cbn [bind]. eexists. split; [reflexivity|]. intros t. rewrite filter_In, In_usort, <- (count_pairs _ _ _ t TR), Nat.leb_le. rewrite (count_occ_In Nat.eq_dec). lia.
    + intros N. destruct al as [|[[[r s] lo] hi] al]; [reflexivity|]. exfalso. apply N. destruct (G r s lo hi (or_introl eq_refl)) as (_ & _ & (k & K1 & K2) & _). exists k, lo, hi. split; [exact K1|]. split; [exact K2|].
      destruct (align_pairs argsort false t_self t_other bins AS I L IX IY ltac:(discriminate)) as (ps & E' & _ & _ & C'). rewrite E in E'. apply (f_equal fst) in E'. cbn [fst] in E'. subst ps. destruct (proj1 (C' k lo hi K1 K2)) as [X [Y|[Y _]]]; [exists r, s; left; reflexivity|auto|discriminate Y].
Qed.
End Close.

(** Same whole number of days since [first]. *)
Definition same_day (first a b : Q) : Prop := Qfloor (a - first) = Qfloor (b - first).
(** Rows [i] and [j] are of the same day and match. *)
Definition matching_rows (w : way) (intern : bool) (cmin : Q) (self : list eddy) (t_self : list Q) (other : list eddy) (t_other : list Q) (first : Q) (i j : nat) : Prop :=
  exists ti tj e0 e1 v, nth_error t_self i = Some ti /\ nth_error t_other j = Some tj /\ same_day first ti tj /\
    nth_error self i = Some e0 /\ nth_error other j = Some e1 /\ close_pair w intern cmin e0 e1 v.
(** Number of pairs with a row of track [t]. *)
Definition pairs_of_track (tracks : list nat) (ps : list (nat * nat)) (t : nat) : nat := length (filter (fun p => nth (snd p) tracks 0 =? t) ps).

Lemma period_spec : forall t first last, In first t -> In last t -> (forall v, In v t -> first <= v /\ v <= last)%Q -> exists p0 p1, period t = Some (p0, p1) /\ (p0 == first)%Q /\ (p1 == last)%Q /\ default_bins t = Some (qarange p0 (p1 + 2)%Q).
Proof.
  intros [|a r] first last F L B; [destruct F|]. cbn [period default_bins]. eexists. eexists. split; [reflexivity|].
  destruct (qmin_from_spec r a) as [A1 A2]. destruct (qmax_from_spec r a) as [B1 B2]. pose proof (B _ A1) as [X _]. pose proof (A2 _ F) as X'. pose proof (B _ B1) as [_ Y]. pose proof (B2 _ L) as Y'. split; [lra|]. split; [lra|reflexivity].
Qed.
Lemma bins_spec : forall t first last, In first t -> In last t -> (forall v, In v t -> first <= v /\ v <= last)%Q ->
  exists p0 p1 bins, period t = Some (p0, p1) /\ (p0 == first)%Q /\ (p1 == last)%Q /\ bins = qarange p0 (p1 + 2)%Q /\ increasing bins /\ 2 <= length bins /\ (forall v, (first <= v)%Q -> (v < last + 1)%Q -> Obs_spec.inside bins v) /\
  (forall k lo hi v, nth_error bins k = Some lo -> nth_error bins (S k) = Some hi -> (within lo hi v <-> Qfloor (v - first) = Z.of_nat k)) /\
  (forall v, (first <= v)%Q -> (v < last + 1)%Q -> exists lo hi, nth_error bins (Z.to_nat (Qfloor (v - first))) = Some lo /\ nth_error bins (S (Z.to_nat (Qfloor (v - first)))) = Some hi).
Proof.
  intros t first last F L B. destruct (period_spec t first last F L B) as (p0 & p1 & P & E0 & E1 & D). destruct (default_bins_spec t) as (bins & D' & I & LN & _ & _); [intros ->; destruct F|]. rewrite D in D'. apply Some_inj in D'.
  exists p0, p1, bins. split; [exact P|]. split; [exact E0|]. split; [exact E1|]. split; [auto|]. split; [exact I|]. split; [exact LN|].
  assert (NTH : forall k b, nth_error bins k = Some b -> (b == first + inject_Z (Z.of_nat k))%Q). { intros k b H. rewrite <- D' in H. apply nth_qarange in H as [_ ->]. lra. }
  assert (LEN : (last + 2 - first <= inject_Z (Z.of_nat (length bins)))%Q).
  { rewrite <- D'. unfold qarange. rewrite map_length, seq_length. pose proof (Qle_ceiling (p1 + 2 - p0)) as C. set (c := Qceiling (p1 + 2 - p0)) in *. destruct (Z.le_gt_cases 0 c) as [Z0|Z0]; [rewrite Z2Nat.id by exact Z0; lra|].
    assert (inject_Z c <= inject_Z 0)%Q by (rewrite <- Zle_Qle; lia). change (inject_Z 0) with 0%Q in H. destruct (B _ L). lra. }
  split; [|split].
  - intros v V1 V2. destruct (nth_error_lt_Some bins 0 ltac:(lia)) as [b0 H0]. destruct (nth_error_lt_Some bins (length bins - 1) ltac:(lia)) as [bl Hl]. exists b0, bl. split; [exact H0|]. split; [exact Hl|].
    pose proof (NTH _ _ H0) as N0. pose proof (NTH _ _ Hl) as Nl. change (inject_Z (Z.of_nat 0)) with 0%Q in N0. replace (Z.of_nat (length bins - 1)) with (Z.of_nat (length bins) + -1)%Z in Nl by lia. rewrite inject_Z_plus in Nl. change (inject_Z (-1)) with (-1)%Q in Nl. split; lra.
  - intros k lo hi v K1 K2. pose proof (NTH _ _ K1) as N1. pose proof (NTH _ _ K2) as N2. rewrite Nat2Z.inj_succ, <- Z.add_1_r, inject_Z_plus in N2. change (inject_Z 1) with 1%Q in N2. destruct (Qfloor_bounds (v - first)) as [F1 F2]. unfold within. split.
    + intros [W1 W2]. set (z := Qfloor (v - first)) in *. assert (A : (inject_Z (Z.of_nat k) < inject_Z (z + 1))%Q) by (rewrite inject_Z_plus; change (inject_Z 1) with 1%Q; lra). assert (C : (inject_Z z < inject_Z (Z.of_nat k + 1))%Q) by (rewrite inject_Z_plus; change (inject_Z 1) with 1%Q; lra). rewrite <- Zlt_Qlt in A, C. lia.
    + intros E. rewrite E in F1, F2. split; lra.
  - intros v V1 V2. destruct (Qfloor_bounds (v - first)) as [F1 F2]. set (z := Qfloor (v - first)) in *.
    assert (Z0 : (0 <= z)%Z). { assert (inject_Z 0 < inject_Z (z + 1))%Q by (rewrite inject_Z_plus; change (inject_Z 1) with 1%Q; change (inject_Z 0) with 0%Q; lra). rewrite <- Zlt_Qlt in H. lia. }
    assert (Z1 : (z + 1 < Z.of_nat (length bins))%Z). { rewrite Zlt_Qlt, inject_Z_plus. change (inject_Z 1) with 1%Q. lra. }
    destruct (nth_error_lt_Some bins (Z.to_nat z) ltac:(lia)) as [lo H1]. destruct (nth_error_lt_Some bins (S (Z.to_nat z)) ltac:(lia)) as [hi H2]. eauto.
Qed.

Section Tracks.
Context {A : Type}.
Variables (argsort : list Z -> list nat) (w : way) (intern : bool) (cmin : Q) (nb : nat) (self other : list eddy) (t_self t_other : list Q) (tracks : list nat) (virtual : list bool) (rows : list A) (first last : Q).
Hypothesis AS : sorts argsort.
Hypothesis FIT : contours_fit w intern self other.
Hypothesis LS : length t_self = length self.
Hypothesis LO : length t_other = length other.
Hypothesis (LT : length tracks = length other) (LV : length virtual = length other) (LR : length rows = length other).
Hypothesis GR : grouped tracks.
(** First and last dates of the first dataset. *)
Hypothesis (PF : In first t_self) (PL : In last t_self) (PB : forall v, In v t_self -> (first <= v /\ v <= last)%Q).
(** The second dataset begins before the end of the first one; if it is sorted by
    time it is inside the period of the first one. *)
Hypothesis CR : exists v, In v t_other /\ (v <= last)%Q.
Hypothesis SO : qsorted t_other -> forall v, In v t_other -> (first <= v /\ v < last + 1)%Q.
(** C110: a track of the second dataset is kept, with all its rows, when at least
    [nb] pairs of rows of the same day match. *)
Theorem C110_tracks : (exists ti tj, In ti t_self /\ In tj t_other /\ same_day first ti tj) -> exists ps tr rw,
  NoDup ps /\ (forall i j, In (i, j) ps <-> matching_rows w intern cmin self t_self other t_other first i j) /\
  close_tracks areas argsort w intern cmin nb self t_self other t_other tracks virtual rows = Some (tr, rw) /\
  let P k := exists t, nth_error tracks k = Some t /\ 1 <= pairs_of_track tracks ps t /\ nb <= pairs_of_track tracks ps t in
  kept tracks P tr /\ kept rows P rw.
Proof.
  intros (ti & tj & TI & TJ & SD). destruct (bins_spec t_self first last PF PL PB) as (p0 & p1 & bins & P & E0 & E1 & EB & I & LN & INS & DAY & BIN).
  assert (RG : forall v u, In u t_self -> same_day first u v -> (first <= v /\ v < last + 1 + 1)%Q).
  { intros v u U S0. destruct (PB u U). unfold same_day in S0. destruct (Qfloor_bounds (u - first)) as [A1 A2]. destruct (Qfloor_bounds (v - first)) as [B1 B2]. rewrite <- S0 in B1, B2.
    assert (Z0 : (0 <= Qfloor (u - first))%Z). { assert (inject_Z 0 < inject_Z (Qfloor (u - first) + 1))%Q by (rewrite inject_Z_plus; change (inject_Z 1) with 1%Q; change (inject_Z 0) with 0%Q; lra). rewrite <- Zlt_Qlt in H1. lia. }
    assert (0 <= inject_Z (Qfloor (u - first)))%Q by (change 0%Q with (inject_Z 0); rewrite <- Zle_Qle; exact Z0). split; lra. }
  assert (IX : iterable bins t_self). { destruct (any_decrease t_self) eqn:AD; [right; split; [rewrite <- any_decrease_false; congruence|exists first; split; [exact PF|apply INS; destruct (PB first PF); lra]]|left]. apply any_decrease_false in AD. split; [intros E; rewrite E in PF; destruct PF|]. split; [exact AD|]. intros v V. destruct (PB v V). apply INS; lra. }
  assert (IV : forall u v, In u t_self -> same_day first u v -> exists lo hi, nth_error bins (Z.to_nat (Qfloor (u - first))) = Some lo /\ nth_error bins (S (Z.to_nat (Qfloor (u - first)))) = Some hi /\ within lo hi u /\ within lo hi v).
  { intros u v U S0. destruct (PB u U) as [U1 U2]. destruct (BIN u U1 ltac:(lra)) as (lo & hi & H1 & H2). exists lo, hi. split; [exact H1|]. split; [exact H2|].
    assert (Z0 : (0 <= Qfloor (u - first))%Z). { destruct (Qfloor_bounds (u - first)) as [_ X]. assert (inject_Z 0 < inject_Z (Qfloor (u - first) + 1))%Q by (rewrite inject_Z_plus; change (inject_Z 1) with 1%Q; change (inject_Z 0) with 0%Q; lra). rewrite <- Zlt_Qlt in H. lia. }
    split; apply (DAY _ _ _ _ H1 H2); [lia|]. unfold same_day in S0. lia. }
  assert (IY : iterable bins t_other).
  { destruct (any_decrease t_other) eqn:AD.
    - right. split; [rewrite <- any_decrease_false; congruence|]. exists tj. split; [exact TJ|]. destruct (IV ti tj TI SD) as (lo & hi & H1 & H2 & _ & W1 & W2).
      destruct (nth_error_lt_Some bins 0 ltac:(lia)) as [b0 H0]. destruct (nth_error_lt_Some bins (length bins - 1) ltac:(lia)) as [bl Hl]. exists b0, bl. split; [exact H0|]. split; [exact Hl|]. set (k := Z.to_nat (Qfloor (ti - first))) in *. split.
      + destruct k as [|k]; [rewrite H0 in H1; apply Some_inj in H1; subst; exact W1|]. pose proof (I 0 (S k) b0 lo ltac:(lia) H0 H1). lra.
      + pose proof (nth_error_Some_lt _ _ _ H2). destruct (Nat.eq_dec (S k) (length bins - 1)) as [E|E]; [rewrite <- E, H2 in Hl; apply Some_inj in Hl; subst; exact W2|]. pose proof (I (S k) (length bins - 1) hi bl ltac:(lia) H2 Hl). lra.
    - apply any_decrease_false in AD. left. split; [intros E; rewrite E in TJ; destruct TJ|]. split; [exact AD|]. intros v V. destruct (SO AD v V). apply INS; assumption. }
  destruct (close_ids_spec argsort w intern cmin self other t_self t_other AS FIT LS LO bins nb tracks I LN IX IY LT) as (ps & ND & IFF & YES & _).
  destruct YES as (ids & EI & IDS). { destruct (IV ti tj TI SD) as (lo & hi & H1 & H2 & W1 & W2). exists (Z.to_nat (Qfloor (ti - first))), lo, hi. split; [exact H1|]. split; [exact H2|]. split; [exists ti|exists tj]; auto. }
  assert (TN : tracks <> []) by (intros E; rewrite E in LT; rewrite <- LT in LO; apply length_zero_iff_nil in LO; rewrite LO in TJ; destruct TJ).
  assert (PSB : forall i j, In (i, j) ps -> j < length tracks) by (intros i j H; apply IFF in H as [_ (e0 & e1 & v & _ & H & _)]; rewrite LT; eapply nth_error_Some_lt; eauto).
  destruct (C21_selected_tracks tracks ids TN GR) as (m & EM & MI).
  { intros t H. apply IDS in H as [H _]. destruct (filter (fun p => nth (snd p) tracks 0 =? t) ps) as [|[i j] l] eqn:FE; [cbn in H; lia|]. assert (X : In (i, j) (filter (fun p => nth (snd p) tracks 0 =? t) ps)) by (rewrite FE; left; reflexivity). apply filter_In in X as [X Y]. apply Nat.eqb_eq in Y. cbn [snd] in Y. subst t. apply list_max_le_In || idtac.
    assert (IN : In (nth j tracks 0) tracks) by (apply nth_In; eapply PSB; eauto). assert (G : Forall (fun k => k <= list_max tracks) tracks) by (apply list_max_le; reflexivity). rewrite Forall_forall in G. exact (G _ IN). }
  destruct MI as [ML MI]. destruct (C22_plain tracks virtual rows m false) as (tr & rw & EX & K1 & K2); [congruence|exact ML|congruence|].
  exists ps, tr, rw. split; [exact ND|]. split; [|split].
  - intros i j. rewrite IFF. unfold bin_pair, matching_rows. split.
    + intros [(k & lo & hi & ui & uj & H1 & H2 & UI & UJ & WI & WJ) (e0 & e1 & v & M0 & M1 & M)]. exists ui, uj, e0, e1, v. split; [exact UI|]. split; [exact UJ|]. split; [|auto]. apply (DAY _ _ _ _ H1 H2) in WI, WJ. unfold same_day. congruence.
    + intros (ui & uj & e0 & e1 & v & UI & UJ & S0 & M0 & M1 & M). split; [|exists e0, e1, v; auto]. destruct (IV ui uj (nth_error_In _ _ UI) S0) as (lo & hi & H1 & H2 & W1 & W2). exists (Z.to_nat (Qfloor (ui - first))), lo, hi, ui, uj. auto 10.
  - unfold close_tracks. rewrite P. cbn [bind fst snd]. destruct CR as (v & V1 & V2).
    destruct t_other as [|a r] eqn:TO; [destruct TJ|]. cbn [period bind fst snd]. destruct (qmin_from_spec r a) as [A1 A2]. destruct (qmax_from_spec r a) as [B1 B2].
    assert (X1 : Qlt_bool (qmax_from a r) p0 = false). { apply Qlt_bool_false. pose proof (B2 _ TJ). destruct (RG tj ti TI SD). lra. }
    assert (X2 : Qlt_bool p1 (qmin_from a r) = false). { apply Qlt_bool_false. pose proof (A2 _ V1). lra. }
    rewrite X1, X2. cbn [orb]. rewrite <- EB, EI. cbn [bind]. rewrite EM. cbn [bind]. exact EX.
  - assert (G : forall k, k < length tracks -> (nth_error m k = Some true <-> exists t, nth_error tracks k = Some t /\ 1 <= pairs_of_track tracks ps t /\ nb <= pairs_of_track tracks ps t)).
    { intros k K. rewrite (MI k K). split; intros (t & T & H); exists t; (split; [exact T|]); apply IDS; exact H. }
    assert (KE : forall {B} (l : list B) P Q r, (forall k, k < length l -> (P k <-> Q k)) -> kept l P r -> kept l Q r).
    { intros B l P0 Q0 r H (pos & Q1 & Q2 & Q3 & Q4). exists pos. split; [exact Q1|]. split; [exact Q2|]. split; [|exact Q4]. intros i. rewrite Q3. split; intros [X Y]; (split; [exact X|]); apply (H i X); exact Y. }
    split; [apply (KE _ _ _ _ _ G K1)|]. refine (KE _ _ _ _ _ _ K2). intros k K. apply G. congruence.
Qed.
End Tracks.
(** C110: nothing is kept when the periods are apart. *)
Theorem C110_apart : forall {A} argsort w intern cmin nb self t_self other t_other tracks virtual (rows : list A), t_self <> [] -> t_other <> [] ->
  ((forall u v, In u t_self -> In v t_other -> (v < u)%Q) \/ (forall u v, In u t_self -> In v t_other -> (u < v)%Q)) ->
  close_tracks areas argsort w intern cmin nb self t_self other t_other tracks virtual rows = Some ([], []).
Proof.
  intros A argsort w intern cmin nb self [|a r] other [|b s] tracks virtual rows N1 N2 H; try congruence. unfold close_tracks. cbn [period bind fst snd].
  destruct (qmin_from_spec r a) as [A1 _]. destruct (qmax_from_spec r a) as [A2 _]. destruct (qmin_from_spec s b) as [B1 _]. destruct (qmax_from_spec s b) as [B2 _].
  destruct H as [H|H].
  - rewrite (proj2 (Qlt_bool_iff _ _) (H _ _ A1 B2)). reflexivity.
  - rewrite (proj2 (Qlt_bool_iff _ _) (H _ _ A2 B1)). rewrite orb_true_r. reflexivity.
Qed.
End Props.
Print Assumptions C109_match.
Print Assumptions C109_rows.
Print Assumptions C110_tracks.
Print Assumptions C110_apart.

(** ** Cases which meet the hypotheses *)
Definition box_ (x y : Q) : list point := [(x, y); (x + 2, y); (x + 2, y + 2); (x, y + 2)]%Q.
Definition at_ (x y : Q) : eddy := Eddy (box_ x y) (box_ x y) (x + 1, y + 1)%Q.
(** Areas of squares of side two and of their intersection, for the examples. *)
Definition square_areas (c0 c1 : list point) : Q * Q * Q :=
  match c0, c1 with
  | p :: _, q :: _ => let w d := (if Qlt_bool (Qabs d) 2 then 2 - Qabs d else 0)%Q in ((w (fst p - fst q) * w (snd p - snd q))%Q, 4%Q, 4%Q)
  | _, _ => (0, 0, 0)%Q
  end.
(** Two datasets, one of them on the other side of the meridian of origin: the first
    eddy covers the second one of the other dataset, and the second eddy has a third of
    the union in common with the first one; the box which only touches is below the minimum. *)
Example C109_match_ex :
  contours_fit (Overlap Union false 0) false [at_ 10 10; at_ 20 10] [at_ 20 11; at_ 370 10; at_ 12 10] /\
  option_map (map (fun x => (fst x, Qred (snd x)))) (match_ square_areas (Overlap Union false 0) false (1#10) [at_ 10 10; at_ 20 10] [at_ 20 11; at_ 370 10; at_ 12 10] Whole (Mask [true; true; true])) = Some [((0, 1), 1%Q); ((1, 0), (1#3)%Q)].
Proof.
  split; [|vm_compute; reflexivity]. split; [intros e [[<-|[<-|[]]]|[<-|[<-|[<-|[]]]]]; discriminate|].
  intros e0 e1 p q r t [<-|[<-|[]]] [<-|[<-|[<-|[]]]] P Q0 R T; cbn in P, Q0, R, T;
  destruct P as [<-|[<-|[<-|[<-|[]]]]]; destruct Q0 as [<-|[<-|[<-|[<-|[]]]]]; destruct R as [<-|[<-|[<-|[<-|[]]]]]; destruct T as [<-|[<-|[<-|[<-|[]]]]]; vm_compute; reflexivity.
Qed.
(** C109: with the default minimum, zero, contours whose boxes cross are given even
    though they have nothing in common. *)
Theorem C109_default_refuted : forall areas (t1 := [(0, 0); (4, 0); (0, 4)]%Q : list point) (t2 := [(4, 4); (4, 1); (1, 4)]%Q : list point),
  areas t1 t2 = (0, 8, (9#2))%Q ->
  option_map (map (fun x => (fst x, Qred (snd x)))) (match_ areas (Overlap Union false 0) false 0 [Eddy t1 t1 (1, 1)%Q] [Eddy t2 t2 (3, 3)%Q] Whole Whole) = Some [((0, 0), 0%Q)].
Proof.
  intros areas t1 t2 H. unfold match_. cbn [take bind map contour effective].
  replace (bbox_intersection [t1] [t2]) with (Some [(0, 0)]) by (vm_compute; reflexivity). cbn [bind map fst snd nth_error]. unfold pair_score.
  replace (get_wrap_vertice t1 t2) with (Some t2) by (vm_compute; reflexivity). cbn [bind]. rewrite H.
vm_compute. reflexivity.
Qed.
Print Assumptions C109_default_refuted.

(** Track 1 follows the first dataset two days, track 2 is far, track 3 is close one day. *)
Definition ex_self := [at_ 10 10; at_ 11 10; at_ 12 10].
Definition ex_other := [at_ 10 10; at_ 371 10; at_ 50 10; at_ 51 10; at_ 12 10].
Example C110_tracks_ex :
  option_map (fun r => (fst r, snd r)) (close_tracks square_areas zargsort (CloseCenter 1) false 1 2 ex_self [5; 6; 7]%Q ex_other [5; 6; 5; 6; 7]%Q [1; 1; 2; 2; 3] [false; false; false; false; false] [10; 11; 20; 21; 30]) = Some ([1; 1], [10; 11]) /\
  option_map (fun r => (fst r, snd r)) (close_tracks square_areas zargsort (CloseCenter 1) false 1 1 ex_self [5; 6; 7]%Q ex_other [5; 6; 5; 6; 7]%Q [1; 1; 2; 2; 3] [false; false; false; false; false] [10; 11; 20; 21; 30]) = Some ([1; 1; 3], [10; 11; 30]).
Proof. vm_compute. auto. Qed.
Example C110_tracks_hyp : sorts zargsort /\ grouped [1; 1; 2; 2; 3] /\ ~ qsorted [5; 6; 5; 6; 7]%Q /\ same_day 5 6 6.
Proof.
  split; [apply zargsort_sorts|]. split; [apply grouped_sorted; intros [|[|[|[|[|i]]]]] [|[|[|[|[|j]]]]] a b L A B; try lia; cbn in A, B; try (destruct i; discriminate); try (destruct j; discriminate); apply Some_inj in A; apply Some_inj in B; lia|]. split; [|reflexivity].
  intros H. apply any_decrease_false in H. discriminate H.
Qed.
(** C110: an observation close to two observations of the same day counts twice. *)
Theorem C110_twice_refuted : close_tracks square_areas zargsort (CloseCenter 1) false 1 2 [at_ 10 10; at_ 11 10] [5; 5]%Q [at_ 10 10] [5]%Q [1] [false] [7] = Some ([1], [7]).
Proof. vm_compute. reflexivity. Qed.
(** C110: an atlas sorted by time which begins the day before makes the search fail,
    whatever its other rows. *)
Theorem C110_before_refuted : close_tracks square_areas zargsort (CloseCenter 1) false 1 1 [at_ 10 10; at_ 11 10] [5; 6]%Q [at_ 10 10; at_ 10 10; at_ 11 10] [4; 5; 6]%Q [1; 1; 1] [false; false; false] [7; 8; 9] = None.
Proof. vm_compute. reflexivity. Qed.
(** C110: no common day inside the common period makes the search fail. *)
Theorem C110_no_day_refuted : close_tracks square_areas zargsort (CloseCenter 1) false 1 1 [at_ 10 10; at_ 11 10] [5; 9]%Q [at_ 10 10] [7]%Q [1] [false] [7] = None.
Proof. vm_compute. reflexivity. Qed.
Print Assumptions C110_twice_refuted.
Print Assumptions C110_before_refuted.
Print Assumptions C110_no_day_refuted.
