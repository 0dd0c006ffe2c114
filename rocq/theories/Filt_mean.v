From Coq Require Import List Arith ZArith QArith Qabs Bool Lia Lqa.
From Verif Require Import Base Qaux Spec Obs_model Obs_proofs Corr_model Grid_path Poly_pairs Filt_model Filt_spec Filt_proofs.
Import ListNotations.
Local Close Scope Q_scope.
Local Open Scope nat_scope.

Lemma tmp_matrix_total : forall circular data nx ny i dx dy, rect nx ny data -> i < ny -> 1 <= dx -> (circular = true -> dx <= nx) ->
  exists T, tmp_matrix circular data ny i dx dy (2 * dy + 1) = Some T.
Proof.
  intros circular data nx ny i dx dy RD I DX CX. pose proof RD as (L & R). unfold tmp_matrix. cbv zeta. rewrite L.
  set (start := i - dy) in *. set (stop := Nat.min (i + dy + 1) ny) in *. set (ins := dy - (i - start)) in *. set (ine := dy + (stop - i)) in *.
  assert (INS : ins <= ine) by lia. assert (INE : ine <= 2 * dy + 1) by lia.
  assert (ST : Nat.min (stop - start) (ny - start) = ine - ins) by (clear -I; subst ins ine start stop; lia).
  clearbody ins ine. clearbody start stop.
  set (T0 := repeat (repeat (@None Q) (2 * dy + 1)) (2 * dx + nx)) in *.
  assert (LT0 : length T0 = 2 * dx + nx) by (unfold T0; rewrite repeat_length; reflexivity).
  assert (WT0 : forall x, In x T0 -> length x = 2 * dy + 1). { intros x X. apply repeat_spec in X. subst x. apply repeat_length. }
  clearbody T0.
  assert (SR : forall l : grid, (forall x, In x l -> In x data) -> forall x, In x (map (fun r => slice r start stop) l) -> length x = ine - ins).
  { intros l HL x X. apply in_map_iff in X. destruct X as (y & <- & Y). rewrite fslice_length, (R y); auto. }
  assert (SL : forall a b x, In x (pyslice data a b) -> In x data).
  { intros a b x X. unfold pyslice, slice in X. rewrite <- (firstn_skipn (start_of (length data) a) data). apply in_or_app. right. rewrite <- (firstn_skipn (stop_of (length data) b - start_of (length data) a) (skipn (start_of (length data) a) data)). apply in_or_app. left. exact X. }
  destruct circular; cbn [bind].
  - specialize (CX eq_refl).
    assert (P1 : length (pyslice data (Some (- Z.of_nat dx)%Z) None) = dx). { unfold pyslice. rewrite fslice_length. cbn [start_of stop_of]. rewrite clip_neg by exact DX. lia. }
    assert (P2 : length (pyslice data None (Some (Z.of_nat dx))) = dx). { unfold pyslice. rewrite fslice_length. cbn [start_of stop_of]. rewrite clip_pos. lia. }
    destruct (assign_block_total T0 (map (fun r => slice r start stop) (pyslice data (Some (- Z.of_nat dx)%Z) None)) None (Some (Z.of_nat dx)) ins ine 0 dx (2 * dy + 1)) as (T1 & E1); auto; try lia.
    { rewrite LT0; cbn [stop_of]; rewrite clip_pos; lia. } { rewrite map_length. lia. } { apply SR. intros. eapply SL; eauto. }
    rewrite E1. cbn [bind].
    destruct (assign_block_spec _ _ _ _ _ _ _ 0 dx (2 * dy + 1) E1 ltac:(reflexivity) ltac:(rewrite LT0; cbn [stop_of]; rewrite clip_pos; lia) ltac:(lia) ltac:(lia) INS WT0) as (_ & L1 & W1 & _). rewrite LT0 in L1.
    destruct (assign_block_total T1 (map (fun r => slice r start stop) (pyslice data None (Some (Z.of_nat dx)))) (Some (- Z.of_nat dx)%Z) None ins ine (dx + nx) (2 * dx + nx) (2 * dy + 1)) as (T2 & E2); auto; try lia.
    { rewrite L1; cbn [start_of]; rewrite clip_neg; lia. } { rewrite map_length. lia. } { apply SR. intros. eapply SL; eauto. }
    rewrite E2. cbn [bind].
    destruct (assign_block_spec _ _ _ _ _ _ _ (dx + nx) (2 * dx + nx) (2 * dy + 1) E2 ltac:(rewrite L1; cbn [start_of]; rewrite clip_neg; lia) ltac:(rewrite L1; reflexivity) ltac:(lia) ltac:(lia) INS W1) as (_ & L2 & W2 & _). rewrite L1 in L2.
    apply (assign_block_total _ _ _ _ _ _ dx (dx + nx) (2 * dy + 1)); auto; try lia.
    { rewrite L2; cbn [start_of]; rewrite clip_pos; lia. } { rewrite L2; cbn [stop_of]; rewrite clip_neg; lia. } { rewrite map_length. lia. } { apply (SR data). auto. }
  - apply (assign_block_total _ _ _ _ _ _ dx (dx + nx) (2 * dy + 1)); auto; try lia.
    { rewrite LT0; cbn [start_of]; rewrite clip_pos; lia. } { rewrite LT0; cbn [stop_of]; rewrite clip_neg; lia. } { rewrite map_length. lia. } { apply (SR data). auto. }
Qed.

Lemma concat_prod : forall {A B C} (f : A -> B -> C) la lb, concat (map (fun a => map (f a) lb) la) = map (fun p => f (fst p) (snd p)) (list_prod la lb).
Proof. intros. induction la as [|a la IH]; [reflexivity|]. cbn [map concat list_prod]. rewrite map_app, IH. f_equal. rewrite map_map. reflexivity. Qed.
Lemma prod_map : forall {A B C D} (g : A -> C) (h : B -> D) la lb, list_prod (map g la) (map h lb) = map (fun p => (g (fst p), h (snd p))) (list_prod la lb).
Proof. intros. induction la as [|a la IH]; [reflexivity|]. cbn [map list_prod]. rewrite map_app, IH. f_equal. rewrite !map_map. reflexivity. Qed.
Lemma sequence_some : forall {A B} (f : A -> option B) g l, (forall a, In a l -> f a = Some (g a)) -> sequence (map f l) = Some (map g l).
Proof. intros A B f g l. induction l as [|a l IH]; intros H; [reflexivity|]. cbn [map sequence]. rewrite H by (left; reflexivity). cbn [bind]. rewrite IH by (intros; apply H; right; auto). reflexivity. Qed.
Lemma Qsum_ext : forall {A} (f g : A -> Q) l, (forall a, In a l -> f a == g a)%Q -> (Qsum (map f l) == Qsum (map g l))%Q.
Proof. intros A f g l. induction l as [|a l IH]; intros H; [reflexivity|]. cbn [map Qsum fold_right]. rewrite (H a) by (left; reflexivity). change (fold_right Qplus 0 (map f l))%Q with (Qsum (map f l)). rewrite IH by (intros; apply H; right; auto). reflexivity. Qed.
Definition entry {A} (d : A) (m : list (list A)) (r c : nat) : A := nth c (nth r m []) d.
Lemma nth2_entry : forall {A} (d : A) n m l r c, rect n m l -> r < n -> c < m -> nth2 l r c = Some (entry d l r c).
Proof.
  intros A d n m l r c (L & R) H H1. unfold nth2, entry. destruct (nth_error_lt_Some l r) as (row & N); [lia|]. rewrite N. rewrite (nth_error_nth l r [] N).
  apply nth_error_nth'. rewrite (R row (nth_error_In _ _ N)). exact H1.
Qed.
Lemma rect_hd : forall {A} n m (l : list (list A)), rect n m l -> 1 <= n -> length (hd [] l) = m.
Proof. intros A n m [|r l] (L & R) H; [cbn in L; lia|]. apply R. left. reflexivity. Qed.
Lemma correlate_spec : forall K dx dy m nx x, rect (2 * dx + 1) (2 * dy + 1) K -> rect (2 * dx + nx) (2 * dy + 1) m -> x < nx ->
  exists s, correlate K m x = Some s /\ (s == over dx dy (fun a b => weight K dx dy a b * entry 0%Q m (Z.to_nat (Z.of_nat x + (a + Z.of_nat dx))) (Z.to_nat (b + Z.of_nat dy))))%Q.
Proof.
  intros K dx dy m nx x RK RM X. unfold correlate. rewrite (rect_hd _ _ _ RK) by lia. pose proof RK as (LK & _). rewrite LK.
  rewrite concat_prod. rewrite (sequence_some _ (fun p => entry 0%Q K (fst p) (snd p) * entry 0%Q m (x + fst p) (snd p))%Q).
  - cbn [bind]. eexists. split; [reflexivity|]. unfold over, span. rewrite prod_map, map_map. apply Qsum_ext. intros (a, b) I. apply in_prod_iff in I. destruct I as (Ia & Ib). apply in_seq in Ia. apply in_seq in Ib. cbn [fst snd].
    unfold weight, entry. replace (Z.to_nat (Z.of_nat a - Z.of_nat dx + Z.of_nat dx)) with a by lia. replace (Z.to_nat (Z.of_nat b - Z.of_nat dy + Z.of_nat dy)) with b by lia.
    replace (Z.to_nat (Z.of_nat x + (Z.of_nat a - Z.of_nat dx + Z.of_nat dx))) with (x + a) by lia. reflexivity.
  - intros (a, b) I. apply in_prod_iff in I. destruct I as (Ia & Ib). apply in_seq in Ia. apply in_seq in Ib. cbn [fst snd].
    assert (E1 := nth2_entry 0%Q _ _ K a b RK ltac:(lia) ltac:(lia)). assert (E2 := nth2_entry 0%Q _ _ m (x + a) b RM ltac:(lia) ltac:(lia)). unfold nth2 in E1, E2.
    destruct (nth_error K a) as [kr|]; [|discriminate E1]. cbn [bind]. rewrite E1. cbn [bind]. destruct (nth_error m (x + a)) as [mr|]; [|discriminate E2]. cbn [bind]. rewrite E2. reflexivity.
Qed.
Lemma over_ext : forall dx dy f g, (forall a b, (- Z.of_nat dx <= a <= Z.of_nat dx)%Z -> (- Z.of_nat dy <= b <= Z.of_nat dy)%Z -> f a b == g a b)%Q -> (over dx dy f == over dx dy g)%Q.
Proof.
  intros dx dy f g H. unfold over. apply Qsum_ext. intros (a, b) I. apply in_prod_iff in I. destruct I as (Ia & Ib). unfold span in Ia, Ib. apply in_map_iff in Ia. apply in_map_iff in Ib.
  destruct Ia as (a' & <- & Ia). destruct Ib as (b' & <- & Ib). apply in_seq in Ia. apply in_seq in Ib. cbn [fst snd]. apply H; lia.
Qed.
Lemma rect_map : forall {A B} (f : A -> B) n m l, rect n m l -> rect n m (map (map f) l).
Proof. intros A B f n m l (L & R). split; [rewrite map_length; exact L|]. intros row I. apply in_map_iff in I. destruct I as (r & <- & I). rewrite map_length. apply R. exact I. Qed.
Lemma nth2_map : forall {A B} (f : A -> B) l r c, nth2 (map (map f) l) r c = option_map f (nth2 l r c).
Proof. intros. unfold nth2. rewrite nth_error_map. destruct (nth_error l r); cbn [option_map]; [apply nth_error_map|reflexivity]. Qed.

(** One line of the filter. *)
Lemma filter_line_spec : forall circular data nx ny i extend K dx dy, rect nx ny data -> i < ny -> odd_kernel K dx dy -> (circular = true -> dx <= nx) ->
  exists out, filter_line circular data ny i extend K = Some out /\ length out = nx /\
    forall x, x < nx -> exists vs ks, (vs == around_sum circular data K dx dy x i)%Q /\ (ks == around_weight circular data K dx dy x i)%Q /\
      nth_error out x = Some (let r := if Qeq_bool ks 0 then Nan else Val (vs / ks)%Q in match extend with None => r | Some e => if Qlt_bool ks (e * Qsum (map Qsum K))%Q then Masked else r end).
Proof.
  intros circular data nx ny i extend K dx dy RD I (DX & RK) CX. pose proof RD as (L & _). pose proof RK as (LK & _). unfold filter_line. cbv zeta.
  rewrite (rect_hd _ _ _ RK) by lia. rewrite LK. replace ((2 * dy + 1 - 1) / 2) with dy by (replace (2 * dy + 1 - 1) with (dy * 2) by lia; rewrite Nat.div_mul; lia).
  replace ((2 * dx + 1 - 1) / 2) with dx by (replace (2 * dx + 1 - 1) with (dx * 2) by lia; rewrite Nat.div_mul; lia).
  replace ((2 * dx + 1) / 2) with dx by (symmetry; replace (2 * dx + 1) with (1 + dx * 2) by lia; rewrite Nat.div_add by lia; reflexivity).
  destruct (tmp_matrix_total circular data nx ny i dx dy RD I DX CX) as (T & ET). rewrite ET. cbn [bind].
  destruct (tmp_matrix_spec circular data nx ny i dx dy T RD I DX CX ET) as (RT & NT). pose proof RT as (LT & _). rewrite LT, L.
  replace (2 * dx + nx - 2 * dx) with nx by lia. rewrite Nat.eqb_refl. destruct (Nat.eqb_spec dx 0); [lia|]. cbn [negb orb].
  set (fv := fun o : option Q => match o with Some v => v | None => 0%Q end). set (fm := fun o : option Q => match o with Some _ => 1%Q | None => 0%Q end).
  assert (Hv : forall x, x < nx -> exists s, correlate K (map (map fv) T) x = Some s /\ (s == around_sum circular data K dx dy x i)%Q).
  { intros x X. destruct (correlate_spec K dx dy (map (map fv) T) nx x RK (rect_map _ _ _ _ RT) X) as (s & E & Q1). exists s. split; [exact E|]. rewrite Q1. apply over_ext. intros a b Ha Hb.
    assert (N := nth2_entry 0%Q _ _ (map (map fv) T) (Z.to_nat (Z.of_nat x + (a + Z.of_nat dx))) (Z.to_nat (b + Z.of_nat dy)) (rect_map _ _ _ _ RT) ltac:(lia) ltac:(lia)).
    rewrite nth2_map, NT in N by lia. cbn [option_map] in N. apply Some_inj in N. rewrite <- N.
    replace (Z.of_nat (Z.to_nat (Z.of_nat x + (a + Z.of_nat dx))) - Z.of_nat dx)%Z with (Z.of_nat x + a)%Z by lia. replace (Z.of_nat i + (Z.of_nat (Z.to_nat (b + Z.of_nat dy)) - Z.of_nat dy))%Z with (Z.of_nat i + b)%Z by lia.
    clear N. unfold fv. destruct (value_at circular data (Z.of_nat x + a) (Z.of_nat i + b)); [reflexivity|]. ring. }
  assert (Hm : forall x, x < nx -> exists s, correlate K (map (map fm) T) x = Some s /\ (s == around_weight circular data K dx dy x i)%Q).
  { intros x X. destruct (correlate_spec K dx dy (map (map fm) T) nx x RK (rect_map _ _ _ _ RT) X) as (s & E & Q1). exists s. split; [exact E|]. rewrite Q1. apply over_ext. intros a b Ha Hb.
    assert (N := nth2_entry 0%Q _ _ (map (map fm) T) (Z.to_nat (Z.of_nat x + (a + Z.of_nat dx))) (Z.to_nat (b + Z.of_nat dy)) (rect_map _ _ _ _ RT) ltac:(lia) ltac:(lia)).
    rewrite nth2_map, NT in N by lia. cbn [option_map] in N. apply Some_inj in N. rewrite <- N.
    replace (Z.of_nat (Z.to_nat (Z.of_nat x + (a + Z.of_nat dx))) - Z.of_nat dx)%Z with (Z.of_nat x + a)%Z by lia. replace (Z.of_nat i + (Z.of_nat (Z.to_nat (b + Z.of_nat dy)) - Z.of_nat dy))%Z with (Z.of_nat i + b)%Z by lia.
    clear N. unfold fm. destruct (value_at circular data (Z.of_nat x + a) (Z.of_nat i + b)); ring. }
  match goal with |- exists out, sequence (map ?F ?l) = Some out /\ _ => destruct (sequence_total F l) as (out & EO) end.
  { intros x X. apply in_seq in X. destruct (Hv x) as (s & -> & _); [lia|]. destruct (Hm x) as (s' & -> & _); [lia|]. cbn [bind]. discriminate. }
  exists out. split; [exact EO|]. destruct (sequence_nth _ _ EO) as (LO & NO). rewrite map_length, seq_length in LO. split; [exact LO|].
  intros x X. destruct (Hv x X) as (vs & Ev & Qv). destruct (Hm x X) as (ks & Em & Qm). exists vs, ks. split; [exact Qv|]. split; [exact Qm|].
  specialize (NO x). rewrite nth_error_map, nth_error_seq in NO. destruct (Nat.ltb_spec x nx); [|lia]. cbn [option_map] in NO. cbn [Nat.add] in NO. rewrite Ev, Em in NO. cbn [bind] in NO. destruct (nth_error out x) as [y|]; [|discriminate NO]. apply Some_inj in NO. cbv zeta. symmetry. exact NO.
Qed.

Lemma Qsum_flat : forall {A} (f : A -> list Q) l, (Qsum (concat (map f l)) == Qsum (map (fun a => Qsum (f a)) l))%Q.
Proof. intros A f l. induction l as [|a l IH]; [reflexivity|]. cbn [map concat]. rewrite Qsum_app. cbn [Qsum]. rewrite IH. reflexivity. Qed.
Lemma list_nth : forall {A} (d : A) l, l = map (fun i => nth i l d) (seq 0 (length l)).
Proof. intros A d l. apply nth_error_ext. intros i. rewrite nth_error_map, nth_error_seq. destruct (Nat.ltb_spec i (length l)); cbn [option_map]; [apply nth_error_nth'; exact H|apply nth_error_None; exact H]. Qed.
Lemma total_weight_eq : forall K dx dy, rect (2 * dx + 1) (2 * dy + 1) K -> (Qsum (map Qsum K) == total_weight K dx dy)%Q.
Proof.
  intros K dx dy (L & R). unfold total_weight, over, span. rewrite prod_map, map_map. rewrite <- (concat_prod (fun a b => weight K dx dy (Z.of_nat a - Z.of_nat dx) (Z.of_nat b - Z.of_nat dy))).
  change (fold_right Qplus 0%Q) with Qsum. rewrite (Qsum_flat (fun a => map (fun b => weight K dx dy (Z.of_nat a - Z.of_nat dx) (Z.of_nat b - Z.of_nat dy)) (seq 0 (2 * dy + 1)))).
  rewrite (list_nth [] K) at 1. rewrite map_map, L. apply Qsum_ext. intros a I. apply in_seq in I.
  rewrite (list_nth 0%Q (nth a K [])) at 1. rewrite (R (nth a K [])) by (apply nth_In; lia). apply Qsum_ext. intros b Ib. apply in_seq in Ib.
  unfold weight. replace (Z.to_nat (Z.of_nat a - Z.of_nat dx + Z.of_nat dx)) with a by lia. replace (Z.to_nat (Z.of_nat b - Z.of_nat dy + Z.of_nat dy)) with b by lia. reflexivity.
Qed.
Lemma column_spec : forall (data : grid) nx ny i, rect nx ny data -> i < ny -> exists col, column data i = Some col /\ length col = nx /\ forall x, x < nx -> nth_error col x = Some (value_at false data (Z.of_nat x) (Z.of_nat i)).
Proof.
  intros data nx ny i RD I. pose proof RD as (L & R). unfold column. destruct (sequence_total (fun r => nth_error r i) data) as (col & E).
  { intros r Hr N. apply nth_error_None in N. rewrite (R r Hr) in N. lia. }
  exists col. split; [exact E|]. destruct (sequence_nth _ _ E) as (LC & N). rewrite map_length in LC. split; [lia|]. intros x X. specialize (N x). rewrite nth_error_map in N.
  assert (E2 := nth2_mval nx ny data x i RD X I). rewrite (value_at_plain _ nx ny) by exact RD. decide_bools. rewrite !Nat2Z.id. unfold nth2 in E2.
  destruct (nth_error data x) as [row|]; [|discriminate E2]. cbn [option_map] in N. rewrite E2 in N. destruct (nth_error col x); [|discriminate N]. apply Some_inj in N. symmetry. exact N.
Qed.
Lemma value_at_same : forall circular (data : grid) nx x y, length data = nx -> x < nx -> value_at circular data (Z.of_nat x) y = value_at false data (Z.of_nat x) y.
Proof. intros [|] data nx x y L X; [|reflexivity]. unfold value_at. rewrite L, Z.mod_small by lia. reflexivity. Qed.
Lemma nth_combine_some : forall {A B} (l : list A) (m : list B) x a b, nth_error l x = Some a -> nth_error m x = Some b -> nth_error (combine l m) x = Some (a, b).
Proof. intros A B l. induction l as [|o l IH]; intros [|y m] [|x] a b N1 N2; cbn [nth_error combine] in *; try discriminate; [injection N1 as ->; injection N2 as ->; reflexivity|apply IH; assumption]. Qed.
Lemma filter_one_spec : forall circular data nx ny y_c kernel lat_max extend i lat, rect nx ny data -> length y_c = ny -> nth_error y_c i = Some lat ->
  ((Qabs lat <= lat_max)%Q -> (exists x, value_at circular data (Z.of_nat x) (Z.of_nat i) <> None /\ x < nx) -> exists K dx dy, kernel lat = Some K /\ odd_kernel K dx dy /\ (circular = true -> dx <= nx)) ->
  exists out, filter_one circular data y_c kernel lat_max extend i = Some out /\ length out = nx /\
    forall x, x < nx -> exists c, nth_error out x = Some c /\
      ((lat_max < Qabs lat)%Q -> c = Masked) /\ ((forall x', x' < nx -> value_at circular data (Z.of_nat x') (Z.of_nat i) = None) -> c = Masked) /\
      ((Qabs lat <= lat_max)%Q -> (exists x', x' < nx /\ value_at circular data (Z.of_nat x') (Z.of_nat i) <> None) ->
        forall K dx dy, kernel lat = Some K -> odd_kernel K dx dy -> mean_around circular data K dx dy extend x i c).
Proof.
  intros circular data nx ny y_c kernel lat_max extend i lat RD LY NY HK. pose proof (nth_error_Some_lt _ _ _ NY) as I. rewrite LY in I. pose proof RD as (L & _).
  unfold filter_one. rewrite NY. cbn [bind]. destruct (column_spec data nx ny i RD I) as (col & EC & LC & NC). rewrite EC. cbn [bind]. rewrite L, LY.
  destruct (Qlt_bool lat_max (Qabs lat)) eqn:Q1.
  { apply Qlt_bool_iff in Q1. cbn [orb]. exists (repeat Masked nx). split; [reflexivity|]. split; [apply repeat_length|]. intros x X. exists Masked. split; [apply nth_error_repeat; exact X|].
    split; [reflexivity|]. split; [reflexivity|]. intros Hl. exfalso. lra. }
  apply Qlt_bool_false in Q1. cbn [orb]. destruct (forallb is_masked col) eqn:Q2.
  { exists (repeat Masked nx). split; [reflexivity|]. split; [apply repeat_length|]. intros x X. exists Masked. split; [apply nth_error_repeat; exact X|].
    split; [reflexivity|]. split; [reflexivity|]. intros _ (x' & X' & V). exfalso. rewrite forallb_forall in Q2. specialize (Q2 _ (nth_error_In _ _ (NC x' X'))). rewrite (value_at_same circular data nx) in V by assumption. destruct (value_at false data _ _); [discriminate Q2|]. apply V. reflexivity. }
  assert (EX : exists x, x < nx /\ value_at circular data (Z.of_nat x) (Z.of_nat i) <> None).
  { assert (Q3 : exists o, In o col /\ is_masked o = false).
    { clear -Q2. induction col as [|o col IH]; [discriminate Q2|]. cbn in Q2. destruct (is_masked o) eqn:M; [destruct (IH Q2) as (o' & I & M'); exists o'; split; [right|]; auto|]. exists o. split; [left|]; auto. }
    destruct Q3 as (o & Io & Mo). destruct (In_nth_error _ _ Io) as (x & Nx). exists x. pose proof (nth_error_Some_lt _ _ _ Nx) as X. split; [lia|]. rewrite (value_at_same circular data nx) by (auto; lia). rewrite NC in Nx by lia. apply Some_inj in Nx. rewrite Nx. destruct o; [discriminate|discriminate Mo]. }
  destruct (HK Q1) as (K & dx & dy & EK & OK & CX). { destruct EX as (x & X & V). exists x. auto. }
  rewrite EK. cbn [bind]. destruct (filter_line_spec circular data nx ny i extend K dx dy RD I OK CX) as (out & EO & LO & NO). rewrite EO. cbn [bind].
  eexists. split; [reflexivity|]. split. { destruct extend; [exact LO|]. rewrite map_length, combine_length. lia. }
  intros x X. destruct (NO x X) as (vs & ks & Qv & Qk & Nx).
  exists (match extend with None => if is_masked (value_at circular data (Z.of_nat x) (Z.of_nat i)) then Masked else if Qeq_bool ks 0 then Nan else Val (vs / ks)%Q | Some e => if Qlt_bool ks (e * Qsum (map Qsum K))%Q then Masked else if Qeq_bool ks 0 then Nan else Val (vs / ks)%Q end).
  split.
  { destruct extend as [e|]; [exact Nx|]. rewrite nth_error_map. rewrite (value_at_same circular data nx) by assumption. cbv zeta in Nx.
    assert (NCB : nth_error (combine col out) x = Some (value_at false data (Z.of_nat x) (Z.of_nat i), if Qeq_bool ks 0 then Nan else Val (vs / ks)%Q)).
    { apply nth_combine_some; [exact (NC x X)|exact Nx]. }
    rewrite NCB. reflexivity. }
  split; [intros H; exfalso; lra|]. split. { intros H. exfalso. destruct EX as (x' & X' & V). apply V. apply H. exact X'. }
  intros _ _ K' dx' dy' EK' OK'. apply Some_inj in EK'. subst K'.
  assert (D : dx' = dx /\ dy' = dy).
  { destruct OK as (_ & R1). destruct OK' as (_ & R2). assert (H1 := proj1 R1). assert (H2 := proj1 R2). assert (dx' = dx) by lia. split; [assumption|]. assert (H3 := rect_hd _ _ _ R1 ltac:(lia)). assert (H4 := rect_hd _ _ _ R2 ltac:(lia)). lia. }
  destruct D as (-> & ->). unfold mean_around. cbv zeta. destruct OK as (_ & RK).
  assert (QK : (if Qeq_bool ks 0 then Nan else Val (vs / ks)%Q) = Nan /\ (ks == 0)%Q \/ (if Qeq_bool ks 0 then Nan else Val (vs / ks)%Q) = Val (vs / ks)%Q /\ ~ (ks == 0)%Q).
  { destruct (Qeq_bool ks 0) eqn:B; [left; split; [reflexivity|apply Qeq_bool_iff; exact B]|right; split; [reflexivity|]]. intros H. apply Qeq_bool_iff in H. congruence. }
  destruct extend as [e|].
  - assert (T := total_weight_eq K dx dy RK). destruct (Qlt_bool ks (e * Qsum (map Qsum K))%Q) eqn:B.
    + apply Qlt_bool_iff in B. rewrite T, Qk in B. split; [reflexivity|]. split; intros H; exfalso; apply H; exact B.
    + apply Qlt_bool_false in B. rewrite T, Qk in B. split; [intros H; exfalso; lra|]. split; intros _ W.
      * destruct QK as [(-> & _)|(_ & N)]; [reflexivity|]. exfalso. apply N. rewrite Qk. exact W.
      * destruct QK as [(_ & N)|(-> & N)]; [exfalso; apply W; rewrite <- Qk; exact N|]. eexists. split; [reflexivity|]. rewrite Qv, Qk. reflexivity.
  - destruct (value_at circular data (Z.of_nat x) (Z.of_nat i)) as [v|]; cbn [is_masked].
    + split; [discriminate|]. split; intros _ W.
      * destruct QK as [(-> & _)|(_ & N)]; [reflexivity|]. exfalso. apply N. rewrite Qk. exact W.
      * destruct QK as [(_ & N)|(-> & N)]; [exfalso; apply W; rewrite <- Qk; exact N|]. eexists. split; [reflexivity|]. rewrite Qv, Qk. reflexivity.
    + split; [reflexivity|]. split; intros H; exfalso; apply H; reflexivity.
Qed.
