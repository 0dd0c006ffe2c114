(** Properties of the histograms of observations (C98). *)
From Coq Require Import List Arith ZArith QArith Qround Bool Lia Lqa.
From Verif Require Import Base Qaux Spec Obs_spec Sel_model Sel_spec Sel_proofs Sel_hist.
Import ListNotations.
Local Close Scope Q_scope.
Local Open Scope nat_scope.

(** ** C98: statistics by bins *)

(** hist, counts: one value by bin, the number of observations of the bin. *)
Theorem C98_count : forall x w bins, increasing bins ->
  exists out, hist x w bins false false true = Some out /\ length out = length bins - 1 /\
    forall i, S i < length bins -> exists p c, (forall v, p v = true <-> bin_holds bins i v) /\ nth_error out i = Some (Some c) /\ (c == qnat (length (filter p x)))%Q.
Proof.
  intros x w bins IN. unfold hist. eexists. split; [reflexivity|]. split; [rewrite map_length; unfold hist_numba; apply length_histogram|].
  intros i L. destruct (count_bin bins x i IN L) as (p & c & P & N & C). exists p, c. split; [exact P|]. split; [rewrite nth_error_map, N; reflexivity|exact C].
Qed.
Print Assumptions C98_count.
(** hist and bins_stat, means: the mean of the field over the observations of
    the bin, nan for a bin without observation. *)
Theorem C98_mean : forall x w bins, increasing bins -> length w = length x ->
  exists out, hist x w bins false true false = Some out /\ length out = length bins - 1 /\
    forall i, S i < length bins -> exists ws q, bin_values bins i (combine x w) ws /\ nth_error out i = Some q /\ match q with None => ws = [] | Some m => mean_of ws m end.
Proof.
  intros x w bins IN LW. unfold hist. eexists. split; [reflexivity|]. split; [rewrite length_divides; [apply length_histogram|unfold hist_numba; rewrite !length_histogram; reflexivity]|].
  intros i L. destruct (mean_bin bins x w i IN LW L) as (ws & B & q & N & M). exists ws, q. split; [exact B|]. split; [exact N|exact M].
Qed.
Print Assumptions C98_mean.
(** hist, percents: proportional to the sums of the bins, of sum 100, when the
    sum of the bins is not null. *)
Theorem C98_percent : forall x w bins nb mean v, hist x w bins false false nb = Some (map Some v) -> ~ (Qsum v == 0)%Q ->
  exists out, hist x w bins true mean nb = Some (map Some out) /\ length out = length v /\ (Qsum out == 100)%Q /\
    forall i a b, nth_error v i = Some a -> nth_error out i = Some b -> (b * Qsum v == a * 100)%Q.
Proof.
  intros x w bins nb mean v H NZ. unfold hist in *. set (v0 := if nb then hist_numba x bins else histogram bins (combine x w)) in *. apply Some_inj in H.
  assert (E : v0 = v). { clear - H. revert v H. induction v0 as [|a l IH]; intros [|b v] H; cbn in H; try discriminate H; auto. injection H as -> H. f_equal. apply IH, H. }
  subst v. exists (map (fun a => (a / Qsum v0 * 100)%Q) v0). split; [|split; [apply map_length|split]].
  - f_equal. rewrite map_map. apply map_ext. intros a. unfold divide. destruct (Qeq_bool (Qsum v0) 0) eqn:Z; [apply Qeq_bool_iff in Z; contradiction|reflexivity].
  - assert (S : forall s l, ~ (s == 0)%Q -> (Qsum (map (fun a => (a / s * 100)%Q) l) == Qsum l / s * 100)%Q).
    { intros s l K. induction l as [|a l IH]; cbn [map Qsum]; [field; exact K|]. rewrite IH. field. exact K. }
    rewrite S by exact NZ. field. exact NZ.
  - intros i a b A B. rewrite nth_error_map, A in B. cbn in B. injection B as <-. field. exact NZ.
Qed.
Print Assumptions C98_percent.
Definition lats : list Q := [-70; -20; 10; 30; 30; 60; 95]%Q.
Definition amps : list Q := [1; 2; 3; 4; 5; 6; 7]%Q.
Definition bands : list Q := [-90; -60; -15; 15; 60]%Q.
(** Latitude 60 is the last edge and is counted, 95 is outside the bins. *)
Example C98_hist_ex : increasing bands /\ hist lats amps bands false false true = Some [Some 1; Some 1; Some 1; Some 3]%Q /\ hist lats amps bands false true false = Some [Some 1; Some 2; Some 3; Some (15 # 3)]%Q /\
  option_map (map (option_map Qred)) (hist lats amps bands true false false) = Some [Some (100 # 21); Some (200 # 21); Some (100 # 7); Some (500 # 7)]%Q.
Proof.
  split; [|repeat split; reflexivity]. intros i j a b L A B. unfold bands in *.
  do 5 (destruct i as [|i]; [do 5 (destruct j as [|j]; [cbn in A, B; first [lia|injection A as <-; injection B as <-; reflexivity]|]); destruct j; discriminate B|]). destruct i; discriminate A.
Qed.

(** The bins cover each observation between the first and the last edge exactly
    once: the counts add up to their number. *)
Theorem C98_total : forall x bins, increasing bins -> 2 <= length bins ->
  exists p, (forall v, p v = true <-> within bins v) /\ (Qsum (hist_numba x bins) == qnat (length (filter p x)))%Q.
Proof.
  intros x bins IN L. destruct (nth_error_lt_Some bins 0 ltac:(lia)) as [a A]. destruct (nth_error_lt_Some bins (length bins - 1) ltac:(lia)) as [z Z].
  exists (within_b a z). split.
  - intros v. unfold within_b, within. rewrite andb_true_iff, !Qle_bool_iff. split; [intros [X Y]; exists a, z; auto|]. intros (a' & z' & A' & Z' & X & Y). assert (a' = a) by congruence. assert (z' = z) by congruence. subst. split; assumption.
  - unfold hist_numba. rewrite (histogram_sum bins _ a z IN L A Z). apply ones_filter.
Qed.
Print Assumptions C98_total.
Example C98_total_ex : (Qsum (hist_numba lats bands) == 6)%Q /\ length lats = 7.
Proof. split; reflexivity. Qed.

(** bins_stat without bins: unit bins from the least value.  Every selected
    observation is counted once, in the bin of the integer part of its distance
    to the least value, and the positions are the middles of the bins. *)
Theorem C98_default_bins : forall x y m lo, let v := match m with Some k => select k x | None => x end in qmin v = Some lo ->
  exists xs ys, bins_stat x None y Count m = Some (xs, map Some ys) /\ length xs = length ys /\ (Qsum ys == qnat (length v))%Q /\
    forall i, i < length ys -> exists c d, nth_error xs i = Some c /\ (c == lo + qnat i + (1 # 2))%Q /\ nth_error ys i = Some d /\
      (d == qnat (length (filter (fun a => Z.eqb (Qfloor (a - lo)) (Z.of_nat i)) v)))%Q.
Proof.
  intros x y m lo v LO. unfold bins_stat. fold v. rewrite LO. cbn [bind]. destruct (qmin_spec v lo LO) as [ILO MLO].
  destruct (qmax v) as [hi|] eqn:HI; [|destruct v; [destruct ILO|discriminate HI]]. cbn [bind]. destruct (qmax_spec v hi HI) as [IHI MHI].
  assert (LH : (lo <= hi)%Q) by (apply MLO, IHI). destruct (arange_last lo hi LH) as [L2 LAST]. assert (IN := increasing_arange lo (hi + 2)). set (bins := arange lo (hi + 2)) in *.
  assert (NB : forall i, i < length bins -> nth_error bins i = Some (lo + qnat i)%Q) by (intros i; apply nth_arange). clearbody bins.
  exists (middles bins), (hist_numba v bins). split; [reflexivity|]. assert (LY : length (hist_numba v bins) = length bins - 1) by (unfold hist_numba; apply length_histogram). split; [rewrite length_middles, LY; reflexivity|].
  assert (N0 : nth_error bins 0 = Some (lo + qnat 0)%Q) by (apply NB; lia). assert (NL := NB (length bins - 1) ltac:(lia)).
  split.
  - destruct (C98_total v bins IN L2) as (p & P & E). rewrite E. assert (F : filter p v = v).
    { assert (ALL : forall a, In a v -> p a = true). { intros a I. apply P. exists (lo + qnat 0)%Q, (lo + qnat (length bins - 1))%Q. split; [exact N0|]. split; [exact NL|]. specialize (MLO a I). specialize (MHI a I). change (qnat 0) with 0%Q. split; lra. }
      clear - ALL. induction v as [|a l IH]; [reflexivity|]. cbn. rewrite (ALL a (or_introl eq_refl)). f_equal. apply IH. intros b I. apply ALL. right. exact I. }
    rewrite F. reflexivity.
  - intros i I. rewrite LY in I. destruct (count_bin bins v i IN ltac:(lia)) as (p & d & P & N & D). assert (A := NB i ltac:(lia)). assert (B := NB (S i) ltac:(lia)). eexists. exists d. split; [exact (nth_middles bins i _ _ A B)|]. split; [rewrite qnat_S; field|]. split; [exact N|]. rewrite D.
    assert (F : forall l, (forall a, In a l -> In a v) -> filter p l = filter (fun a => Z.eqb (Qfloor (a - lo)) (Z.of_nat i)) l).
    { induction l as [|a l IH]; intros SB; [reflexivity|]. cbn. rewrite (IH (fun b K => SB b (or_intror K))). replace (p a) with (Z.eqb (Qfloor (a - lo)) (Z.of_nat i)); [reflexivity|].
      apply eq_true_iff_eq. rewrite P, Z.eqb_eq. specialize (MLO a (SB a (or_introl eq_refl))). specialize (MHI a (SB a (or_introl eq_refl))). destruct (Qfloor_bounds (a - lo)) as [F0 F1]. unfold bin_holds. split.
      - intros EF. rewrite EF in F0, F1. exists (lo + qnat i)%Q, (lo + qnat (S i))%Q. split; [exact A|]. split; [exact B|]. rewrite qnat_S. unfold qnat. split; [lra|left; lra].
      - intros (a' & b' & A' & B' & X & Y). assert (a' = lo + qnat i)%Q by congruence. assert (b' = lo + qnat (S i))%Q by congruence. subst a' b'. rewrite qnat_S in Y.
        assert (U : (a < lo + (qnat i + 1))%Q). { destruct Y as [Y|[Y1 Y2]]; [exact Y|]. assert (EI : length bins - 1 = S i) by lia. rewrite EI, qnat_S in LAST. lra. }
        unfold qnat in X, U. set (k := Qfloor (a - lo)) in *. clearbody k.
        assert (K0 : (inject_Z k < inject_Z (Z.of_nat i + 1))%Q) by (rewrite inject_Z_plus; change (inject_Z 1) with 1%Q; lra).
        assert (K1 : (inject_Z (Z.of_nat i) < inject_Z (k + 1))%Q) by (rewrite inject_Z_plus; change (inject_Z 1) with 1%Q; lra).
        apply (proj1 (inject_Z_lt_iff _ _)) in K0. apply (proj1 (inject_Z_lt_iff _ _)) in K1. lia. }
    rewrite (F v (fun a K => K)). reflexivity.
Qed.
Print Assumptions C98_default_bins.
Example C98_default_bins_ex : option_map (fun r => (map Qred (fst r), snd r)) (bins_stat [3; 5; 3; (11 # 2); 9]%Q None [] Count (Some [true; true; true; true; false])) = Some ([(7 # 2); (9 # 2); (11 # 2); (13 # 2)], [Some 2; Some 0; Some 2; Some 0])%Q.
Proof. reflexivity. Qed.

(** bins_stat with the method mean gives the means of the bins. *)
Theorem C98_bins_mean : forall x y bins m, increasing bins -> length y = length x -> (forall k, m = Some k -> length k = length x) ->
  let sub l := match m with Some k => select k l | None => l end in
  exists xs ys, bins_stat x (Some bins) y Mean m = Some (xs, ys) /\ length xs = length bins - 1 /\ length ys = length bins - 1 /\
    forall i a b, nth_error bins i = Some a -> nth_error bins (S i) = Some b ->
      exists c ws q, nth_error xs i = Some c /\ (c == (a + b) / 2)%Q /\ bin_values bins i (combine (sub x) (sub y)) ws /\ nth_error ys i = Some q /\ match q with None => ws = [] | Some m => mean_of ws m end.
Proof.
  intros x y bins m IN LY LM sub. unfold bins_stat. cbn [bind]. fold (sub x) (sub y). eexists. eexists. split; [reflexivity|]. split; [apply length_middles|]. split; [rewrite length_divides; [apply length_histogram|unfold hist_numba; rewrite !length_histogram; reflexivity]|].
  intros i a b A B. eexists. assert (L : S i < length bins) by exact (nth_error_Some_lt _ _ _ B).
  assert (LS : length (sub y) = length (sub x)). { unfold sub. destruct m as [k|]; [|exact LY]. rewrite !length_select; rewrite ?LY; auto. }
  destruct (mean_bin bins (sub x) (sub y) i IN LS L) as (ws & BV & q & N & M). exists ws, q. split; [exact (nth_middles bins i a b A B)|]. split; [field|]. split; [exact BV|]. split; [exact N|exact M].
Qed.
Print Assumptions C98_bins_mean.
Example C98_bins_mean_ex : exists xs, bins_stat lats (Some bands) amps Mean (Some [true; true; false; true; true; true; true]) = Some (xs, [Some 1; Some 2; None; Some (15 # 3)]%Q).
Proof. eexists. reflexivity. Qed.

(** The documented method "std" gives the counts, and a selection without
    observation is an error when the bins are not given. *)
Theorem C98_std_refuted : forall x bins y m, bins_stat x bins y Std m = bins_stat x bins y Count m.
Proof. reflexivity. Qed.
Print Assumptions C98_std_refuted.
Theorem C98_empty_refuted : forall y meth m, bins_stat [] None y meth m = None.
Proof. intros y meth [[|b m]|]; reflexivity. Qed.
Print Assumptions C98_empty_refuted.
