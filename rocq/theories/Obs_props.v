(** Properties C30 to C35: iterations, selections and box statistics of
    observations.  Vocabulary: Obs_spec.v and Obs_words.v. *)
From Coq Require Import List Arith ZArith Bool QArith Qround Lia Lqa Permutation.
From Verif Require Import Base Qaux Spec Generic_model Sort Obs_spec Obs_model Obs_words Obs_proofs Obs_align Obs_more Obs_pairs.
Import ListNotations.
Local Close Scope Q_scope.
Local Open Scope nat_scope.

(** A sort which meets [sorts], used in the examples. *)
Definition zargsort : list Z -> list nat := stable_argsort Z.leb.
Lemma zargsort_sorts : sorts zargsort.
Proof.
  intros l. split; [apply stable_argsort_perm|].
  intros p q i j a b L Hi Hj Ha Hb. apply Z.leb_le.
  assert (T : forall a b, (a <=? b)%Z = true \/ (b <=? a)%Z = true) by (intros; rewrite !Z.leb_le; lia).
  assert (R : forall a b c, (a <=? b)%Z = true -> (b <=? c)%Z = true -> (a <=? c)%Z = true) by (intros ? ? ?; rewrite !Z.leb_le; lia).
  exact (proj1 (stable_argsort_order Z.leb T R l p q i j a b L Hi Hj Ha Hb)).
Qed.

(** C30: iteration with given bins on a sorted field with all values inside, or
    on a signed field not sorted with a value inside: the values inside the
    bins are visited once each in the group of their bin and no other. *)
Theorem C30_iter_on_bins : forall argsort x bins,
  sorts argsort -> increasing bins -> 2 <= length bins -> iterable bins x ->
  exists gs, iter_on argsort false x (Some bins) = (gs, true) /\ visits_bins bins x (map view gs).
Proof.
  intros argsort x bins AS I L IT. destruct (iterable_groups argsort bins x AS I L IT) as (gs & E & V & _). eauto.
Qed.
Print Assumptions C30_iter_on_bins.
Example C30_iter_on_bins_ex :
  iterable [0; 2; 3; 7]%Q [1; 5; 2; 9; 1; (-4)]%Q /\
  map view (fst (iter_on zargsort false [1; 5; 2; 9; 1; (-4)]%Q (Some [0; 2; 3; 7]%Q))) =
    [([0; 4], 0%Q, 2%Q); ([2], 2%Q, 3%Q); ([1], 3%Q, 7%Q)].
Proof.
  split; [|reflexivity]. right. split.
  - intros S. specialize (S 1 2 5%Q 2%Q ltac:(lia) eq_refl eq_refl). lra.
  - exists 1%Q. split; [left; auto|]. exists 0%Q, 7%Q. repeat split; auto; simpl; lra.
Qed.

(** C30: with the default bins (unit bins from the minimum) every observation
    is visited exactly once, with the others of its unit interval. *)
Theorem C30_iter_on_default : forall argsort x, sorts argsort -> x <> [] ->
  exists gs, iter_on argsort false x None = (gs, true) /\
    NoDup (concat (map (fun g => fst (fst g)) (map view gs))) /\
    (forall k, In k (concat (map (fun g => fst (fst g)) (map view gs))) <-> k < length x) /\
    (forall rows lo hi, In (rows, lo, hi) (map view gs) ->
       rows <> [] /\ (hi == lo + 1)%Q /\ forall k, In k rows <-> exists v, nth_error x k = Some v /\ (lo <= v /\ v < lo + 1)%Q) /\
    increasing (map (fun g => snd (fst g)) (map view gs)).
Proof.
  intros argsort x AS NE. destruct (iter_on_default argsort x AS NE) as (gs & E & A & B & C & D & _).
  exists gs. auto.
Qed.
Print Assumptions C30_iter_on_default.
Example C30_iter_on_default_ex :
  map view (fst (iter_on zargsort false [4; 2; 4; 7]%Q None)) = [([1], 2%Q, 3%Q); ([0; 2], 4%Q, 5%Q); ([3], 7%Q, 8%Q)].
Proof. reflexivity. Qed.

(** A sorted field with a value under the first edge gives one more group, of
    bounds last edge, first edge; with a value not under the last edge the
    iteration raises. *)
Theorem C30_sorted_outside_refuted :
  map view (fst (iter_on zargsort false [0; 1; 2]%Q (Some [1; 2; 3]%Q))) = [([0], 3%Q, 1%Q); ([1], 1%Q, 2%Q); ([2], 2%Q, 3%Q)] /\
  snd (iter_on zargsort false [1; 2; 3]%Q (Some [1; 2; 3]%Q)) = false.
Proof. split; reflexivity. Qed.
(** A field with no value between the edges, not sorted, raises. *)
Theorem C30_unsorted_outside_refuted : forall argsort x bins b0 bl,
  sorts argsort -> increasing bins -> 2 <= length bins -> ~ qsorted x ->
  nth_error bins 0 = Some b0 -> nth_error bins (length bins - 1) = Some bl -> (forall v, In v x -> v < b0 \/ bl < v)%Q ->
  iter_on argsort false x (Some bins) = ([], false).
Proof.
  intros argsort x bins b0 bl AS I L NS H0 Hl H. exact (proj2 (iter_on_unsorted argsort x bins AS NS I L b0 bl H0 Hl) H).
Qed.
(** On an unsigned field the decrease is not seen: value 1 is given in the
    group of bin 2 to 3, which comes twice. *)
Theorem C30_unsigned_refuted :
  exists gs, iter_on zargsort true [2; 1; 2]%Q (Some [1; 2; 3]%Q) = (gs, true) /\ ~ visits_bins [1; 2; 3]%Q [2; 1; 2]%Q (map view gs).
Proof.
  exists [(Slice 0 2, 2%Q, 3%Q); (Slice 2 3, 2%Q, 3%Q)]. split; [reflexivity|]. intros (_ & _ & G & _).
  destruct (G [0; 1] 2%Q 3%Q (or_introl eq_refl)) as (_ & _ & H).
  destruct (proj1 (H 1) (or_intror (or_introl eq_refl))) as (v & E & A & _). injection E as <-. lra.
Qed.

(** C31: aligned iteration with common bins.  A pair is given for a bin exactly
    when both datasets have values in it, or with all_ref when the first has
    values in it and the second has some further; the rows are the ones of the
    bin in each dataset, and the bins increase. *)
Theorem C31_align_on : forall argsort all_ref x y bins, sorts argsort -> increasing bins -> 2 <= length bins ->
  iterable bins x -> iterable bins y -> (all_ref = true -> ~ qsorted x) ->
  exists ps, align_on all_ref (iter_on argsort false x (Some bins)) (iter_on argsort false y (Some bins)) = (ps, true) /\
    increasing (map (fun p : aligned => snd (fst p)) ps) /\
    (forall rx ry lo hi, In (rx, ry, lo, hi) ps ->
       (exists j, nth_error bins j = Some lo /\ nth_error bins (S j) = Some hi) /\
       (forall k, In k (rows_list rx) <-> exists v, nth_error x k = Some v /\ within lo hi v) /\
       (forall k, In k (rows_list ry) <-> exists v, nth_error y k = Some v /\ within lo hi v)) /\
    (forall j lo hi, nth_error bins j = Some lo -> nth_error bins (S j) = Some hi ->
       ((exists rx ry, In (rx, ry, lo, hi) ps) <->
        (exists v, In v x /\ within lo hi v) /\
        ((exists v, In v y /\ within lo hi v) \/ (all_ref = true /\ exists v, In v y /\ inside bins v /\ (hi <= v)%Q)))).
Proof. exact align_pairs. Qed.
Print Assumptions C31_align_on.
Example C31_align_on_ex :
  align_on true (iter_on zargsort false [3; 1; 2; 3; 5]%Q (Some [1; 2; 3; 4; 5; 6]%Q)) (iter_on zargsort false [1; 3; 4]%Q (Some [1; 2; 3; 4; 5; 6]%Q))
  = ([(Index [1], Slice 0 1, 1%Q, 2%Q); (Index [2], Index [], 2%Q, 3%Q); (Index [0; 3], Slice 1 2, 3%Q, 4%Q)], true).
Proof. reflexivity. Qed.
(** With all_ref a bin after the last one of the second dataset is not given. *)
Theorem C31_all_ref_end_refuted :
  exists ps, align_on true (iter_on zargsort false [3; 1]%Q (Some [1; 2; 3; 4]%Q)) (iter_on zargsort false [1]%Q (Some [1; 2; 3; 4]%Q)) = (ps, true) /\
  ~ exists rx ry hi, In (rx, ry, 3%Q, hi) ps.
Proof.
  eexists. split; [reflexivity|]. intros (rx & ry & hi & H). vm_compute in H. destruct H as [H|[]]. discriminate.
Qed.
(** With all_ref a bin of a sorted dataset not found in the second raises. *)
Theorem C31_all_ref_sorted_refuted :
  align_on true (iter_on zargsort false [1; 2]%Q (Some [1; 2; 3]%Q)) (iter_on zargsort false [2]%Q (Some [1; 2; 3]%Q)) = ([], false).
Proof. reflexivity. Qed.

(** A second dataset which is empty, or not sorted and with no value between
    the edges, is an error, whatever the first one. *)
Theorem C31_other_outside : forall argsort all_ref x y bins b0 bl, sorts argsort -> increasing bins -> 2 <= length bins ->
  nth_error bins 0 = Some b0 -> nth_error bins (length bins - 1) = Some bl ->
  y = [] \/ (~ qsorted y /\ forall v, In v y -> v < b0 \/ bl < v)%Q ->
  align_on all_ref (iter_on argsort false x (Some bins)) (iter_on argsort false y (Some bins)) = ([], false).
Proof.
  intros argsort all_ref x y bins b0 bl AS I L H0 Hl H. unfold align_on.
  assert (E : fst (iter_on argsort false y (Some bins)) = []); [|now rewrite E].
  destruct H as [->|[NS H]].
  - unfold iter_on. cbn [not_monotonous]. destruct (numba_digitize [] bins) as [dg|] eqn:E; [|reflexivity].
    assert (dg = []) as ->; [|reflexivity]. revert E. unfold numba_digitize.
    repeat match goal with |- context [match ?e with _ => _ end] => destruct e end; cbn; congruence.
  - now rewrite (C30_unsorted_outside_refuted argsort y bins b0 bl AS I L NS H0 Hl H).
Qed.
Print Assumptions C31_other_outside.
Example C31_other_outside_ex :
  align_on true (iter_on zargsort false [1; 2]%Q (Some [1; 2; 3]%Q)) (iter_on zargsort false [5; 4]%Q (Some [1; 2; 3]%Q)) = ([], false).
Proof. reflexivity. Qed.

(** C32: filters given together are intersected, provided the last two which
    are not trivial are not both slices. *)
Theorem C32_merge_filters : forall n fs, (forall f, In (Some f) fs -> valid_filter n f) -> ends_ok (kept_filters fs) ->
  exists r, merge_filters n fs = Some r /\
    forall k, k < n -> (selects n r k <-> forall f, In (Some f) fs -> selects n f k).
Proof. exact merge_filters_spec. Qed.
Print Assumptions C32_merge_filters.
Example C32_merge_filters_ex :
  let fs := [None; Some (FSlice (Some 1%Z) None); Some (FMask [true; true; false; true; true]); Some (FIndex [0; 2; 3; 4]%Z)] in
  (forall f, In (Some f) fs -> valid_filter 5 f) /\ ends_ok (kept_filters fs) /\ merge_filters 5 fs = Some (FIndex [3; 4]%Z).
Proof.
  split; [|split; reflexivity]. intros f H. simpl in H.
  repeat (destruct H as [H|H]; [try discriminate; injection H as <-; simpl; auto|]); [|destruct H].
  intros z Hz. simpl in Hz. lia.
Qed.
(** Two slices are united, not intersected. *)
Theorem C32_two_slices_refuted : forall n a b c d, FSlice a b <> FSlice None None -> FSlice c d <> FSlice None None ->
  exists r, merge_filters n [Some (FSlice a b); Some (FSlice c d)] = Some r /\
    forall k, k < n -> (selects n r k <-> selects n (FSlice a b) k \/ selects n (FSlice c d) k).
Proof. exact two_slices_union. Qed.
Print Assumptions C32_two_slices_refuted.
Example C32_two_slices_refuted_ex : merge_filters 4 [Some (FSlice None (Some 2%Z)); Some (FSlice (Some 2%Z) None)] = Some (FMask [true; true; true; true]).
Proof. reflexivity. Qed.
(** Index lists counted from both ends are compared as numbers: row 3 of 4 is
    selected by both lists and lost. *)
Theorem C32_negative_index_refuted :
  merge_filters 4 [Some (FIndex [3%Z]); Some (FIndex [(-1)%Z])] = Some (FIndex []) /\
  selects 4 (FIndex [3%Z]) 3 /\ selects 4 (FIndex [(-1)%Z]) 3.
Proof. split; [reflexivity|]. split; simpl; eauto. Qed.

(** C33: insertion at an index of the dataset. *)
Theorem C33_insert : forall {A} (blank : A) self other index,
  (- Z.of_nat (length self) - 1 <= index <= Z.of_nat (length self))%Z ->
  let p := Z.to_nat (if (index <? 0)%Z then Z.of_nat (length self) + index + 1 else index) in
  insert_observations blank self other index = Some (firstn p self ++ other ++ skipn p self).
Proof. exact @insert_spec. Qed.
Print Assumptions C33_insert.
Example C33_insert_ex : insert_observations 0 [1; 2; 3] [8; 9] (-2) = Some [1; 2; 8; 9; 3].
Proof. reflexivity. Qed.
(** Further than the end, a dataset of one row is duplicated and the inserted
    row lost. *)
Theorem C33_outside_refuted : insert_observations 0 [1] [8] 5 = Some [1; 1].
Proof. reflexivity. Qed.

(** C34: the box statistic is stored in the next occupied cell: the lowest
    occupied cell is never written, any other receives the statistic of the
    occupied cell just before. *)
Theorem C34_grid_box_stat : forall {V S} argsort (stat : list V -> S) nb_x cells grid,
  sorts argsort -> cells <> [] -> (forall c, In c cells -> (0 <= fst (fst c) < nb_x)%Z) ->
  exists g, grid_box_stat argsort stat nb_x cells grid = Some g /\
    (forall d, occupied d cells -> (forall p, occupied p cells -> (cell_abs nb_x d <= cell_abs nb_x p)%Z) -> g d = grid d) /\
    (forall d, (0 <= fst d < nb_x)%Z -> ~ occupied d cells -> g d = grid d) /\
    (forall p d, occupied p cells -> occupied d cells -> (cell_abs nb_x p < cell_abs nb_x d)%Z ->
       (forall q, occupied q cells -> (cell_abs nb_x q <= cell_abs nb_x p)%Z \/ (cell_abs nb_x d <= cell_abs nb_x q)%Z) ->
       exists vals, Permutation vals (values_of p cells) /\ g d = Some (stat vals)).
Proof. exact @grid_box_stat_spec. Qed.
Print Assumptions C34_grid_box_stat.
Example C34_grid_box_stat_ex :
  let cells := [((2, 0), 10); ((0, 1), 20); ((2, 0), 30); ((1, 1), 40)]%Z in
  exists g, grid_box_stat zargsort (fun l => l) 3%Z cells (fun _ => None) = Some g /\
    g (2, 0)%Z = None /\ g (0, 1)%Z = Some [10; 30]%Z /\ g (1, 1)%Z = Some [20]%Z.
Proof. eexists. split; [reflexivity|]. repeat split. Qed.
(** The cell of an observation is the one it lies in; on a circular grid, up to
    turns of [nb_x] cells.  Outside a grid which is not circular an exception is
    raised; on a circular one latitudes outside are not refused. *)
Definition in_box (xstep ystep x0 y0 : Q) (p : Q * Q) (i j : Z) : Prop :=
  (x0 + inject_Z i * xstep <= fst p)%Q /\ (fst p < x0 + inject_Z (i + 1) * xstep)%Q /\
  (y0 + inject_Z j * ystep <= snd p)%Q /\ (snd p < y0 + inject_Z (j + 1) * ystep)%Q.
Lemma floor_cell : forall x x0 step i, (0 < step)%Q -> (x0 + inject_Z i * step <= x)%Q /\ (x < x0 + inject_Z (i + 1) * step)%Q <-> Qfloor ((x - x0) / step) = i.
Proof.
  intros x x0 step i P. destruct (Qfloor_bounds ((x - x0) / step)) as [A B]. assert (E : (x == x0 + (x - x0) / step * step)%Q) by (field; lra). set (q := ((x - x0) / step)%Q) in *. clearbody q. split.
  - intros [C D]. rewrite inject_Z_plus in D. change (inject_Z 1) with 1%Q in D. assert (C' : (inject_Z i <= q)%Q). { apply Qmult_lt_0_le_reg_r with step; [auto|]. lra. } assert (D' : (q < inject_Z i + 1)%Q). { apply Qmult_lt_r with step; [auto|]. lra. }
    assert (inject_Z (Qfloor q) < inject_Z (i + 1))%Q as U by (rewrite inject_Z_plus; change (inject_Z 1) with 1%Q; lra). assert (inject_Z i < inject_Z (Qfloor q + 1))%Q as V by (rewrite inject_Z_plus; change (inject_Z 1) with 1%Q; lra).
    apply (proj1 (inject_Z_lt_iff _ _)) in U. apply (proj1 (inject_Z_lt_iff _ _)) in V. lia.
  - intros <-. rewrite inject_Z_plus. change (inject_Z 1) with 1%Q. split; rewrite E.
    + apply Qplus_le_r. apply Qmult_le_compat_r; [auto|lra].
    + apply Qplus_lt_r. apply Qmult_lt_r; auto.
Qed.
Theorem C34_cells : forall xstep ystep x0 y0 nb_x nb_y p i j, (0 < xstep)%Q -> (0 < ystep)%Q -> (0 < nb_x)%Z ->
  (box_of xstep ystep x0 y0 nb_x nb_y false p = Some (i, j) <-> in_box xstep ystep x0 y0 p i j /\ (0 <= i < nb_x)%Z /\ (0 <= j < nb_y)%Z) /\
  (box_of xstep ystep x0 y0 nb_x nb_y true p = Some (i, j) <-> (exists turn, in_box xstep ystep x0 y0 p (i + turn * nb_x) j) /\ (0 <= i < nb_x)%Z).
Proof.
  intros xstep ystep x0 y0 nb_x nb_y [x y] i j PX PY NX. unfold box_of, in_box. cbn [fst snd].
  assert (IB : forall i, ((x0 + inject_Z i * xstep <= x)%Q /\ (x < x0 + inject_Z (i + 1) * xstep)%Q /\ (y0 + inject_Z j * ystep <= y)%Q /\ (y < y0 + inject_Z (j + 1) * ystep)%Q) <-> Qfloor ((x - x0) / xstep) = i /\ Qfloor ((y - y0) / ystep) = j).
  { intros k. rewrite <- (floor_cell x x0 xstep k PX), <- (floor_cell y y0 ystep j PY). tauto. }
  set (fi := Qfloor ((x - x0) / xstep)) in *. set (fj := Qfloor ((y - y0) / ystep)) in *. clearbody fi fj. split.
  - rewrite IB. destruct (Z.ltb_spec fi 0); destruct (Z.leb_spec nb_x fi); destruct (Z.ltb_spec fj 0); destruct (Z.leb_spec nb_y fj); cbn [orb]; split; intros H3; try discriminate; try (injection H3 as <- <-; lia); try lia.
    destruct H3 as [[-> ->] _]. auto.
  - split.
    + intros E. injection E as <- <-. split; [|apply Z.mod_pos_bound; auto]. exists (fi / nb_x)%Z. apply IB. split; [|auto]. rewrite Z.mul_comm, Z.add_comm. apply Z.div_mod. lia.
    + intros [(turn & T) B]. apply IB in T as [-> ->]. rewrite Z.mod_add by lia. rewrite Z.mod_small by lia. auto.
Qed.
Print Assumptions C34_cells.
Example C34_cells_ex : box_of 1 1 0 0 360 180 true (361 # 2, 5 # 2)%Q = Some (180, 2)%Z /\ box_of 1 1 0 0 360 180 true (- (1 # 2), 5 # 2)%Q = Some (359, 2)%Z /\
  box_of 1 1 0 0 360 180 false (- (1 # 2), 5 # 2)%Q = None /\ box_of 1 1 0 0 360 180 true (1 # 2, - (1 # 2))%Q = Some (0, -1)%Z.
Proof. repeat split. Qed.
(** From the positions: the statistic written in a cell is the one of the
    observations of the occupied cell just before. *)
Lemma box_cells_spec : forall {V} box points (values : list V), length values = length points -> (forall p, In p points -> exists c, box p = Some c) ->
  exists cells, box_cells box points values = Some cells /\ length cells = length points /\
    forall k p v, nth_error points k = Some p -> nth_error values k = Some v -> exists c, box p = Some c /\ nth_error cells k = Some (c, v).
Proof.
  intros V box. induction points as [|p points IH]; intros [|v values] L H; simpl in L; try discriminate.
  - exists []. split; [reflexivity|]. split; [auto|]. intros [|k]; discriminate.
  - destruct (H p (or_introl eq_refl)) as [c C]. destruct (IH values) as (cells & E & LC & N); [lia|intros q Q; apply H; right; auto|]. cbn [box_cells]. rewrite C. cbn [bind]. rewrite E. cbn [bind]. exists ((c, v) :: cells). split; [auto|]. split; [simpl; lia|].
    intros [|k] q w Q W; cbn [nth_error] in Q, W; [|apply (N k q w Q W)]. injection Q as <-. injection W as <-. eauto.
Qed.
Theorem C34_box_statistic : forall {V S} argsort (stat : list V -> S) xstep ystep x0 y0 nb_x nb_y circular points values grid,
  sorts argsort -> points <> [] -> length values = length points -> (0 < nb_x)%Z ->
  (forall p, In p points -> exists c, box_of xstep ystep x0 y0 nb_x nb_y circular p = Some c) ->
  exists g cells, box_statistic argsort stat xstep ystep x0 y0 nb_x nb_y circular points values grid = Some g /\ length cells = length points /\
    (forall k p v, nth_error points k = Some p -> nth_error values k = Some v -> exists c, box_of xstep ystep x0 y0 nb_x nb_y circular p = Some c /\ nth_error cells k = Some (c, v)) /\
    (forall d, occupied d cells -> (forall p, occupied p cells -> (cell_abs nb_x d <= cell_abs nb_x p)%Z) -> g d = grid d) /\
    (forall d, (0 <= fst d < nb_x)%Z -> ~ occupied d cells -> g d = grid d) /\
    (forall p d, occupied p cells -> occupied d cells -> (cell_abs nb_x p < cell_abs nb_x d)%Z ->
       (forall q, occupied q cells -> (cell_abs nb_x q <= cell_abs nb_x p)%Z \/ (cell_abs nb_x d <= cell_abs nb_x q)%Z) ->
       exists vals, Permutation vals (values_of p cells) /\ g d = Some (stat vals)).
Proof.
  intros V S argsort stat xstep ystep x0 y0 nb_x nb_y circular points values grid AS NE L NX H. destruct (box_cells_spec _ points values L H) as (cells & E & LC & N). unfold box_statistic. rewrite E. cbn [bind].
  destruct (C34_grid_box_stat argsort stat nb_x cells grid AS) as (g & G & A). { destruct points; [congruence|]. destruct cells; [discriminate|discriminate]. }
  { intros c I. apply In_nth_error in I as (k & K). pose proof (nth_error_Some_lt _ _ _ K) as KL. destruct (nth_error_lt_Some points k ltac:(lia)) as [p P]. destruct (nth_error_lt_Some values k ltac:(lia)) as [v V']. destruct (N k p v P V') as ([i j] & B & C). rewrite K in C. injection C as ->. cbn [fst].
    unfold box_of in B. set (fi := Qfloor ((fst p - x0) / xstep)) in *. set (fj := Qfloor ((snd p - y0) / ystep)) in *. clearbody fi fj. destruct circular; [injection B as <- <-; apply Z.mod_pos_bound; auto|]. destruct (_ || _) eqn:O in B; [discriminate|]. injection B as <- <-. repeat (apply Bool.orb_false_elim in O as [O ?]). lia. }
  exists g, cells. auto.
Qed.
Print Assumptions C34_box_statistic.
Example C34_box_statistic_ex :
  exists g, box_statistic zargsort (fun l : list Z => l) 1 1 0 0 3 3 true [(1 # 2, 1 # 2); (7 # 2, 1 # 2); (5 # 2, 3 # 2)]%Q [1; 2; 3]%Z (fun _ => None) = Some g /\ g (0, 0)%Z = None /\ g (2, 1)%Z = Some [1; 2]%Z.
Proof. eexists. split; [reflexivity|]. split; reflexivity. Qed.
(** So a cell does not hold the statistic of its own observations. *)
Theorem C34_own_cell_refuted :
  exists g, grid_box_stat zargsort (fun l : list Z => l) 3%Z [((0, 0), 5%Z); ((1, 0), 6%Z)]%Z (fun _ => None) = Some g /\
    g (0, 0)%Z <> Some [5%Z] /\ g (1, 0)%Z <> Some [6%Z].
Proof. eexists. split; [reflexivity|]. split; discriminate. Qed.

(** C35: the number of edges not above the value, whichever of the two
    algorithms (regular steps or search) is used. *)
Theorem C35_digitize : forall values bins, increasing bins -> 2 <= length bins ->
  numba_digitize values bins = Some (map (fun v => Z.of_nat (edges_below bins v)) values).
Proof. exact digitize_spec. Qed.
Print Assumptions C35_digitize.
Example C35_digitize_ex : numba_digitize [(-1); 1; 3 # 2; 4; 9]%Q [1; 2; 3; 4]%Q = Some [0; 1; 1; 4; 4]%Z /\
  numba_digitize [(-1); 1; 3 # 2; 4; 9]%Q [1; 2; 4]%Q = Some [0; 1; 1; 3; 3]%Z.
Proof. split; reflexivity. Qed.
