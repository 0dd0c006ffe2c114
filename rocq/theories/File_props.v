(** Load and storage of the columns of a dataset. *)
From Coq Require Import String List Arith ZArith Bool QArith Qround Qabs Lia Lqa.
From Verif Require Import Base Qaux Obs_model Obs_proofs NetTab_cache File_model.
Import ListNotations.
Local Close Scope Q_scope.
Local Close Scope string_scope.
Local Open Scope list_scope.
Local Open Scope nat_scope.

(** ** C111 *)
Section Rows.
Context {A : Type}.
Variables (zero : A) (conv : A -> A).
(** Rows [start], ..., [stop - 1] of a column, without those after its end. *)
Definition rows_between (col : list A) (start stop : nat) : list A := firstn (stop - start) (skipn start col).
(** The slice asked for begins at [start] and ends before [stop]. *)
Definition asks (sl : obs_slice) (start stop : nat) : Prop :=
  (sl_start sl = Some (Z.of_nat start) \/ sl_start sl = None /\ start = 0) /\ sl_stop sl = Some (Z.of_nat stop).

Lemma clip_pos : forall n k, clip n (Z.of_nat k) = Nat.min k n.
Proof. intros. unfold clip. destruct (Z.ltb_spec (Z.of_nat k) 0); [lia|]. rewrite Nat2Z.id. reflexivity. Qed.
Lemma length_rows : forall (col : list A) a b, length (rows_between col a b) = Nat.min (b - a) (length col - a).
Proof. intros. unfold rows_between. rewrite firstn_length, skipn_length. reflexivity. Qed.
Lemma nth_rows : forall (col : list A) a b k, nth_error (rows_between col a b) k = if k <? b - a then nth_error col (a + k) else None.
Proof. intros. apply (NetTab_cache.nth_slice_ col a b k). Qed.
Lemma firstn_more : forall (l : list A) p b, firstn p l ++ rows_between l p (p + b) = firstn (p + b) l.
Proof.
  intros. unfold rows_between. replace (p + b - p) with b by lia. rewrite <- (firstn_skipn p (firstn (p + b) l)). rewrite firstn_firstn, Nat.min_l by lia. f_equal. rewrite skipn_firstn_comm. f_equal. lia.
Qed.
Lemma skipn_skip : forall (l : list A) a b, skipn a (skipn b l) = skipn (a + b) l.
Proof.
  intros l a b. apply nth_error_ext. intros k. rewrite !Obs_proofs.nth_skipn. f_equal. lia.
Qed.

Lemma block_data : forall (col : list A) start stop p b, start <= length col ->
  pyslice col (Some (Z.of_nat (start + p))) (Some (Z.min (Z.of_nat (start + p) + Z.of_nat b) (Z.of_nat stop))) = rows_between (rows_between col start stop) p (p + b).
Proof.
  intros col start stop p b H. unfold pyslice. cbn [start_of stop_of]. replace (Z.min (Z.of_nat (start + p) + Z.of_nat b) (Z.of_nat stop)) with (Z.of_nat (Nat.min (start + p + b) stop)) by lia. rewrite !clip_pos.
  apply nth_error_ext. intros k. rewrite NetTab_cache.nth_slice_, !nth_rows. replace (p + b - p) with b by lia.
  destruct (Nat.ltb_spec k (Nat.min (Nat.min (start + p + b) stop) (length col) - Nat.min (start + p) (length col))) as [L|L].
  - destruct (Nat.ltb_spec k b); [|lia]. destruct (Nat.ltb_spec (p + k) (stop - start)); [|lia]. f_equal. lia.
  - destruct (Nat.ltb_spec k b); [|reflexivity]. destruct (Nat.ltb_spec (p + k) (stop - start)); [|reflexivity]. symmetry. apply nth_error_None. lia.
Qed.
Lemma assign_block : forall (cols out : list A) p b, length out = length cols -> firstn p out = map conv (firstn p cols) ->
  exists out', assign out (Some (Z.of_nat p)) (Some (Z.of_nat p + Z.of_nat b)%Z) (map conv (rows_between cols p (p + b))) = Some out' /\ length out' = length cols /\ firstn (p + b) out' = map conv (firstn (p + b) cols).
Proof.
  intros cols out p b L F. unfold assign. cbn [start_of stop_of]. replace (Z.of_nat p + Z.of_nat b)%Z with (Z.of_nat (p + b)) by lia. rewrite !clip_pos. rewrite map_length, length_rows.
  replace (Nat.max (Nat.min p (length out)) (Nat.min (p + b) (length out))) with (Nat.min (p + b) (length out)) by lia.
  replace (p + b - p) with b by lia. destruct (Nat.eqb_spec (Nat.min b (length cols - p)) (Nat.min (p + b) (length out) - Nat.min p (length out))); [|lia].
  eexists. split; [reflexivity|]. set (n := length out) in *.
  assert (P : firstn (Nat.min p n) out = map conv (firstn p cols)). { rewrite <- F. destruct (Nat.le_ge_cases p n) as [Q0|Q0]; [rewrite Nat.min_l by exact Q0; reflexivity|]. rewrite Nat.min_r by exact Q0. unfold n. rewrite firstn_all, firstn_all2 by exact Q0. reflexivity. }
  rewrite P. assert (E : map conv (firstn p cols) ++ map conv (rows_between cols p (p + b)) = map conv (firstn (p + b) cols)) by (rewrite <- map_app, firstn_more; reflexivity). rewrite app_assoc, E. split.
  - rewrite app_length, map_length, firstn_length, skipn_length. fold n. lia.
  - rewrite firstn_app, map_length, firstn_length. rewrite firstn_all2 by (rewrite map_length, firstn_length; lia). rewrite <- app_nil_r. f_equal.
    destruct (Nat.le_ge_cases (p + b) n) as [Q0|Q0]; [replace (p + b - Nat.min (p + b) (length cols)) with 0 by lia; reflexivity|]. rewrite (Nat.min_r (p + b) n) by lia. unfold n. rewrite skipn_all. apply firstn_nil.
Qed.
Lemma copy_blocks_spec : forall (col : list A) start stop b, start <= length col -> forall n p out, length out = length (rows_between col start stop) -> firstn p out = map conv (firstn p (rows_between col start stop)) -> length out <= p + n * b ->
  copy_blocks conv col out (Z.of_nat start) (Z.of_nat stop) (Z.of_nat b) (map (fun k => (Z.of_nat (start + p) + Z.of_nat k * Z.of_nat b)%Z) (seq 0 n)) = Some (map conv (rows_between col start stop)).
Proof.
  intros col start stop b H. induction n as [|n IH]; intros p out L F N.
  - cbn. f_equal. rewrite firstn_all2 in F by lia. rewrite F, firstn_all2 by lia. reflexivity.
  - cbn [seq map copy_blocks]. cbn [Z.of_nat Z.mul]. rewrite Z.add_0_r. rewrite block_data by exact H. replace (Z.of_nat (start + p) - Z.of_nat start)%Z with (Z.of_nat p) by lia.
    destruct (assign_block (rows_between col start stop) out p b L F) as (out' & E & L' & F'). rewrite E. cbn [bind]. rewrite <- seq_shift, map_map. rewrite <- (IH (p + b) out' L' F'); [|cbn in N; lia]. f_equal. apply map_ext. intros k. lia.
Qed.
Lemma div_up : forall a b, (0 < b)%Z -> (a <= (a + b - 1) / b * b)%Z.
Proof. intros a b H. pose proof (Z.div_mod (a + b - 1) b ltac:(lia)). pose proof (Z.mod_pos_bound (a + b - 1) b H). lia. Qed.

(** C111: whatever the size of the blocks, a slice of a zarr file gives its rows, and
    the step is ignored. *)
Theorem C111_zarr : forall (col : list A) sl start stop buffer, asks sl start stop -> start <= stop -> start <= length col -> (0 < buffer)%Z ->
  load_zarr zero conv col (Some sl) buffer = Some (map conv (rows_between col start stop)).
Proof.
  intros col sl start stop buffer [S0 S1] L1 L2 B. unfold load_zarr, load_size, copy_data_to_zarr. rewrite S1. cbn [bind].
  assert (E : (match sl_start sl with Some a => Z.min (Z.of_nat stop) (Z.of_nat (length col)) - a | None => Z.min (Z.of_nat stop) (Z.of_nat (length col)) end = Z.of_nat (Nat.min stop (length col) - start))%Z) by (destruct S0 as [->|[-> ->]]; lia).
  rewrite E. assert (E' : match sl_start sl with Some a => a | None => 0%Z end = Z.of_nat start) by (destruct S0 as [->|[-> ->]]; reflexivity). rewrite E'.
  unfold zeros. destruct (Z.ltb_spec (Z.of_nat (Nat.min stop (length col) - start)) 0); [lia|]. cbn [bind]. destruct (Z.leb_spec buffer 0); [lia|]. rewrite Nat2Z.id. unfold range_step.
  replace buffer with (Z.of_nat (Z.to_nat buffer)) by lia. set (b := Z.to_nat buffer) in *.
  set (n := Z.to_nat ((Z.of_nat stop - Z.of_nat start + Z.of_nat b - 1) / Z.of_nat b)).
  pose proof (copy_blocks_spec col start stop b L2 n 0 (repeat zero (Nat.min stop (length col) - start))) as X. rewrite Nat.add_0_r in X. apply X; clear X.
  - rewrite repeat_length, length_rows. lia.
  - reflexivity.
  - rewrite repeat_length. pose proof (div_up (Z.of_nat stop - Z.of_nat start) (Z.of_nat b) ltac:(lia)) as D. assert (0 <= (Z.of_nat stop - Z.of_nat start + Z.of_nat b - 1) / Z.of_nat b)%Z by (apply Z.div_pos; lia).
    assert (Z.of_nat (n * b) = ((Z.of_nat stop - Z.of_nat start + Z.of_nat b - 1) / Z.of_nat b * Z.of_nat b)%Z) by (rewrite Nat2Z.inj_mul; unfold n; rewrite Z2Nat.id by assumption; reflexivity). lia.
Qed.
Theorem C111_zarr_all : forall (col : list A) buffer, (0 < buffer)%Z -> load_zarr zero conv col None buffer = Some (map conv col).
Proof.
  intros col buffer B. pose proof (C111_zarr col (ObsSlice None (Some (Z.of_nat (length col))) None) 0 (length col) buffer (conj (or_intror (conj eq_refl eq_refl)) eq_refl) ltac:(lia) ltac:(lia) B) as H.
  unfold rows_between in H. cbn [skipn] in H. rewrite firstn_all2 in H by lia. rewrite <- H. unfold load_zarr, load_size. cbn [sl_start sl_stop bind]. rewrite Z.min_id. reflexivity.
Qed.
Lemma assign_all : forall (out v : list A), length v = length out -> assign out None None v = Some v.
Proof.
  intros out v L. unfold assign. cbn [start_of stop_of]. rewrite Nat.max_r by lia. rewrite Nat.sub_0_r, L, Nat.eqb_refl. cbn [firstn]. rewrite skipn_all, app_nil_r. reflexivity.
Qed.
Lemma pyslice_rows : forall (col : list A) a start stop, (a = Some (Z.of_nat start) \/ a = None /\ start = 0) -> start <= length col -> pyslice col a (Some (Z.of_nat stop)) = rows_between col start (Nat.min stop (length col)).
Proof.
  intros col a start stop S0 L. unfold pyslice. cbn [stop_of]. rewrite clip_pos. replace (start_of (length col) a) with start; [reflexivity|]. destruct S0 as [->|[-> ->]]; cbn [start_of]; [rewrite clip_pos; lia|reflexivity].
Qed.
(** C111: the same for netcdf files when the slice has no step. *)
Theorem C111_netcdf : forall (col : list A) sl start stop, asks sl start stop -> sl_step sl = None -> start <= stop -> start <= length col ->
  load_netcdf zero conv col (Some sl) = Some (map conv (rows_between col start stop)).
Proof.
  intros col sl start stop [S0 S1] ST L1 L2. unfold load_netcdf, load_size. rewrite S1. cbn [bind].
  assert (E : (match sl_start sl with Some a => Z.min (Z.of_nat stop) (Z.of_nat (length col)) - a | None => Z.min (Z.of_nat stop) (Z.of_nat (length col)) end = Z.of_nat (Nat.min stop (length col) - start))%Z) by (destruct S0 as [->|[-> ->]]; lia).
  rewrite E. unfold zeros. destruct (Z.ltb_spec (Z.of_nat (Nat.min stop (length col) - start)) 0); [lia|]. cbn [bind]. rewrite Nat2Z.id, ST. cbn [bind].
  rewrite (pyslice_rows col _ start stop S0 L2). rewrite assign_all by (rewrite map_length, repeat_length, length_rows; lia). do 2 f_equal.
  apply nth_error_ext. intros k. rewrite !nth_rows. destruct (Nat.ltb_spec k (Nat.min stop (length col) - start)), (Nat.ltb_spec k (stop - start)); try lia; try reflexivity. symmetry. apply nth_error_None. lia.
Qed.
Theorem C111_netcdf_all : forall (col : list A), load_netcdf zero conv col None = Some (map conv col).
Proof.
  intros col. unfold load_netcdf, load_size. cbn [bind]. unfold zeros. destruct (Z.ltb_spec (Z.of_nat (length col)) 0); [lia|]. cbn [bind]. apply assign_all. rewrite map_length, repeat_length, Nat2Z.id. reflexivity.
Qed.
(** C111: without end the load fails, in both formats. *)
Theorem C111_open : forall (col : list A) start step buffer, load_zarr zero conv col (Some (ObsSlice start None step)) buffer = None /\ load_netcdf zero conv col (Some (ObsSlice start None step)) = None.
Proof. split; reflexivity. Qed.
(** C111: in a netcdf file a slice of two rows or more with a step greater than one
    fails, or gives copies of its first row when the step reaches its end. *)
Theorem C111_step : forall (col : list A) sl start stop step, asks sl start stop -> sl_step sl = Some step -> (1 < step)%Z -> start + 2 <= Nat.min stop (length col) ->
  load_netcdf zero conv col (Some sl) =
  (if (Z.of_nat (Nat.min stop (length col) - start) <=? step)%Z then option_map (fun x => repeat (conv x) (Nat.min stop (length col) - start)) (nth_error col start) else None).
Proof.
  intros col sl start stop step [S0 S1] ST SP L. unfold load_netcdf, load_size. rewrite S1. cbn [bind].
  assert (E : (match sl_start sl with Some a => Z.min (Z.of_nat stop) (Z.of_nat (length col)) - a | None => Z.min (Z.of_nat stop) (Z.of_nat (length col)) end = Z.of_nat (Nat.min stop (length col) - start))%Z) by (destruct S0 as [->|[-> ->]]; lia).
  rewrite E. set (n := Nat.min stop (length col) - start) in *. unfold zeros. destruct (Z.ltb_spec (Z.of_nat n) 0); [lia|]. cbn [bind]. rewrite Nat2Z.id, ST. destruct (Z.leb_spec step 0); [lia|]. cbn [bind].
  unfold strided. rewrite (pyslice_rows col _ start stop S0 ltac:(lia)). set (r := rows_between col start (Nat.min stop (length col))).
  assert (LR : length r = n) by (unfold r; rewrite length_rows; lia). rewrite LR. unfold range_step. rewrite Z.sub_0_r.
  assert (GL : forall m z, length (flat_map (fun k => match nth_error r (Z.to_nat k) with Some x => [x] | None => [] end) (map (fun k => (0 + Z.of_nat k * step)%Z) (seq z m))) <= m).
  { induction m as [|m IH]; intros z; [cbn; lia|]. cbn [seq map flat_map]. rewrite app_length. specialize (IH (S z)). destruct (nth_error r _); cbn [length]; lia. }
  set (m := Z.to_nat ((Z.of_nat n + step - 1) / step)). pose proof (GL m 0) as LE.
  assert (MB : (Z.of_nat m * step < Z.of_nat n + step)%Z). { unfold m. rewrite Z2Nat.id by (apply Z.div_pos; lia). pose proof (Z.div_mod (Z.of_nat n + step - 1) step ltac:(lia)). pose proof (Z.mod_pos_bound (Z.of_nat n + step - 1) step ltac:(lia)). lia. }
  destruct (nth_error_lt_Some r 0 ltac:(lia)) as [x X]. assert (X' : nth_error col start = Some x) by (unfold r in X; rewrite nth_rows, Nat.add_0_r in X; destruct (0 <? _); congruence). rewrite X'. cbn [option_map].
  destruct (Z.leb_spec (Z.of_nat n) step) as [C|C].
  - assert (M1 : m = 1). { unfold m. replace ((Z.of_nat n + step - 1) / step)%Z with 1%Z; [reflexivity|]. apply Z.div_unique with (Z.of_nat n - 1)%Z; lia. }
    rewrite M1. cbn [seq map flat_map]. cbn [Z.of_nat Z.mul Z.add Z.to_nat]. rewrite X. cbn [app map]. unfold assign. cbn [start_of stop_of length]. rewrite repeat_length, Nat.max_r by lia. rewrite Nat.sub_0_r. destruct (Nat.eqb_spec 1 n); [lia|]. cbn [firstn app]. rewrite skipn_all2, app_nil_r by (rewrite repeat_length; lia). reflexivity.
  - assert (M2 : 2 <= m). { pose proof (div_up (Z.of_nat n) step ltac:(lia)) as D. unfold m. destruct (Z.le_gt_cases 2 ((Z.of_nat n + step - 1) / step)) as [Y|Y]; [lia|]. exfalso. assert ((Z.of_nat n + step - 1) / step <= 1)%Z by lia. nia. }
    assert (MN : m < n) by nia. set (v := flat_map _ _) in *.
    assert (V2 : 2 <= length v). { unfold v. replace m with (S (S (m - 2))) by lia. cbn [seq map flat_map]. destruct (nth_error_lt_Some r (Z.to_nat (0 + Z.of_nat 0 * step)) ltac:(cbn; lia)) as [y1 ->]. destruct (nth_error_lt_Some r (Z.to_nat (0 + Z.of_nat 1 * step)) ltac:(lia)) as [y2 ->]. cbn [app length]. lia. }
    unfold assign. cbn [start_of stop_of]. rewrite repeat_length, Nat.max_r by lia. rewrite Nat.sub_0_r, map_length. destruct (Nat.eqb_spec (length v) n); [lia|]. destruct v as [|v0 [|v1 v]]; cbn in V2; try lia. reflexivity.
Qed.
(** C111: the slice of the last row counted from the end gives one copy of this row
    per row of the file and one more, in both formats. *)
Theorem C111_negative_refuted : forall (col : list A) x buffer, (Z.of_nat (length col) < buffer)%Z ->
  let sl := ObsSlice (Some (-1)%Z) (Some (Z.of_nat (length (col ++ [x])))) None in
  load_netcdf zero conv (col ++ [x]) (Some sl) = Some (repeat (conv x) (length col + 2)) /\
  load_zarr zero conv (col ++ [x]) (Some sl) (buffer + 1) = Some (repeat (conv x) (length col + 2)).
Proof.
  intros col x buffer B sl. assert (LN : length (col ++ [x]) = length col + 1) by (rewrite app_length; reflexivity).
  assert (SL : forall b, (Z.of_nat (length col + 1) <= b)%Z -> pyslice (col ++ [x]) (Some (-1)%Z) (Some b) = [x]).
  { intros b H. unfold pyslice. cbn [start_of stop_of]. rewrite LN. unfold clip. destruct (Z.ltb_spec (-1) 0); [|lia]. destruct (Z.ltb_spec b 0); [lia|]. rewrite Nat.min_r by lia. replace (Z.to_nat (Z.max 0 (-1 + Z.of_nat (length col + 1)))) with (length col) by lia. unfold slice. replace (length col + 1 - length col) with 1 by lia. rewrite skipn_app, skipn_all, Nat.sub_diag. reflexivity. }
  assert (AS : forall b, (Z.of_nat (length col) + 2 <= b)%Z -> assign (repeat zero (length col + 2)) (Some 0%Z) (Some b) [conv x] = Some (repeat (conv x) (length col + 2))).
  { intros b H. unfold assign. cbn [start_of stop_of]. rewrite repeat_length. unfold clip. destruct (Z.ltb_spec 0 0); [lia|]. destruct (Z.ltb_spec b 0); [lia|]. replace (Nat.min (Z.to_nat 0) (length col + 2)) with 0 by lia. rewrite Nat.max_r by lia. rewrite Nat.min_r by lia. rewrite Nat.sub_0_r. cbn [length]. destruct (Nat.eqb_spec 1 (length col + 2)); [lia|]. cbn [firstn app]. rewrite skipn_all2, app_nil_r by (rewrite repeat_length; lia). reflexivity. }
  unfold load_netcdf, load_zarr, load_size, sl. cbn [sl_start sl_stop sl_step bind]. rewrite Z.min_id, LN. unfold zeros. destruct (Z.ltb_spec (Z.of_nat (length col + 1) - -1) 0); [lia|]. cbn [bind]. replace (Z.to_nat (Z.of_nat (length col + 1) - -1)) with (length col + 2) by lia. split.
  - rewrite SL by lia. cbn [map]. rewrite <- (AS (Z.of_nat (length col) + 2)%Z ltac:(lia)). unfold assign. cbn [start_of stop_of]. rewrite repeat_length. unfold clip. destruct (Z.ltb_spec 0 0); [lia|]. destruct (Z.ltb_spec (Z.of_nat (length col) + 2) 0); [lia|]. replace (Nat.min (Z.to_nat (Z.of_nat (length col) + 2)) (length col + 2)) with (length col + 2) by lia. reflexivity.
  - unfold copy_data_to_zarr. cbn [sl_start sl_stop]. destruct (Z.leb_spec (buffer + 1) 0); [lia|]. unfold range_step. replace ((Z.of_nat (length col + 1) - -1 + (buffer + 1) - 1) / (buffer + 1))%Z with 1%Z by (apply Z.div_unique with (Z.of_nat (length col) + 1)%Z; lia).
    change (Z.to_nat 1) with 1. cbn [seq map copy_blocks]. change (-1 + Z.of_nat 0 * (buffer + 1))%Z with (-1)%Z. rewrite SL by lia. cbn [map]. change (-1 - -1)%Z with 0%Z. rewrite AS by lia. reflexivity.
Qed.
(** C111: raw values stored by blocks are the same as stored at once. *)
Theorem C111_store : forall (data : list A) bloc, 0 < bloc -> store_raw zero conv data bloc = Some (map conv data).
Proof.
  intros data bloc B. unfold store_raw. destruct (Nat.eqb_spec bloc 0); [lia|].
  assert (G : forall blocks out, store_blocks conv data out bloc blocks = copy_blocks conv data out 0 (Z.of_nat (length data)) (Z.of_nat bloc) (map (fun i => (Z.of_nat (0 + 0) + Z.of_nat i * Z.of_nat bloc)%Z) blocks)).
  { induction blocks as [|i r IH]; intros out; cbn [map store_blocks copy_blocks]; [reflexivity|].
    replace (pyslice data (Some (Z.of_nat (i * bloc))) (Some (Z.of_nat ((i + 1) * bloc)))) with (pyslice data (Some (Z.of_nat (0 + 0) + Z.of_nat i * Z.of_nat bloc)%Z) (Some (Z.min (Z.of_nat (0 + 0) + Z.of_nat i * Z.of_nat bloc + Z.of_nat bloc) (Z.of_nat (length data))))).
    - replace (Z.of_nat (i * bloc)) with (Z.of_nat (0 + 0) + Z.of_nat i * Z.of_nat bloc - 0)%Z by lia. replace (Z.of_nat ((i + 1) * bloc)) with (Z.of_nat (0 + 0) + Z.of_nat i * Z.of_nat bloc - 0 + Z.of_nat bloc)%Z by lia. destruct (assign _ _ _ _) as [o|]; cbn [bind]; [apply IH|reflexivity].
    - unfold pyslice. cbn [start_of stop_of]. replace (Z.of_nat (0 + 0) + Z.of_nat i * Z.of_nat bloc)%Z with (Z.of_nat (i * bloc)) by lia. replace (Z.min (Z.of_nat (i * bloc) + Z.of_nat bloc) (Z.of_nat (length data))) with (Z.of_nat (Nat.min ((i + 1) * bloc) (length data))) by lia. rewrite !clip_pos. rewrite <- Nat.min_assoc, Nat.min_id. reflexivity. }
  rewrite G. assert (R : rows_between data 0 (length data) = data) by (unfold rows_between; cbn [skipn]; rewrite firstn_all2 by lia; reflexivity).
  pose proof (copy_blocks_spec data 0 (length data) bloc ltac:(lia) ((length data + bloc - 1) / bloc) 0 (repeat zero (length data))) as X. rewrite R, repeat_length in X. apply X; [reflexivity|reflexivity|].
  pose proof (Nat.div_mod (length data + bloc - 1) bloc ltac:(lia)). pose proof (Nat.mod_upper_bound (length data + bloc - 1) bloc ltac:(lia)). lia.
Qed.
End Rows.
Print Assumptions C111_zarr.
Print Assumptions C111_zarr_all.
Print Assumptions C111_netcdf.
Print Assumptions C111_netcdf_all.
Print Assumptions C111_open.
Print Assumptions C111_step.
Print Assumptions C111_negative_refuted.
Print Assumptions C111_store.
Example C111_zarr_ex : asks (ObsSlice (Some 2%Z) (Some 9%Z) (Some 3%Z)) 2 9 /\ load_zarr 0 S [10; 20; 30; 40; 50; 60; 70] (Some (ObsSlice (Some 2%Z) (Some 9%Z) (Some 3%Z))) 2 = Some [31; 41; 51; 61; 71] /\
  load_netcdf 0 S [10; 20; 30; 40; 50; 60; 70] (Some (ObsSlice (Some 2%Z) (Some 9%Z) None)) = Some [31; 41; 51; 61; 71] /\
  load_netcdf 0 S [10; 20; 30; 40; 50; 60; 70] (Some (ObsSlice (Some 2%Z) (Some 9%Z) (Some 3%Z))) = None /\
  load_netcdf 0 S [10; 20; 30; 40; 50; 60; 70] (Some (ObsSlice (Some 2%Z) (Some 9%Z) (Some 5%Z))) = Some [31; 31; 31; 31; 31] /\
  store_raw 0 S [10; 20; 30; 40; 50; 60; 70] 3 = Some [11; 21; 31; 41; 51; 61; 71].
Proof. vm_compute. repeat split; auto. Qed.

(** ** C112 *)
Lemma around_bounds : forall x, (inject_Z (around x) - (1#2) <= x /\ x <= inject_Z (around x) + (1#2))%Q.
Proof.
  intros x. unfold around. destruct (Qfloor_bounds x) as [A B]. destruct (Qlt_bool (x - inject_Z (Qfloor x)) (1#2)) eqn:C; [apply Qlt_bool_iff in C; split; lra|apply Qlt_bool_false in C].
  destruct (Qlt_bool (1#2) (x - inject_Z (Qfloor x))) eqn:D; [apply Qlt_bool_iff in D|apply Qlt_bool_false in D]; [|destruct (Z.even (Qfloor x))]; rewrite ?inject_Z_plus; change (inject_Z 1) with 1%Q; split; lra.
Qed.
Lemma around_mono : forall x y, (x <= y)%Q -> (around x <= around y)%Z.
Proof.
  intros x y H. pose proof (Qfloor_resp_le x y H) as F. assert (U : forall z, (Qfloor z <= around z <= Qfloor z + 1)%Z). { intros z. unfold around. destruct (Qlt_bool _ _); [lia|]. destruct (Qlt_bool _ _); [lia|]. destruct (Z.even _); lia. }
  pose proof (U x). pose proof (U y). destruct (Z.eq_dec (Qfloor x) (Qfloor y)) as [E|E]; [|lia]. unfold around. rewrite <- E. set (z := Qfloor x).
  destruct (Qlt_bool (x - inject_Z z) (1#2)) eqn:C1; [apply Qlt_bool_iff in C1|apply Qlt_bool_false in C1]; destruct (Qlt_bool (y - inject_Z z) (1#2)) eqn:C2; [apply Qlt_bool_iff in C2|apply Qlt_bool_false in C2|apply Qlt_bool_iff in C2|apply Qlt_bool_false in C2]; try lia.
  - destruct (Qlt_bool (1#2) (y - inject_Z z)); [lia|]. destruct (Z.even z); lia.
  - exfalso. lra.
  - destruct (Qlt_bool (1#2) (x - inject_Z z)) eqn:D1; [apply Qlt_bool_iff in D1|apply Qlt_bool_false in D1]; destruct (Qlt_bool (1#2) (y - inject_Z z)) eqn:D2; [apply Qlt_bool_iff in D2|apply Qlt_bool_false in D2|apply Qlt_bool_iff in D2|apply Qlt_bool_false in D2]; try lia; try (exfalso; lra). destruct (Z.even z); lia.
Qed.
Lemma around_eq : forall x y, (x == y)%Q -> around x = around y.
Proof. intros x y H. apply Z.le_antisymm; apply around_mono; lra. Qed.
Lemma around_Z : forall k, around (inject_Z k) = k.
Proof. intros k. unfold around. rewrite Qfloor_Z. replace (Qlt_bool (inject_Z k - inject_Z k) (1#2)) with true; [reflexivity|]. symmetry. apply Qlt_bool_iff. lra. Qed.
Lemma trunc_Z : forall x k, (x == inject_Z k)%Q -> trunc x = k.
Proof. intros x k H. unfold trunc. destruct (Qle_bool 0 x); [rewrite (Qfloor_comp _ _ H); apply Qfloor_Z|rewrite (Qceiling_comp _ _ H); unfold Qceiling; rewrite <- inject_Z_opp, Qfloor_Z; lia]. Qed.
Lemma fits_some : forall p k, (low p <= k <= high p)%Z -> fits p k = Some k.
Proof. intros p k [A B]. unfold fits. rewrite (proj2 (Z.leb_le _ _) A), (proj2 (Z.leb_le _ _) B). reflexivity. Qed.
Lemma fits_inv : forall p k j, fits p k = Some j -> j = k /\ (low p <= k <= high p)%Z.
Proof. intros p k j H. unfold fits in H. destruct (Z.leb_spec (low p) k), (Z.leb_spec k (high p)); cbn in H; try discriminate. injection H as <-. auto. Qed.

(** The integer [k] of the file stands for this value. *)
Definition stands_for (p : packing) (s : Q) (k : Z) : Q := (inject_Z k * s + off p)%Q.
(** Values which round to an integer between the bounds of the type. *)
Definition in_reach (p : packing) (s x : Q) : Prop := (stands_for p s (low p) - (1#2) * s < x /\ x < stands_for p s (high p) + (1#2) * s)%Q.

Lemma plain_value : forall f p s x, scale p = Some s -> (0 < s)%Q -> write_value f false p x = fits p (around ((x - off p) / s)).
Proof.
  intros f p s x E S0. unfold write_value. rewrite E. destruct f; [reflexivity|]. f_equal. apply around_eq. unfold Qdiv at 1. field. lra.
Qed.
Lemma plain_read : forall f factor p s k, scale p = Some s -> (0 < s)%Q -> (read_value f false factor p k == stands_for p s k * factor)%Q.
Proof.
  intros f factor p s k E S0. unfold read_value, stands_for. rewrite E. destruct f; [reflexivity|]. assert (X : (inject_Z k / (1 / s) == inject_Z k * s)%Q) by (field; lra). rewrite X. reflexivity.
Qed.
(** C112: a value in reach is stored as the nearest multiple of the scale and read
    back at most half a scale away. *)
Theorem C112_nearest : forall f g p s x, scale p = Some s -> (0 < s)%Q -> in_reach p s x ->
  exists k, write_value f false p x = Some k /\ (low p <= k <= high p)%Z /\ (Qabs (read_value g false 1 p k - x) <= (1#2) * s)%Q.
Proof.
  intros f g p s x E S0 [R1 R2]. rewrite (plain_value f p s x E S0). unfold stands_for in R1, R2. set (k := around ((x - off p) / s)). destruct (around_bounds ((x - off p) / s)) as [A B]. fold k in A, B.
  assert (X : (x == (x - off p) / s * s + off p)%Q) by (field; lra). set (q := ((x - off p) / s)%Q) in *.
  assert (K1 : (low p <= k)%Z). { destruct (Z.le_gt_cases (low p) k) as [Y|Y]; [exact Y|exfalso]. assert (Y' : (k + 1 <= low p)%Z) by lia. rewrite Zle_Qle, inject_Z_plus in Y'. change (inject_Z 1) with 1%Q in Y'. assert (Z1 : (q <= inject_Z (low p) - (1#2))%Q) by lra. assert (q * s <= (inject_Z (low p) - (1#2)) * s)%Q by (apply Qmult_le_compat_r; lra). lra. }
  assert (K2 : (k <= high p)%Z). { destruct (Z.le_gt_cases k (high p)) as [Y|Y]; [exact Y|exfalso]. assert (Y' : (high p + 1 <= k)%Z) by lia. rewrite Zle_Qle, inject_Z_plus in Y'. change (inject_Z 1) with 1%Q in Y'. assert (Z1 : (inject_Z (high p) + (1#2) <= q)%Q) by lra. assert ((inject_Z (high p) + (1#2)) * s <= q * s)%Q by (apply Qmult_le_compat_r; lra). lra. }
  exists k. split; [apply fits_some; auto|]. split; [auto|]. rewrite (plain_read g 1 p s k E S0). unfold stands_for.
  assert (M1 : ((inject_Z k - (1#2)) * s <= q * s)%Q) by (apply Qmult_le_compat_r; lra). assert (M2 : (q * s <= (inject_Z k + (1#2)) * s)%Q) by (apply Qmult_le_compat_r; lra). apply Qabs_Qle_condition. split; lra.
Qed.
(** C112: a value read from a file is stored again as the same integer, in both formats. *)
Theorem C112_again : forall f g p s k, scale p = Some s -> (0 < s)%Q -> (low p <= k <= high p)%Z -> write_value f false p (read_value g false 1 p k) = Some k.
Proof.
  intros f g p s k E S0 K. rewrite (plain_value f p s _ E S0). rewrite (around_eq _ (inject_Z k)); [rewrite around_Z; apply fits_some; exact K|]. rewrite (plain_read g 1 p s k E S0). unfold stands_for. field. lra.
Qed.
(** C112: the order is kept. *)
Theorem C112_order : forall f g p s x y j k, scale p = Some s -> (0 < s)%Q -> (x <= y)%Q -> write_value f false p x = Some j -> write_value f false p y = Some k -> (j <= k)%Z /\ (read_value g false 1 p j <= read_value g false 1 p k)%Q.
Proof.
  intros f g p s x y j k E S0 H J K. rewrite (plain_value f p s x E S0) in J. rewrite (plain_value f p s y E S0) in K. apply fits_inv in J as [-> _]. apply fits_inv in K as [-> _].
  assert (M : (around ((x - off p) / s) <= around ((y - off p) / s))%Z). { apply around_mono. unfold Qdiv. apply Qmult_le_compat_r; [lra|]. apply Qlt_le_weak, Qinv_lt_0_compat, S0. }
  split; [exact M|]. rewrite !(plain_read g 1 p s _ E S0). unfold stands_for. rewrite Zle_Qle in M. assert (inject_Z (around ((x - off p) / s)) * s <= inject_Z (around ((y - off p) / s)) * s)%Q by (apply Qmult_le_compat_r; lra). lra.
Qed.
(** C112: raw values are the integers of the file, when written and when read with the
    unit of the software. *)
Theorem C112_raw : forall f p s k, scale p = Some s -> (0 < s)%Q -> (low p <= k <= high p)%Z -> write_value f true p (inject_Z k) = Some k /\ read_value f true 1 p k = inject_Z k.
Proof.
  intros f p s k E S0 K. unfold write_value, read_value. rewrite E. destruct f.
  - split; [|reflexivity]. rewrite (trunc_Z _ k) by reflexivity. apply fits_some, K.
  - split.
    + rewrite (around_eq _ (inject_Z k)); [rewrite around_Z; apply fits_some, K|]. field. lra.
    + f_equal. apply trunc_Z. unfold off. destruct (offset p); field; lra.
Qed.
(** C112: variables without scale are stored as they are. *)
Theorem C112_unpacked : forall f g raw raw' p k, scale p = None -> offset p = None -> (low p <= k <= high p)%Z -> write_value f raw p (inject_Z k) = Some k /\ (read_value g raw' 1 p k == inject_Z k)%Q.
Proof.
  intros f g raw raw' p k E O K. unfold write_value, read_value. rewrite E, O. split; [destruct f; rewrite (trunc_Z _ k) by reflexivity; apply fits_some, K|].
  destruct g, raw'; try reflexivity; try ring. rewrite (trunc_Z _ k) by ring. reflexivity.
Qed.
(** C112: with other units in the file, raw values of zarr are changed and those of
    netcdf are not. *)
Theorem C112_raw_units_refuted : forall p s k factor, scale p = Some s -> (0 < s)%Q -> offset p = None -> read_value Netcdf true factor p k = inject_Z k /\ read_value Zarr true factor p k = inject_Z (trunc (inject_Z k * factor)).
Proof.
  intros p s k factor E S0 O. unfold read_value, off. rewrite E, O. split; [reflexivity|]. f_equal. unfold trunc.
  assert (X : ((inject_Z k / (1 / s) + 0) * factor / s == inject_Z k * factor)%Q) by (field; lra).
  rewrite (Qfloor_comp _ _ X), (Qceiling_comp _ _ X). destruct (Qle_bool 0 _) eqn:A, (Qle_bool 0 (inject_Z k * factor)) eqn:B; try reflexivity; exfalso.
  - apply Qle_bool_iff in A. apply Qle_bool_false in B. lra.
  - apply Qle_bool_iff in B. apply Qle_bool_false in A. lra.
Qed.
Print Assumptions C112_nearest.
Print Assumptions C112_again.
Print Assumptions C112_order.
Print Assumptions C112_raw.
Print Assumptions C112_unpacked.
Print Assumptions C112_raw_units_refuted.
(** Longitude of contours: hundredths of degrees around 180 on two signed bytes. *)
Definition contour_lon := Packing (Some (1#100)%Q) (Some 180%Q) (-32768) 32767.
Example C112_ex : in_reach contour_lon (1#100) (359987#1000) /\ write_value Zarr false contour_lon (359987#1000) = Some 17999%Z /\ (read_value Netcdf false 1 contour_lon 17999 == 35999#100)%Q /\
  write_value Netcdf false contour_lon (-150) = None.
Proof. split; [split; vm_compute; reflexivity|]. vm_compute. auto. Qed.

(** ** C113 *)
(** C113: the rotation of a dataset is read back from its file, in both formats, and
    agrees with the name of the file. *)
Theorem C113_sign : forall f k s, s = 1%Z \/ s = (-1)%Z -> exists r, write_sign f k (Some s) = Some r /\ read_sign f None r = Some s /\ (forall t, title r = Some t -> t = sign_legend (Some s)).
Proof.
  intros f k s [->| ->]; destruct f, k; (eexists; split; [reflexivity|]; split; [reflexivity|]; intros t H; cbn in H; try discriminate; injection H as <-; reflexivity).
Qed.
(** C113: a column of rotations of a netcdf file takes over: the first row gives the
    sign, and no row makes the load fail; a zarr file does not look at it. *)
Theorem C113_column : forall c col r, (c <> 0)%Z -> read_sign Netcdf (Some (c :: col)) r = Some c /\ read_sign Netcdf (Some []) r = None /\ forall tc, read_sign Zarr tc r = read_sign Zarr None r.
Proof. intros c col r H. cbn. destruct (Z.eqb_spec c 0); [contradiction|]. auto. Qed.
(** C113: tracks whose rotation is unknown are named cyclonic and read back as anticyclonic. *)
Theorem C113_unknown_refuted : forall s, s = None \/ s = Some 0%Z -> exists r, write_sign Netcdf Tracks s = Some r /\ read_sign Netcdf None r = Some 1%Z /\ sign_legend s = "Cyclonic"%string.
Proof. intros s [->| ->]; eexists; (split; [reflexivity|]; split; reflexivity). Qed.
Print Assumptions C113_sign.
Print Assumptions C113_column.
Print Assumptions C113_unknown_refuted.
