(** Properties of the kernels of the filters. *)
From Coq Require Import List Arith ZArith QArith Bool Lia.
From Verif Require Import Base Qaux Spec Filt_spec Filt_proofs Kern_model.
Import ListNotations.
Local Close Scope Q_scope.
Local Open Scope nat_scope.

(** Weight at column [a] and line [c] of a half kernel. *)
Definition weight_at (kernel : list (list Q)) (a c : nat) : Q := nth c (nth a kernel []) 0%Q.

Lemma incr_first : forall l a, incr l -> nth_error l 0 = Some a -> forall b, In b l -> a <= b.
Proof. intros l a I N b H. inversion I; subst; [discriminate N|]. injection N as ->. destruct H as [->|H]; [lia|]. apply Nat.lt_le_incl. auto. Qed.
Lemma incr_last : forall l d, incr l -> l <> [] -> In (last l d) l /\ forall b, In b l -> b <= last l d.
Proof.
  intros l d I. induction I as [|a l H I IH]; intros NE; [contradiction|]. destruct l as [|x l]; [cbn; split; [left; reflexivity|intros b [->|[]]; lia]|].
  destruct IH as (I1 & I2); [discriminate|]. change (last (a :: x :: l) d) with (last (x :: l) d). split; [right; exact I1|]. intros b [<-|B]; [|apply I2; exact B]. apply Nat.lt_le_incl. apply H. exact I1.
Qed.
Lemma nonzero_iff : forall q, nonzero q = true <-> ~ (q == 0)%Q.
Proof. intros. unfold nonzero. rewrite negb_true_iff. split; intros H. - intros E. apply Qeq_bool_iff in E. congruence. - destruct (Qeq_bool q 0) eqn:B; [exfalso; apply H; apply Qeq_bool_iff; exact B|reflexivity]. Qed.
Lemma nth_mirror : forall (kernel : list (list Q)) h r, length kernel = h + 1 -> r < 2 * h + 1 ->
  nth r (rev (tl kernel) ++ kernel) [] = nth (Z.to_nat (Z.abs (Z.of_nat r - Z.of_nat h))) kernel [].
Proof.
  intros [|k0 ks] h r L R; [cbn in L; lia|]. cbn [tl length] in *. assert (LK : length ks = h) by lia. destruct (Nat.lt_ge_cases r h) as [H|H].
  - rewrite app_nth1 by (rewrite rev_length; lia). rewrite rev_nth by lia. rewrite LK. replace (Z.to_nat (Z.abs (Z.of_nat r - Z.of_nat h))) with (S (h - S r)) by lia. reflexivity.
  - rewrite app_nth2 by (rewrite rev_length; lia). rewrite rev_length, LK. f_equal. lia.
Qed.
Lemma existsb_nth_true : forall (row : list Q) w, length row = w -> existsb nonzero row = true <-> exists c, c < w /\ ~ (nth c row 0 == 0)%Q.
Proof.
  intros row w L. rewrite existsb_exists. split.
  - intros (q & I & N). apply nonzero_iff in N. destruct (In_nth row q 0%Q I) as (c & C & E). exists c. split; [lia|]. rewrite E. exact N.
  - intros (c & C & N). exists (nth c row 0%Q). split; [apply nth_In; lia|]. apply nonzero_iff. exact N.
Qed.
Section One.
Variables (kernel : list (list Q)) (h w : nat).
Hypothesis L : length kernel = h + 1.
Hypothesis R : forall row, In row kernel -> length row = w.
Let k := rev (tl kernel) ++ kernel.
Lemma k_length : length k = 2 * h + 1.
Proof using L. clear R. unfold k. rewrite app_length, rev_length. clear k. destruct kernel; [cbn in L; lia|]. cbn [tl length] in *. lia. Qed.
Lemma k_row : forall r, r < 2 * h + 1 -> length (nth r k []) = w.
Proof using L R. intros r H. unfold k. rewrite (nth_mirror kernel h r L H). apply R. apply nth_In. lia. Qed.
Lemma k_at : forall r c, r < 2 * h + 1 -> nth c (nth r k []) 0%Q = weight_at kernel (Z.to_nat (Z.abs (Z.of_nat r - Z.of_nat h))) c.
Proof using L. intros r c H. unfold k. rewrite (nth_mirror kernel h r L H). reflexivity. Qed.
Lemma x_valid : forall r, In r (where_ (map (existsb nonzero) k)) <-> r < 2 * h + 1 /\ exists c, c < w /\ ~ (weight_at kernel (Z.to_nat (Z.abs (Z.of_nat r - Z.of_nat h))) c == 0)%Q.
Proof using L R.
  intros r. rewrite In_where, nth_error_map. split.
  - intros N. destruct (nth_error k r) as [row|] eqn:E; [|discriminate N]. cbn [option_map] in N. apply Some_inj in N. pose proof (nth_error_Some_lt _ _ _ E) as H. rewrite k_length in H. split; [exact H|].
    apply (nth_error_nth k r []) in E. subst row. apply (proj1 (existsb_nth_true _ w (k_row r H))) in N. destruct N as (c & C & N). exists c. split; [exact C|]. rewrite <- (k_at r c H). exact N.
  - intros (H & c & C & N). rewrite (nth_error_nth' k []) by (rewrite k_length; exact H). cbn [option_map]. f_equal. apply (proj2 (existsb_nth_true _ w (k_row r H))). exists c. split; [exact C|]. rewrite (k_at r c H). exact N.
Qed.
Lemma y_valid : forall c, In c (where_ (map (fun c => existsb (fun row => nonzero (nth c row 0%Q)) k) (seq 0 w))) <-> c < w /\ exists a, a <= h /\ ~ (weight_at kernel a c == 0)%Q.
Proof using L R.
  intros c. rewrite In_where, nth_error_map, nth_error_seq. split.
  - intros N. destruct (Nat.ltb_spec c w) as [C|]; [|discriminate N]. cbn [option_map Nat.add] in N. apply Some_inj in N. split; [exact C|]. apply existsb_exists in N. destruct N as (row & I & N). apply nonzero_iff in N.
    destruct (In_nth k row [] I) as (r & H & <-). rewrite k_length in H. rewrite (k_at r c H) in N. eexists. split; [|exact N]. lia.
  - intros (C & a & A & N). destruct (Nat.ltb_spec c w); [|lia]. cbn [option_map Nat.add]. f_equal. apply existsb_exists. exists (nth (h + a) k []). split; [apply nth_In; rewrite k_length; lia|]. apply nonzero_iff. rewrite (k_at (h + a) c) by lia. replace (Z.to_nat (Z.abs (Z.of_nat (h + a) - Z.of_nat h))) with a by lia. exact N.
Qed.
End One.

Lemma finalize_spec : forall kernel order hx hy, let h := hx * order in let w := 2 * (hy * order) + 1 in
  length kernel = h + 1 -> (forall row, In row kernel -> length row = w) ->
  (finalize_kernel kernel order hx hy = None <-> forall a c, a <= h -> c < w -> (weight_at kernel a c == 0)%Q) /\
  forall K, finalize_kernel kernel order hx hy = Some K -> exists dx y0 y1, dx <= h /\ y0 <= y1 /\ y1 < w /\
    rect (2 * dx + 1) (y1 + 1 - y0) K /\
    (forall r b, r < 2 * dx + 1 -> b < y1 + 1 - y0 -> nth b (nth r K []) 0%Q = weight_at kernel (Z.to_nat (Z.abs (Z.of_nat r - Z.of_nat dx))) (y0 + b)) /\
    (forall a c, a <= h -> c < w -> ~ (weight_at kernel a c == 0)%Q -> a <= dx /\ y0 <= c <= y1) /\
    (exists c, c < w /\ ~ (weight_at kernel dx c == 0)%Q) /\ (exists a, a <= h /\ ~ (weight_at kernel a y0 == 0)%Q) /\ (exists a, a <= h /\ ~ (weight_at kernel a y1 == 0)%Q).
Proof.
  intros kernel order hx hy h w L R. unfold finalize_kernel. cbv zeta. replace (hy * 2 * order + 1) with w by (unfold w; lia). fold h. rewrite L, Nat.eqb_refl. cbn [negb orb].
  replace (forallb (fun row => length row =? w) kernel) with true by (symmetry; apply forallb_forall; intros row I; apply Nat.eqb_eq; apply R; exact I). cbn [negb].
  clearbody h w. set (k := rev (tl kernel) ++ kernel). set (xv := where_ (map (existsb nonzero) k)). set (yv := where_ (map _ (seq 0 w))).
  assert (XV := x_valid kernel h w L R). fold k in XV. fold xv in XV. assert (YV := y_valid kernel h w L R). fold k in YV. fold yv in YV.
  assert (IX : incr xv) by apply incr_where. assert (IY : incr yv) by apply incr_where. clearbody xv yv.
  destruct (nth_error xv 0) as [x0|] eqn:NX; cbn [bind].
  2:{ split; [|intros K E; discriminate E]. split; [|reflexivity]. intros _ a c A C. destruct (Qeq_dec (weight_at kernel a c) 0) as [Z|N]; [exact Z|]. exfalso.
      assert (I : In (h + a) xv). { apply XV. split; [lia|]. exists c. split; [exact C|]. replace (Z.to_nat (Z.abs (Z.of_nat (h + a) - Z.of_nat h))) with a by lia. exact N. }
      destruct xv; [contradiction|discriminate NX]. }
  assert (X0 : In x0 xv) by exact (nth_error_In _ _ NX). destruct (proj1 (XV x0) X0) as (H0 & c0 & C0 & N0).
  destruct (nth_error yv 0) as [y0|] eqn:NY; cbn [bind].
  2:{ exfalso. assert (I : In c0 yv). { apply YV. split; [exact C0|]. eexists. split; [|exact N0]. lia. } destruct yv; [contradiction|discriminate NY]. }
  split. { split; [intros E; discriminate E|]. intros E. exfalso. apply N0. apply E; lia. }
  intros K E. apply Some_inj in E. subst K.
  assert (Y0 : In y0 yv) by exact (nth_error_In _ _ NY). destruct (incr_last xv 0 IX) as (X1 & MX); [intros ->; discriminate NX|]. destruct (incr_last yv 0 IY) as (Y1 & MY); [intros ->; discriminate NY|].
  set (x1 := last xv 0) in *. set (y1 := last yv 0) in *. clearbody x1 y1. assert (FX := incr_first xv x0 IX NX). assert (FY := incr_first yv y0 IY NY).
  destruct (proj1 (XV x1) X1) as (H1 & c1 & C1 & N1).
  assert (MIR : forall r, In r xv -> In (2 * h - r) xv). { intros r I. apply XV in I. destruct I as (Hr & c & C & N). apply XV. split; [lia|]. exists c. split; [exact C|]. replace (Z.to_nat (Z.abs (Z.of_nat (2 * h - r) - Z.of_nat h))) with (Z.to_nat (Z.abs (Z.of_nat r - Z.of_nat h))) by lia. exact N. }
  assert (B1 := FX _ (MIR _ X1)). assert (B2 := MX _ (MIR _ X0)). assert (B3 := FX _ X1).
  assert (EX1 : x1 = 2 * h - x0) by lia. assert (HX0 : x0 <= h) by lia. exists (h - x0), y0, y1.
  assert (K1 := proj1 (proj1 (YV y1) Y1)). assert (K2 := FY _ Y1). split; [lia|]. split; [exact K2|]. split; [exact K1|].
  assert (LK := k_length kernel h L). fold k in LK.
  split; [|split; [|split; [|split; [|split]]]].
  - split; [rewrite map_length, fslice_length; lia|]. intros row I. apply in_map_iff in I. destruct I as (r & <- & I). rewrite fslice_length.
    destruct (In_nth_error _ _ I) as (j & NJ). rewrite fslice in NJ. destruct (Nat.ltb_spec j (x1 + 1 - x0)); [|discriminate NJ]. pose proof (nth_error_Some_lt _ _ _ NJ) as HJ. apply (nth_error_nth k _ []) in NJ. subst r.
    assert (KR := k_row kernel h w L R (x0 + j)). fold k in KR. rewrite KR by lia. lia.
  - intros r b Hr Hb. rewrite nth_indep with (d' := slice [] y0 (y1 + 1)) by (rewrite map_length, fslice_length; lia). rewrite (map_nth (fun row => slice row y0 (y1 + 1))).
    assert (ES : nth r (slice k x0 (x1 + 1)) [] = nth (x0 + r) k []).
    { assert (N := nth_error_nth' (slice k x0 (x1 + 1)) [] (n := r)). rewrite fslice_length, fslice in N. specialize (N ltac:(lia)). destruct (Nat.ltb_spec r (x1 + 1 - x0)); [|lia]. rewrite (nth_error_nth' k []) in N by lia. apply Some_inj in N. symmetry. exact N. }
    rewrite ES. assert (ES2 : nth b (slice (nth (x0 + r) k []) y0 (y1 + 1)) 0%Q = nth (y0 + b) (nth (x0 + r) k []) 0%Q).
    { set (rw := nth (x0 + r) k []). assert (LR : length rw = w). { unfold rw. assert (KR := k_row kernel h w L R (x0 + r)). fold k in KR. apply KR. lia. }
      assert (N := nth_error_nth' (slice rw y0 (y1 + 1)) 0%Q (n := b)). rewrite fslice_length, fslice in N. specialize (N ltac:(lia)). destruct (Nat.ltb_spec b (y1 + 1 - y0)); [|lia]. rewrite (nth_error_nth' rw 0%Q) in N by lia. apply Some_inj in N. symmetry. exact N. }
    rewrite ES2. assert (KA := k_at kernel h L (x0 + r) (y0 + b)). fold k in KA. rewrite KA by lia. f_equal. lia.
  - intros a c A C N. split.
    + assert (I : In (h - a) xv). { apply XV. split; [lia|]. exists c. split; [exact C|]. replace (Z.to_nat (Z.abs (Z.of_nat (h - a) - Z.of_nat h))) with a by lia. exact N. } specialize (FX _ I). lia.
    + assert (I : In c yv). { apply YV. split; [exact C|]. exists a. split; [exact A|exact N]. } split; [apply FY|apply MY]; exact I.
  - exists c0. split; [exact C0|]. replace (h - x0) with (Z.to_nat (Z.abs (Z.of_nat x0 - Z.of_nat h))) by lia. exact N0.
  - exact (proj2 (proj1 (YV y0) Y0)).
  - exact (proj2 (proj1 (YV y1) Y1)).
Qed.

(** C100: the kernel is the half kernel and its mirror image, without the empty
    columns and lines around: its number of columns is odd, each column is its
    mirror image, no weight is lost and nothing more can be removed. *)
Theorem C100_mirror : forall kernel order hx hy K,
  length kernel = hx * order + 1 -> (forall row, In row kernel -> length row = 2 * (hy * order) + 1) ->
  finalize_kernel kernel order hx hy = Some K -> exists dx y0 y1, dx <= hx * order /\ y0 <= y1 /\ y1 < 2 * (hy * order) + 1 /\
    rect (2 * dx + 1) (y1 + 1 - y0) K /\
    (forall r b, r < 2 * dx + 1 -> b < y1 + 1 - y0 -> nth b (nth r K []) 0%Q = weight_at kernel (Z.to_nat (Z.abs (Z.of_nat r - Z.of_nat dx))) (y0 + b)) /\
    (forall a c, a <= hx * order -> c < 2 * (hy * order) + 1 -> ~ (weight_at kernel a c == 0)%Q -> a <= dx /\ y0 <= c <= y1) /\
    (exists c, c < 2 * (hy * order) + 1 /\ ~ (weight_at kernel dx c == 0)%Q) /\ (exists a, a <= hx * order /\ ~ (weight_at kernel a y0 == 0)%Q) /\ (exists a, a <= hx * order /\ ~ (weight_at kernel a y1 == 0)%Q).
Proof. intros kernel order hx hy K L R E. exact (proj2 (finalize_spec kernel order hx hy L R) K E). Qed.
Print Assumptions C100_mirror.
(** C100: it fails only when all the weights are zero. *)
Theorem C100_empty : forall kernel order hx hy,
  length kernel = hx * order + 1 -> (forall row, In row kernel -> length row = 2 * (hy * order) + 1) ->
  (finalize_kernel kernel order hx hy = None <-> forall a c, a <= hx * order -> c < 2 * (hy * order) + 1 -> (weight_at kernel a c == 0)%Q).
Proof. intros kernel order hx hy L R. exact (proj1 (finalize_spec kernel order hx hy L R)). Qed.
Print Assumptions C100_empty.
(** C100: when the empty lines are the same on both sides of the centre, the
    kernel is centred and of odd size as the filter needs it: the weight at [a]
    columns and [b] lines from the centre is the one of the half kernel. *)
Theorem C100_centred : forall kernel order hx hy K,
  length kernel = hx * order + 1 -> (forall row, In row kernel -> length row = 2 * (hy * order) + 1) ->
  (forall c, c < 2 * (hy * order) + 1 -> (exists a, a <= hx * order /\ ~ (weight_at kernel a c == 0)%Q) -> exists a, a <= hx * order /\ ~ (weight_at kernel a (2 * (hy * order) - c) == 0)%Q) ->
  (exists a c, 1 <= a <= hx * order /\ c < 2 * (hy * order) + 1 /\ ~ (weight_at kernel a c == 0)%Q) ->
  finalize_kernel kernel order hx hy = Some K ->
  exists dx dy, odd_kernel K dx dy /\ dy <= hy * order /\
    forall a b, (- Z.of_nat dx <= a <= Z.of_nat dx)%Z -> (- Z.of_nat dy <= b <= Z.of_nat dy)%Z ->
      weight K dx dy a b = weight_at kernel (Z.to_nat (Z.abs a)) (Z.to_nat (Z.of_nat (hy * order) + b)) /\ weight K dx dy (- a) b = weight K dx dy a b.
Proof.
  intros kernel order hx hy K L R HS (a0 & c0 & A0 & C0 & N0) E. destruct (C100_mirror kernel order hx hy K L R E) as (dx & y0 & y1 & D & Y & Y1 & RK & W & ALL & _ & EY0 & EY1).
  set (h := hx * order) in *. set (v := hy * order) in *. clearbody h v.
  destruct (ALL a0 c0 ltac:(lia) C0 N0) as (B & _).
  assert (S0 : y0 + y1 = 2 * v).
  { destruct (HS y0 ltac:(lia) EY0) as (a & A & N). destruct (ALL a (2 * v - y0) A ltac:(lia) N) as (_ & B1). destruct (HS y1 Y1 EY1) as (a' & A' & N'). destruct (ALL a' (2 * v - y1) A' ltac:(lia) N') as (_ & B2). lia. }
  exists dx, (v - y0). replace (y1 + 1 - y0) with (2 * (v - y0) + 1) in RK, W by lia. split; [split; [lia|exact RK]|]. split; [lia|].
  assert (WW : forall a b, (- Z.of_nat dx <= a <= Z.of_nat dx)%Z -> (- Z.of_nat (v - y0) <= b <= Z.of_nat (v - y0))%Z -> weight K dx (v - y0) a b = weight_at kernel (Z.to_nat (Z.abs a)) (Z.to_nat (Z.of_nat v + b))).
  { intros a b Ha Hb. unfold weight. rewrite W by lia. f_equal; lia. }
  intros a b Ha Hb. split; [apply WW; assumption|]. rewrite !WW by (assumption || lia). rewrite Z.abs_opp. reflexivity.
Qed.
Print Assumptions C100_centred.
Example C100_ex : let kernel := [[0; 1; 5; 1; 0]; [0; 0; 2; 0; 0]; [0; 0; 0; 0; 0]]%Q in
  finalize_kernel kernel 1 2 2 = Some [[0; 2; 0]; [1; 5; 1]; [0; 2; 0]]%Q /\ finalize_kernel [[0; 0; 0]; [0; 0; 0]]%Q 1 1 1 = None.
Proof. split; reflexivity. Qed.
(** C100: with other kernels the lines removed on one side move the centre: the
    largest weight, at distance zero, is not at the centre of the kernel. *)
Theorem C100_shift_refuted : exists kernel K, length kernel = 2 * 1 + 1 /\ (forall row, In row kernel -> length row = 2 * (2 * 1) + 1) /\ finalize_kernel kernel 1 2 2 = Some K /\ odd_kernel K 1 1 /\ weight_at kernel 0 2 = 9%Q /\ weight K 1 1 0 0 = 4%Q.
Proof.
  exists [[0; 0; 9; 4; 1]; [0; 0; 1; 0; 0]; [0; 0; 0; 0; 0]]%Q. eexists. split; [reflexivity|]. split; [intros row [<-|[<-|[<-|[]]]]; reflexivity|]. split; [vm_compute; reflexivity|].
  split; [split; [lia|split; [reflexivity|]]; intros row [<-|[<-|[<-|[]]]]; reflexivity|]. split; reflexivity.
Qed.
Print Assumptions C100_shift_refuted.
