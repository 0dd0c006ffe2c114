From Coq Require Import List Arith ZArith QArith Qround Qabs Bool Lia Lqa.
From Verif Require Import Base Qaux Corr_model Split_model TrackObs_more Split_net Grp_tracks Grp_more Grid_model Grid_spec.
Import ListNotations.
Local Close Scope Q_scope.
Local Open Scope nat_scope.

(** ** Bounds *)
Lemma half_of : forall x, (x / 2 == x * (1 # 2))%Q.
Proof. intros. reflexivity. Qed.
Lemma length_diffs : forall b, length (diffs b) = length b - 1.
Proof. intros b. induction b as [|x [|y b] IH]; [reflexivity|reflexivity|]. change (diffs (x :: y :: b)) with ((y - x)%Q :: diffs (y :: b)). cbn [length] in *. rewrite IH. lia. Qed.
Lemma at_diffs : forall b i, S i < length b -> at_ (diffs b) i = (at_ b (S i) - at_ b i)%Q.
Proof.
  intros b. induction b as [|x [|y b] IH]; intros i L; [cbn in L; lia|cbn in L; lia|].
  change (diffs (x :: y :: b)) with ((y - x)%Q :: diffs (y :: b)). destruct i as [|i]; [reflexivity|].
  cbn [length] in *. unfold at_ in *. cbn [nth]. rewrite IH; [reflexivity|lia].
Qed.
Lemma length_sub_half : forall b d, length (sub_half b d) = length b.
Proof. intros b. induction b as [|x b IH]; intros [|y d]; cbn; auto. Qed.
Lemma at_sub_half : forall b d i, at_ (sub_half b d) i = (if (i <? length b) && (i <? length d) then at_ b i - at_ d i / 2 else at_ b i)%Q.
Proof.
  intros b. induction b as [|x b IH]; intros d i; [destruct i; reflexivity|].
  destruct d as [|y d]; [cbn [sub_half length]; rewrite andb_comm; destruct (i <? 0) eqn:E; [apply Nat.ltb_lt in E; lia|reflexivity]|].
  destruct i as [|i]; [reflexivity|]. cbn [sub_half]. unfold at_ in *. cbn [nth]. rewrite IH. reflexivity.
Qed.
Lemma at_error : forall l i, i < length l -> nth_error l i = Some (at_ l i).
Proof. intros l i L. apply nth_error_nth'. exact L. Qed.
Lemma at_upd : forall l i j v, at_ (upd l i v) j = if (i =? j) && (i <? length l) then v else at_ l j.
Proof.
  intros l. induction l as [|x l IH]; intros i j v; [destruct i, j; cbn; rewrite ?andb_false_r; reflexivity|].
  destruct i as [|i], j as [|j]; cbn; auto. unfold at_ in *. rewrite IH. reflexivity.
Qed.
Lemma pyget_last : forall l k, 0 < k <= length l -> pyget l (- Z.of_nat k) = Some (at_ l (length l - k)).
Proof.
  intros l k K. unfold pyget, pyidx. destruct (Z.leb_spec 0 (- Z.of_nat k)); [lia|]. destruct (Z.leb_spec (- Z.of_nat (length l)) (- Z.of_nat k)); [|lia].
  cbn [bind]. replace (Z.to_nat (- Z.of_nat k + Z.of_nat (length l))) with (length l - k) by lia. apply at_error. lia.
Qed.
Lemma pystore_last : forall (l : list Q) k v, 0 < k <= length l -> pystore l (- Z.of_nat k) v = Some (upd l (length l - k) v).
Proof.
  intros l k v K. unfold pystore, pyidx. destruct (Z.leb_spec 0 (- Z.of_nat k)); [lia|]. destruct (Z.leb_spec (- Z.of_nat (length l)) (- Z.of_nat k)); [|lia].
  cbn [bind]. replace (Z.to_nat (- Z.of_nat k + Z.of_nat (length l))) with (length l - k) by lia. unfold store.
  destruct (Nat.ltb_spec (length l - k) (length l)); [reflexivity|lia].
Qed.
Lemma at_app1 : forall a b i, i < length a -> at_ (a ++ b) i = at_ a i.
Proof. intros. unfold at_. apply app_nth1. auto. Qed.
Lemma at_app2 : forall a x, at_ (a ++ [x]) (length a) = x.
Proof. intros. unfold at_. rewrite app_nth2 by lia. rewrite Nat.sub_diag. reflexivity. Qed.

Lemma c_to_bounds_spec : forall c, 2 <= length c -> exists b, c_to_bounds c = Some b /\ length b = S (length c)
  /\ (forall i, (S i < length c)%nat -> at_ b i == at_ c i - gap c i / 2)%Q
  /\ (at_ b (length c - 1) == at_ c (length c - 1) - gap c (length c - 2) / 2)%Q
  /\ (at_ b (length c) == at_ c (length c - 1) + gap c (length c - 2) / 2)%Q.
Proof.
  intros c L. unfold c_to_bounds. change (-1)%Z with (- Z.of_nat 1)%Z. change (-2)%Z with (- Z.of_nat 2)%Z.
  rewrite pyget_last by lia. cbn [bind]. rewrite pyget_last by lia. cbn [bind].
  set (n := length c) in *. set (e := (2 * at_ c (n - 1) - at_ c (n - 2))%Q). set (b0 := c ++ [e]).
  assert (LB : length b0 = S n) by (unfold b0; rewrite app_length; cbn; lia).
  assert (LD : length (diffs b0) = n) by (rewrite length_diffs, LB; lia).
  assert (LS : length (sub_half b0 (diffs b0)) = S n) by (rewrite length_sub_half; exact LB).
  rewrite pyget_last by lia. cbn [bind]. rewrite pyget_last by lia. cbn [bind]. rewrite pystore_last by lia.
  rewrite LS, LD. replace (S n - 1) with n by lia.
  assert (A : forall i, i < n -> at_ b0 i = at_ c i) by (intros; apply at_app1; auto).
  assert (AE : at_ b0 n = e) by apply at_app2.
  assert (D : forall i, S i < n -> at_ (diffs b0) i = gap c i). { intros i I. rewrite at_diffs by lia. unfold gap. rewrite !A by lia. reflexivity. }
  assert (DE : (at_ (diffs b0) (n - 1) == gap c (n - 2))%Q). { rewrite at_diffs by lia. replace (S (n - 1)) with n by lia. rewrite AE, A by lia. unfold e, gap. replace (S (n - 2)) with (n - 1) by lia. ring. }
  eexists. split; [reflexivity|]. split; [rewrite length_upd; exact LS|].
  split; [|split].
  - intros i I. rewrite at_upd, LS. destruct (Nat.eqb_spec n i); [lia|]. cbn [andb]. rewrite at_sub_half, LB, LD. destruct (Nat.ltb_spec i (S n)); [|lia]. destruct (Nat.ltb_spec i n); [|lia]. cbn [andb]. rewrite A, D by lia. reflexivity.
  - rewrite at_upd, LS. destruct (Nat.eqb_spec n (n - 1)); [lia|]. cbn [andb]. rewrite at_sub_half, LB, LD. destruct (Nat.ltb_spec (n - 1) (S n)); [|lia]. destruct (Nat.ltb_spec (n - 1) n); [|lia]. cbn [andb]. rewrite A by lia. rewrite DE. reflexivity.
  - rewrite at_upd, LS, Nat.eqb_refl. destruct (Nat.ltb_spec n (S n)); [|lia]. cbn [andb]. rewrite at_sub_half, LB, LD. destruct (Nat.ltb_spec n (S n)); [|lia]. destruct (Nat.ltb_spec n n); [lia|]. cbn [andb].
    rewrite AE, DE. unfold e, gap. replace (S (n - 2)) with (n - 1) by lia. field.
Qed.
(** The gap used on both sides of the last bounds. *)
Definition gap' (c : list Q) (i : nat) : Q := gap c (Nat.min i (length c - 2)).
Lemma c_to_bounds_gap : forall c, 2 <= length c -> exists b, c_to_bounds c = Some b /\ length b = S (length c)
  /\ (forall i, (i < length c)%nat -> at_ b i == at_ c i - gap' c i / 2)%Q
  /\ (at_ b (length c) == at_ c (length c - 1) + gap' c (length c - 1) / 2)%Q.
Proof.
  intros c L. destruct (c_to_bounds_spec c L) as (b & E & LB & I & Z & W). exists b. split; [exact E|]. split; [exact LB|]. split.
  - intros i Hi. unfold gap'. destruct (Nat.eq_dec (S i) (length c)) as [F|F].
    + replace (Nat.min i (length c - 2)) with (length c - 2) by lia. replace i with (length c - 1) by lia. exact Z.
    + replace (Nat.min i (length c - 2)) with i by lia. apply I. lia.
  - unfold gap'. replace (Nat.min (length c - 1) (length c - 2)) with (length c - 2) by lia. exact W.
Qed.
Lemma bounds_low : forall c b, 2 <= length c -> c_to_bounds c = Some b -> (forall i, (S i < length c)%nat -> 0 < gap c i)%Q ->
  forall i, (i < length c)%nat -> (at_ b i < at_ c i)%Q.
Proof.
  intros c b L E P i I. destruct (c_to_bounds_gap c L) as (b' & E' & LB & B & _). rewrite E in E'. injection E' as <-.
  rewrite B by exact I. assert (0 < gap' c i)%Q by (apply P; lia). rewrite ?half_of in *; lra.
Qed.
Lemma bounds_high : forall c b, 2 <= length c -> c_to_bounds c = Some b -> (forall i, (S i < length c)%nat -> 0 < gap c i)%Q ->
  (forall i, (S (S i) < length c)%nat -> (at_ c i < at_ b (S i) <-> gap c (S i) < 2 * gap c i))%Q
  /\ (at_ c (length c - 2) < at_ b (length c - 1))%Q /\ (at_ c (length c - 1) < at_ b (length c))%Q.
Proof.
  intros c b L E P. destruct (c_to_bounds_spec c L) as (b' & E' & LB & B & Z & W). rewrite E in E'. injection E' as <-.
  assert (G : (0 < gap c (length c - 2))%Q) by (apply P; lia). split; [|split].
  - intros i I. rewrite B by lia. unfold gap. split; intros; rewrite ?half_of in *; lra.
  - rewrite Z. unfold gap in *. replace (S (length c - 2)) with (length c - 1) in * by lia. rewrite ?half_of in *; lra.
  - rewrite W. rewrite ?half_of in *; lra.
Qed.
Lemma bounds_increase : forall c b, 2 <= length c -> c_to_bounds c = Some b -> (forall i, (S i < length c)%nat -> 0 < gap c i)%Q ->
  (forall i, (S (S i) < length c)%nat -> (at_ b i < at_ b (S i) <-> gap c (S i) < 3 * gap c i))%Q
  /\ (at_ b (length c - 2) < at_ b (length c - 1))%Q /\ (at_ b (length c - 1) < at_ b (length c))%Q.
Proof.
  intros c b L E P. destruct (c_to_bounds_spec c L) as (b' & E' & LB & B & Z & W). rewrite E in E'. injection E' as <-.
  assert (G : (0 < gap c (length c - 2))%Q) by (apply P; lia). split; [|split].
  - intros i I. rewrite !B by lia. unfold gap. split; intros; rewrite ?half_of in *; lra.
  - rewrite Z, B by lia. unfold gap in *. replace (S (length c - 2)) with (length c - 1) in * by lia. rewrite ?half_of in *; lra.
  - rewrite W, Z. rewrite ?half_of in *; lra.
Qed.
Lemma regular_at : forall c s, regular c s -> forall i, (i < length c)%nat -> (at_ c i == at_ c 0 + inject_Z (Z.of_nat i) * s)%Q.
Proof.
  intros c s R i. induction i as [|i IH]; intros I; [change (inject_Z (Z.of_nat 0)) with 0%Q; ring|].
  specialize (IH ltac:(lia)). specialize (R i I). unfold gap in R. rewrite Nat2Z.inj_succ. unfold Z.succ. rewrite inject_Z_plus.
  setoid_replace (at_ c (S i)) with (at_ c i + s)%Q by (rewrite <- R; ring). rewrite IH. change (inject_Z 1) with 1%Q. ring.
Qed.
Lemma bounds_regular : forall c b s, 2 <= length c -> c_to_bounds c = Some b -> regular c s ->
  forall i, (i <= length c)%nat -> (at_ b i == at_ c 0 + (inject_Z (Z.of_nat i) - (1 # 2)) * s)%Q.
Proof.
  intros c b s L E R i I. destruct (c_to_bounds_gap c L) as (b' & E' & LB & B & W). rewrite E in E'. injection E' as <-.
  assert (G : forall j, (gap' c j == s)%Q) by (intros j; apply R; lia).
  destruct (Nat.eq_dec i (length c)) as [->|F].
  - rewrite W, G. rewrite (regular_at c s R) by lia. replace (Z.of_nat (length c)) with (Z.of_nat (length c - 1) + 1)%Z by lia. rewrite inject_Z_plus. change (inject_Z 1) with 1%Q. field.
  - rewrite B by lia. rewrite G, (regular_at c s R) by lia. field.
Qed.

(** ** Finite differences *)
Section Line.
Variables (circ : bool) (line : list cell).
Hypothesis L4 : 4 <= length line.
Let n := length line.
(** A cell of the window is the neighbour, or some value which is not masked beyond the ends. *)
Definition okc (i : nat) (k : Z) (c : cell) : Prop :=
  match neighbour circ line i k with Some c' => c = c' | None => snd c = false end.
Definition okw (i : nat) (w : list cell) : Prop :=
  forall k c, nth_error w k = Some c -> okc i (Z.of_nat k - 4) c.
Lemma neighbour_succ : forall i k, neighbour circ line (S i) k = neighbour circ line i (k + 1).
Proof. intros. unfold neighbour. replace (Z.of_nat (S i) + k)%Z with (Z.of_nat i + (k + 1))%Z by lia. reflexivity. Qed.
Lemma okw_tl : forall i w, okw i w -> okw (S i) (tl w).
Proof.
  intros i w O k c E. destruct w as [|c0 w]; [destruct k; discriminate|]. cbn [tl] in E. specialize (O (S k) c E). unfold okc in *. rewrite neighbour_succ. replace (Z.of_nat k - 4 + 1)%Z with (Z.of_nat (S k) - 4)%Z by lia. exact O.
Qed.
Lemma entering_spec : forall i before, length before = 8 -> i < n -> okw i before -> exists c, entering circ line before i = Some c /\ okc i 4 c.
Proof.
  intros i before LB I O. unfold entering, okc, neighbour. cbv zeta. change (length line) with n.
  assert (N0 : n <> 0) by (unfold n; lia).
  destruct (Nat.leb_spec n (i + 4)).
  - destruct circ.
    + replace (Z.to_nat ((Z.of_nat i + 4) mod Z.of_nat n)) with ((i + 4) mod n) by (rewrite <- (Nat2Z.id ((i + 4) mod n)), Nat2Z.inj_mod; f_equal; f_equal; lia).
      destruct (nth_error line ((i + 4) mod n)) as [c|] eqn:E; [exists c; auto|]. apply nth_error_None in E. fold n in E. pose proof (Nat.mod_upper_bound (i + 4) n N0). lia.
    + destruct (nth_error before 7) as [c|] eqn:E; [|apply nth_error_None in E; lia]. cbn [bind]. eexists. split; [reflexivity|].
      destruct (Z.leb_spec 0 (Z.of_nat i + 4)), (Z.ltb_spec (Z.of_nat i + 4) (Z.of_nat n)); cbn [andb]; try lia; reflexivity.
  - destruct (nth_error line (i + 4)) as [c|] eqn:E; [|apply nth_error_None in E; fold n in E; lia]. exists c. split; [reflexivity|].
    replace (Z.of_nat i + 4)%Z with (Z.of_nat (i + 4)) by lia. rewrite Z.mod_small, Nat2Z.id, E by lia.
    destruct (Z.leb_spec 0 (Z.of_nat (i + 4))), (Z.ltb_spec (Z.of_nat (i + 4)) (Z.of_nat n)); cbn [andb]; try lia. destruct circ; reflexivity.
Qed.
Lemma stencil_at_total : forall hw d w, length w = 9 -> exists v, stencil_at hw d w = Some v.
Proof.
  intros hw d w L. do 9 (destruct w as [|[? ?] w]; [discriminate|]). destruct w; [|discriminate]. cbn [stencil_at].
  repeat match goal with |- context [if ?b then _ else _] => destruct b end; eauto.
Qed.
Lemma stencil_line_spec : forall hw d m i before, i + m = n -> length before = 8 -> okw i before ->
  exists vs b', stencil_line circ hw d line (seq i m) before = Some (vs, b') /\ length vs = m /\ length b' = 8 /\
    forall j, j < m -> exists w v, length w = 9 /\ okw (i + j) w /\ stencil_at hw d w = Some v /\ nth_error vs j = Some v.
Proof.
  intros hw d m. induction m as [|m IH]; intros i before E LB O.
  - exists [], before. cbn. split; [reflexivity|]. split; [reflexivity|]. split; [exact LB|]. intros; lia.
  - cbn [seq stencil_line]. destruct (entering_spec i before LB ltac:(lia) O) as (c & EC & OC). rewrite EC. cbn [bind].
    assert (LW : length (before ++ [c]) = 9) by (rewrite app_length; cbn; lia).
    assert (OW : okw i (before ++ [c])).
    { intros k c' E'. destruct (Nat.lt_ge_cases k 8) as [K|K].
      - rewrite nth_error_app1 in E' by lia. apply O. exact E'.
      - pose proof (nth_error_Some_lt _ _ _ E') as K'. rewrite app_length in K'. cbn in K'. assert (k = 8) as -> by lia. rewrite nth_error_app2 in E' by lia. rewrite LB in E'. cbn in E'. injection E' as <-. exact OC. }
    destruct (stencil_at_total hw d _ LW) as (v & EV). rewrite EV. cbn [bind].
    destruct (IH (S i) (tl (before ++ [c])) ltac:(lia)) as (vs & b' & ES & LV & LB' & R).
    { destruct (before ++ [c]); [discriminate|]. cbn in *. lia. }
    { apply okw_tl. exact OW. }
    rewrite ES. cbn [bind fst snd]. exists (v :: vs), b'. split; [reflexivity|]. split; [cbn; lia|]. split; [exact LB'|].
    intros [|j] J.
    + exists (before ++ [c]), v. rewrite Nat.add_0_r. auto.
    + destruct (R j ltac:(lia)) as (w & v' & A & B & C & D). exists w, v'. replace (i + S j) with (S i + j) by lia. auto.
Qed.
Lemma first_cells_spec : forall left, length left = 4 -> exists b, first_cells circ line left = Some b /\ length b = 8 /\ okw 0 b.
Proof.
  intros left LL. unfold first_cells.
  assert (G : forall k, k < 4 -> exists c, nth_error line k = Some c) by (intros; apply nth_error_lt_Some; lia).
  assert (P : exists past, length past = 4 /\ (if circ then
      let! a := pyget line (-4) in let! b := pyget line (-3) in let! c := pyget line (-2) in let! e := pyget line (-1) in
      Some [a; b; c; e]
    else Some (map (fun q => (q, false)) left)) = Some past /\ forall k c, nth_error past k = Some c -> okc 0 (Z.of_nat k - 4) c).
  { destruct circ eqn:EC.
    - assert (PG : forall k, 0 < k <= 4 -> exists c, pyget line (- Z.of_nat k) = Some c /\ nth_error line (n - k) = Some c).
      { intros k K. destruct (nth_error_lt_Some line (n - k)) as (c & E); [unfold n; lia|]. exists c. split; [|exact E]. unfold pyget, pyidx. fold n. destruct (Z.leb_spec 0 (- Z.of_nat k)); [lia|].
        destruct (Z.leb_spec (- Z.of_nat n) (- Z.of_nat k)); [|unfold n in *; lia]. cbn [bind]. rewrite <- E. f_equal. lia. }
      destruct (PG 4) as (a & Ea & Na); [lia|]. destruct (PG 3) as (b & Eb & Nb); [lia|]. destruct (PG 2) as (c & Ec & Nc); [lia|]. destruct (PG 1) as (e & Ee & Ne); [lia|].
      change (-4)%Z with (- Z.of_nat 4)%Z. change (-3)%Z with (- Z.of_nat 3)%Z. change (-2)%Z with (- Z.of_nat 2)%Z. change (-1)%Z with (- Z.of_nat 1)%Z.
      rewrite Ea, Eb, Ec, Ee. cbn [bind]. eexists. split; [|split; [reflexivity|]]; [reflexivity|].
      assert (M : forall k c, k < 4 -> nth_error line (n - (4 - k)) = Some c -> okc 0 (Z.of_nat k - 4) c).
      { intros k c0 K E. unfold okc, neighbour. cbv zeta. rewrite EC. change (length line) with n. replace ((Z.of_nat 0 + (Z.of_nat k - 4)) mod Z.of_nat n)%Z with (Z.of_nat (n - (4 - k))).
        - rewrite Nat2Z.id, E. reflexivity.
        - unfold n in *. apply Z.mod_unique with (q := (-1)%Z); [left|]; lia. }
      intros [|[|[|[|k]]]] c0 E; cbn in E; try (injection E as <-); [apply M; auto; lia..|destruct k; discriminate].
    - eexists. split; [|split; [reflexivity|]]; [rewrite map_length; exact LL|].
      intros k c E. unfold okc, neighbour. rewrite EC. pose proof (nth_error_Some_lt _ _ _ E) as K. rewrite map_length, LL in K.
      destruct (Z.leb_spec 0 (Z.of_nat 0 + (Z.of_nat k - 4))); [lia|]. cbn [andb]. rewrite nth_error_map in E. destruct (nth_error left k); [|discriminate]. cbn in E. injection E as <-. reflexivity. }
  destruct P as (past & LP & -> & OP). cbn [bind].
  destruct (G 0) as (a & Ea); [lia|]. destruct (G 1) as (b & Eb); [lia|]. destruct (G 2) as (c & Ec); [lia|]. destruct (G 3) as (e & Ee); [lia|].
  rewrite Ea, Eb, Ec, Ee. cbn [bind]. eexists. split; [reflexivity|]. split; [rewrite app_length; cbn; lia|].
  assert (M : forall k c, k < 4 -> nth_error line k = Some c -> okc 0 (Z.of_nat (4 + k) - 4) c).
  { intros k c0 K E. unfold okc, neighbour. cbv zeta. change (length line) with n. replace (Z.of_nat 0 + (Z.of_nat (4 + k) - 4))%Z with (Z.of_nat k) by lia. rewrite Z.mod_small, Nat2Z.id, E by (unfold n; lia).
    destruct (Z.leb_spec 0 (Z.of_nat k)), (Z.ltb_spec (Z.of_nat k) (Z.of_nat n)); cbn [andb]; try (unfold n in *; lia). destruct circ; reflexivity. }
  intros k c0 E. destruct (Nat.lt_ge_cases k 4) as [K|K].
  - rewrite nth_error_app1 in E by lia. apply OP. exact E.
  - rewrite nth_error_app2, LP in E by lia. replace k with (4 + (k - 4)) by lia.
    destruct (k - 4) as [|[|[|[|k']]]]; cbn [nth_error] in E; try (apply Some_inj in E; subst c0); [apply M; auto; lia..|destruct k'; discriminate].
Qed.
End Line.

Definition line_result (circ : bool) (hw : nat) (d : Q) (line : list cell) (out : list (option Q)) : Prop :=
  length out = length line /\ forall i, i < length line -> exists w v, length w = 9 /\ okw circ line i w /\ stencil_at hw d w = Some v /\ nth_error out i = Some v.
Lemma stencil_lines_spec : forall circ hw lines left, length left = 4 -> (forall d line, In (d, line) lines -> 4 <= length line) ->
  exists out, stencil_lines circ hw lines left = Some out /\ Forall2 (fun dl o => line_result circ hw (fst dl) (snd dl) o) lines out.
Proof.
  intros circ hw lines. induction lines as [|[d line] lines IH]; intros left LL H.
  - exists []. split; [reflexivity|constructor].
  - cbn [stencil_lines]. assert (L4 : 4 <= length line) by (apply (H d); left; reflexivity).
    destruct (first_cells_spec circ line L4 left LL) as (b & Eb & Lb & Ob). rewrite Eb. cbn [bind].
    destruct (stencil_line_spec circ line L4 hw d (length line) 0 b eq_refl Lb Ob) as (vs & b' & Es & Lv & Lb' & R). rewrite Es. cbn [bind fst snd].
    destruct (IH (map fst (firstn 4 b'))) as (out & Eo & Fo).
    { rewrite map_length, firstn_length. lia. }
    { intros d' l' I. apply (H d'). right. exact I. }
    rewrite Eo. cbn [bind]. exists (vs :: out). split; [reflexivity|]. constructor; [|exact Fo]. split; [exact Lv|]. exact R.
Qed.
Lemma okw_cell : forall circ line i w k c c', okw circ line i w -> nth_error w k = Some c -> neighbour circ line i (Z.of_nat k - 4) = Some c' -> c = c'.
Proof. intros circ line i w k c c' O E N. specialize (O k c E). unfold okc in O. rewrite N in O. exact O. Qed.
Lemma neighbour_0 : forall circ line i, i < length line -> neighbour circ line i 0 = nth_error line i.
Proof.
  intros circ line i I. unfold neighbour. rewrite Z.add_0_r, Z.mod_small, Nat2Z.id by lia.
  destruct (Z.leb_spec 0 (Z.of_nat i)), (Z.ltb_spec (Z.of_nat i) (Z.of_nat (length line))); try lia. destruct circ; reflexivity.
Qed.
Lemma result_masked : forall circ hw d line out i h m, line_result circ hw d line out -> nth_error line i = Some (h, m) ->
  (nth_error out i = Some None <-> m = true).
Proof.
  intros circ hw d line out i h m (_ & R) E. pose proof (nth_error_Some_lt _ _ _ E) as I. destruct (R i I) as (w & v & LW & O & V & ->).
  rewrite <- neighbour_0 with (circ := circ) in E by exact I.
  do 9 (destruct w as [|[? ?] w]; [discriminate|]). destruct w; [|discriminate].
  assert (C := okw_cell _ _ _ _ 4 _ _ O eq_refl E). injection C as -> ->. cbn [stencil_at] in V. destruct m.
  - injection V as <-. tauto.
  - repeat match type of V with context [if ?b then _ else _] => destruct b end; injection V as <-; split; intros; discriminate.
Qed.
Lemma window9 : forall (w : list cell), length w = 9 -> exists h_4 m_4 h_3 m_3 h_2 m_2 h_1 m_1 h0 m0 h1 m1 h2 m2 h3 m3 h4 m4,
  w = [(h_4, m_4); (h_3, m_3); (h_2, m_2); (h_1, m_1); (h0, m0); (h1, m1); (h2, m2); (h3, m3); (h4, m4)].
Proof.
  intros w L. do 9 (destruct w as [|[? ?] w]; [discriminate|]). destruct w; [|discriminate]. repeat eexists.
Qed.
Lemma result_centred : forall circ hw d line out i r v, line_result circ hw d line out -> i < length line -> 1 <= r <= hw -> hw <= 4 ->
  known circ line i r v ->
  r = hw \/ masked_at circ line i (Z.of_nat (S r)) \/ masked_at circ line i (- Z.of_nat (S r)) ->
  exists g, nth_error out i = Some (Some g) /\ (g == d * centred r v)%Q.
Proof.
  intros circ hw d line out i r v (_ & R) I Hr Hw K E. destruct (R i I) as (w & g & LW & O & V & ->).
  assert (KK : forall j c, nth_error w j = Some c -> (Z.abs (Z.of_nat j - 4) <= Z.of_nat r)%Z -> c = (v (Z.of_nat j - 4)%Z, false)).
  { intros j c Ej A. exact (okw_cell _ _ _ _ j _ _ O Ej (K _ A)). }
  assert (MM : forall j h m z, nth_error w j = Some (h, m) -> z = (Z.of_nat j - 4)%Z -> masked_at circ line i z -> m = true).
  { intros j h m z Ej -> (q & N). pose proof (okw_cell _ _ _ _ j _ _ O Ej N) as C. injection C as -> ->. reflexivity. }
  destruct (window9 w LW) as (h_4 & m_4 & h_3 & m_3 & h_2 & m_2 & h_1 & m_1 & h0 & m0 & h1 & m1 & h2 & m2 & h3 & m3 & h4 & m4 & ->). clear LW O K R.
  pose proof (KK 4 _ eq_refl ltac:(lia)) as C4. pose proof (KK 3 _ eq_refl ltac:(lia)) as C3. pose proof (KK 5 _ eq_refl ltac:(lia)) as C5.
  injection C4 as -> ->. injection C3 as -> ->. injection C5 as -> ->.
  destruct r as [|[|[|[|[|r]]]]]; try lia.
  - assert (F : m2 || m_2 || (hw =? 1) = true).
    { destruct E as [<-|[N|N]]; [apply orb_true_r|rewrite (MM 6 _ _ _ eq_refl eq_refl N); reflexivity|rewrite (MM 2 _ _ _ eq_refl eq_refl N); rewrite orb_true_r; reflexivity]. }
    cbn [stencil_at xorb] in V. rewrite F in V. injection V as <-. eexists. split; [reflexivity|]. unfold centred, weights. cbn [weighted Z.of_nat Z.sub Z.opp Z.add Pos.of_succ_nat Pos.succ Z.pos_sub Pos.pred_double Pos.add Z.pred_double]. field.
  - pose proof (KK 2 _ eq_refl ltac:(lia)) as C2. pose proof (KK 6 _ eq_refl ltac:(lia)) as C6. injection C2 as -> ->. injection C6 as -> ->.
    destruct (Nat.eqb_spec hw 1) as [W|W]; [lia|].
    assert (F : m3 || m_3 || (hw =? 2) = true).
    { destruct E as [<-|[N|N]]; [apply orb_true_r|rewrite (MM 7 _ _ _ eq_refl eq_refl N); reflexivity|rewrite (MM 1 _ _ _ eq_refl eq_refl N); rewrite orb_true_r; reflexivity]. }
    cbn [stencil_at xorb] in V. rewrite F in V. apply Nat.eqb_neq in W. rewrite W in V. cbn [orb] in V. injection V as <-. eexists. split; [reflexivity|]. unfold centred, weights. cbn [weighted Z.of_nat Z.sub Z.opp Z.add Pos.of_succ_nat Pos.succ Z.pos_sub Pos.pred_double Pos.add Z.pred_double]. field.
  - pose proof (KK 2 _ eq_refl ltac:(lia)) as C2. pose proof (KK 6 _ eq_refl ltac:(lia)) as C6. injection C2 as -> ->. injection C6 as -> ->.
    pose proof (KK 1 _ eq_refl ltac:(lia)) as C1. pose proof (KK 7 _ eq_refl ltac:(lia)) as C7. injection C1 as -> ->. injection C7 as -> ->.
    assert (W : hw =? 1 = false) by (apply Nat.eqb_neq; lia). assert (W2 : hw =? 2 = false) by (apply Nat.eqb_neq; lia).
    assert (F : m4 || m_4 || (hw =? 3) = true).
    { destruct E as [<-|[N|N]]; [apply orb_true_r|rewrite (MM 8 _ _ _ eq_refl eq_refl N); reflexivity|rewrite (MM 0 _ _ _ eq_refl eq_refl N); rewrite orb_true_r; reflexivity]. }
    cbn [stencil_at xorb] in V. rewrite F, W, W2 in V. cbn [orb] in V. injection V as <-. eexists. split; [reflexivity|]. unfold centred, weights. cbn [weighted Z.of_nat Z.sub Z.opp Z.add Pos.of_succ_nat Pos.succ Z.pos_sub Pos.pred_double Pos.add Z.pred_double]. field.
  - assert (hw = 4) as -> by lia.
    pose proof (KK 2 _ eq_refl ltac:(lia)) as C2. pose proof (KK 6 _ eq_refl ltac:(lia)) as C6. injection C2 as -> ->. injection C6 as -> ->.
    pose proof (KK 1 _ eq_refl ltac:(lia)) as C1. pose proof (KK 7 _ eq_refl ltac:(lia)) as C7. injection C1 as -> ->. injection C7 as -> ->.
    pose proof (KK 0 _ eq_refl ltac:(lia)) as C0. pose proof (KK 8 _ eq_refl ltac:(lia)) as C8. injection C0 as -> ->. injection C8 as -> ->.
    cbn [stencil_at xorb orb Nat.eqb] in V. injection V as <-. eexists. split; [reflexivity|]. unfold centred, weights. cbn [weighted Z.of_nat Z.sub Z.opp Z.add Pos.of_succ_nat Pos.succ Z.pos_sub Pos.pred_double Pos.add Z.pred_double]. field.
Qed.
Lemma result_one_sided : forall circ hw d line out i h0 h1, line_result circ hw d line out -> i < length line ->
  nth_error line i = Some (h0, false) ->
  (masked_at circ line i (-1) -> neighbour circ line i 1 = Some (h1, false) -> nth_error out i = Some (Some ((h1 - h0) * d)%Q))
  /\ (masked_at circ line i 1 -> neighbour circ line i (-1) = Some (h1, false) -> nth_error out i = Some (Some ((h0 - h1) * d)%Q)).
Proof.
  intros circ hw d line out i c0 c1 (_ & R) I E. destruct (R i I) as (w & g & LW & O & V & ->).
  rewrite <- neighbour_0 with (circ := circ) in E by exact I.
  destruct (window9 w LW) as (h_4 & m_4 & h_3 & m_3 & h_2 & m_2 & h_1 & m_1 & h0 & m0 & h1 & m1 & h2 & m2 & h3 & m3 & h4 & m4 & ->).
  pose proof (okw_cell _ _ _ _ 4 _ _ O eq_refl E) as C. injection C as -> ->.
  split; intros (q & M) N.
  - pose proof (okw_cell _ _ _ _ 3 _ _ O eq_refl M) as C. injection C as -> ->. pose proof (okw_cell _ _ _ _ 5 _ _ O eq_refl N) as C. injection C as -> ->. cbn in V. injection V as <-. reflexivity.
  - pose proof (okw_cell _ _ _ _ 5 _ _ O eq_refl M) as C. injection C as -> ->. pose proof (okw_cell _ _ _ _ 3 _ _ O eq_refl N) as C. injection C as -> ->. cbn in V. injection V as <-. reflexivity.
Qed.
Lemma centred_ext : forall r v v', (forall k, (v k == v' k)%Q) -> (centred r v == centred r v')%Q.
Proof. intros r v v' H. destruct r as [|[|[|[|[|r]]]]]; unfold centred; cbn [weights weighted]; rewrite ?H; reflexivity. Qed.
Lemma centred_poly : forall r p x s, 1 <= r <= 4 -> degree_le p (2 * r) -> (centred r (fun k => value p (x + inject_Z k * s)) == s * value (derivative p) x)%Q.
Proof.
  intros r p x s Hr D. unfold degree_le in D. destruct r as [|[|[|[|[|r]]]]]; try lia; unfold centred, derivative; cbn [weights weighted];
  do 10 (try destruct p as [|? p]); cbn [length] in D; try lia; cbn [value tl scaled Z.add Z.opp Pos.add Pos.succ Pos.of_succ_nat Z.of_nat]; unfold inject_Z; field.
Qed.
