(** Property C121: resampling of contours and profiles. *)
From Coq Require Import List Arith Bool ZArith QArith Lqa Lia.
From Verif Require Import Base Corr_model Qaux Resamp_model Resamp_proofs.
Import ListNotations.
Local Open Scope Q_scope.

(** [p] is at the part [t] of the segment from vertex [i] to the next one. *)
Definition on_seg (l : list (Q * Q)) (i : nat) (t : Q) (x y : Q) : Prop :=
  (S i < length l)%nat /\ 0 <= t <= 1 /\
  x == (1 - t) * fst (nth i l (0, 0)) + t * fst (nth (S i) l (0, 0)) /\
  y == (1 - t) * snd (nth i l (0, 0)) + t * snd (nth (S i) l (0, 0)).
Definition asked (l : list (Q * Q)) (num_fac fixed_size : Z) : Z :=
  if (fixed_size =? -1)%Z then (Z.of_nat (length l) * num_fac)%Z else fixed_size.

Section Props.
Variable distance : Q * Q -> Q * Q -> Q.
Notation uniform_resample := (uniform_resample distance). Notation lengths := (lengths distance). Notation arc := (arc distance). Notation seg_length := (seg_length distance).

Lemma resample_eq : forall l nf fs xs ys, uniform_resample l nf fs = Some (xs, ys) ->
  l <> [] /\ (0 <= asked l nf fs)%Z /\ let d := linspace 0 (last (lengths l) 0) (Z.to_nat (asked l nf fs)) in xs = map (interp (lengths l) (map fst l)) d /\ ys = map (interp (lengths l) (map snd l)) d.
Proof.
  intros l nf fs xs ys H. assert (N : l <> []) by (intros ->; discriminate H). split; [exact N|]. unfold Resamp_model.uniform_resample in H. destruct l as [|a l]; [congruence|].
  rewrite (lengths_length distance) in H by exact N. fold (asked (a :: l) nf fs) in H. destruct (Z.ltb_spec (asked (a :: l) nf fs) 0); [discriminate H|]. split; [assumption|]. injection H as <- <-. split; reflexivity.
Qed.
(** Number of points. *)
Theorem C121_size : forall l nf fs,
  ((exists xs ys, uniform_resample l nf fs = Some (xs, ys)) <-> l <> [] /\ (0 <= asked l nf fs)%Z) /\
  forall xs ys, uniform_resample l nf fs = Some (xs, ys) -> Z.of_nat (length xs) = asked l nf fs /\ length ys = length xs.
Proof.
  intros l nf fs. split.
  - split; [intros (xs & ys & H); apply resample_eq in H; tauto|]. intros [N A]. unfold Resamp_model.uniform_resample. destruct l as [|a l]; [congruence|]. rewrite (lengths_length distance) by exact N. fold (asked (a :: l) nf fs). destruct (Z.ltb_spec (asked (a :: l) nf fs) 0); [lia|]. eauto.
  - intros xs ys H. apply resample_eq in H as (_ & A & -> & ->). rewrite !map_length, linspace_length. split; [lia|reflexivity].
Qed.

Lemma resample_nth : forall l nf fs xs ys k, uniform_resample l nf fs = Some (xs, ys) -> (2 <= length xs)%nat -> (k < length xs)%nat ->
  exists d, nth k xs 0 = interp (lengths l) (map fst l) d /\ nth k ys 0 = interp (lengths l) (map snd l) d /\ d == nq k * (arc l (length l - 1) / nq (length xs - 1)) /\ 0 <= d <= last (lengths l) 0.
Proof.
  intros l nf fs xs ys k H N K. destruct (resample_eq _ _ _ _ _ H) as (NE & A & EX & EY). set (n := Z.to_nat (asked l nf fs)) in *. assert (LX : length xs = n) by (rewrite EX, map_length; apply linspace_length). rewrite LX in *.
  set (d := nth k (linspace 0 (last (lengths l) 0) n) 0). exists d.
  assert (D : d == nq k * (arc l (length l - 1) / nq (n - 1))). { unfold d. rewrite linspace_nth by lia. rewrite (lengths_last distance) by exact NE. field. pose proof (nq_pos (n - 1) ltac:(lia)). lra. }
  split. { rewrite EX. rewrite (nth_indep _ 0 (interp (lengths l) (map fst l) 0)) by (rewrite map_length, linspace_length; exact K). apply map_nth. }
  split. { rewrite EY. rewrite (nth_indep _ 0 (interp (lengths l) (map snd l) 0)) by (rewrite map_length, linspace_length; exact K). apply map_nth. }
  split; [exact D|]. rewrite D, (lengths_last distance) by exact NE. pose proof (nq_pos (n - 1) ltac:(lia)) as P. pose proof (nq_le k (n - 1) ltac:(lia)) as KN. pose proof (nq_nonneg k) as K0. pose proof (arc_le distance l 0 (length l - 1) ltac:(lia)) as A0. change (arc l 0) with 0 in A0. set (D0 := arc l (length l - 1)) in *.
  assert (X : nq k * (D0 / nq (n - 1)) == (nq k / nq (n - 1)) * D0) by (field; lra). rewrite X. assert (F : 0 <= nq k / nq (n - 1) <= 1). { split; [apply Qle_shift_div_l; lra|apply Qle_shift_div_r; lra]. } nra.
Qed.

(** Every point is on a segment of the contour, at the same part of it for both
    coordinates, and its position along the contour is regular. *)
Theorem C121_points : forall l nf fs xs ys k, uniform_resample l nf fs = Some (xs, ys) -> (2 <= length l)%nat -> (2 <= length xs)%nat -> (k < length xs)%nat ->
  exists i t, on_seg l i t (nth k xs 0) (nth k ys 0) /\ arc l i + t * seg_length l i == nq k * (arc l (length l - 1) / nq (length xs - 1)).
Proof.
  intros l nf fs xs ys k H L N K. destruct (resample_nth _ _ _ _ _ _ H N K) as (d & EX & EY & D & D0 & D1). destruct (resample_eq _ _ _ _ _ H) as (NE & _ & _).
  pose proof (lengths_rising distance l NE) as RI. pose proof (lengths_length distance l NE) as LL. assert (F0 : nth 0 (lengths l) 0 <= d) by (rewrite (lengths_nth distance) by lia; exact D0).
  destruct (locate_range (lengths l) d RI ltac:(lia) F0 D1) as (I1 & I2 & I3). pose proof (interp_locate (lengths l) (map fst l) d RI ltac:(rewrite map_length; lia) ltac:(lia) F0 D1) as VX. pose proof (interp_locate (lengths l) (map snd l) d RI ltac:(rewrite map_length; lia) ltac:(lia) F0 D1) as VY.
  set (i := locate (lengths l) d) in *. rewrite LL in I1. rewrite (lengths_nth distance) in I2 by lia. rewrite (lengths_nth distance) in I3 by lia. rewrite !(lengths_nth distance) in VX by lia. rewrite !(lengths_nth distance) in VY by lia. cbn [Resamp_proofs.arc] in I3, VX, VY. pose proof (seg_pos distance l i) as SP. set (s := seg_length l i) in *. set (a := arc l i) in *. assert (S0 : 0 < s) by lra.
  exists i, ((d - a) / s). assert (T : 0 <= (d - a) / s <= 1) by (split; [apply Qle_shift_div_l; lra|apply Qle_shift_div_r; lra]).
  assert (G : forall (f : Q * Q -> Q), f (0, 0) = 0 -> forall j, nth j (map f l) 0 = f (nth j l (0, 0))) by (intros f FE j; transitivity (nth j (map f l) (f (0, 0))); [rewrite FE; reflexivity|apply map_nth]).
  rewrite !(G fst eq_refl) in VX. rewrite !(G snd eq_refl) in VY. split.
  - split; [exact I1|]. split; [exact T|]. rewrite EX, EY, VX, VY. split; field; lra.
  - rewrite <- D. fold s. fold a. field. lra.
Qed.

(** A vertex which is at a regular position is kept. *)
Theorem C121_vertices : forall l nf fs xs ys k i, uniform_resample l nf fs = Some (xs, ys) -> (2 <= length xs)%nat -> (k < length xs)%nat -> (i < length l)%nat ->
  arc l i == nq k * (arc l (length l - 1) / nq (length xs - 1)) -> nth k xs 0 == fst (nth i l (0, 0)) /\ nth k ys 0 == snd (nth i l (0, 0)).
Proof.
  intros l nf fs xs ys k i H N K I A. destruct (resample_nth _ _ _ _ _ _ H N K) as (d & EX & EY & D & _). destruct (resample_eq _ _ _ _ _ H) as (NE & _ & _).
  pose proof (lengths_rising distance l NE) as RI. pose proof (lengths_length distance l NE) as LL. assert (DI : d == nth i (lengths l) 0) by (rewrite (lengths_nth distance) by exact I; rewrite D, A; reflexivity).
  rewrite EX, EY. rewrite (interp_knot _ (map fst l) i d RI ltac:(rewrite map_length; lia) ltac:(lia) DI). rewrite (interp_knot _ (map snd l) i d RI ltac:(rewrite map_length; lia) ltac:(lia) DI).
  assert (G : forall (f : Q * Q -> Q), f (0, 0) = 0 -> forall j, nth j (map f l) 0 = f (nth j l (0, 0))) by (intros f FE j; transitivity (nth j (map f l) (f (0, 0))); [rewrite FE; reflexivity|apply map_nth]). rewrite (G fst eq_refl), (G snd eq_refl). split; reflexivity.
Qed.
(** In particular both ends: a closed contour stays closed. *)
Theorem C121_ends : forall l nf fs xs ys, uniform_resample l nf fs = Some (xs, ys) -> (2 <= length xs)%nat ->
  nth 0 xs 0 == fst (nth 0 l (0, 0)) /\ nth 0 ys 0 == snd (nth 0 l (0, 0)) /\
  nth (length xs - 1) xs 0 == fst (nth (length l - 1) l (0, 0)) /\ nth (length xs - 1) ys 0 == snd (nth (length l - 1) l (0, 0)).
Proof.
  intros l nf fs xs ys H N. destruct (resample_eq _ _ _ _ _ H) as (NE & _ & _). assert (L : (0 < length l)%nat) by (destruct l; [congruence|cbn; lia]).
  destruct (C121_vertices l nf fs xs ys 0 0 H N ltac:(lia) L) as [A B]. { cbn [Resamp_proofs.arc]. change (nq 0) with 0. ring. }
  destruct (C121_vertices l nf fs xs ys (length xs - 1) (length l - 1) H N ltac:(lia) ltac:(lia)) as [C D]. { pose proof (nq_pos (length xs - 1) ltac:(lia)). field. lra. } auto.
Qed.
(** Segments of the same length, a multiple of the segments: all the vertices are
    kept. *)
Theorem C121_regular : forall l nf m s xs ys i, (2 <= length l)%nat -> (1 <= m)%nat -> (forall j, (S j < length l)%nat -> seg_length l j == s) ->
  uniform_resample l nf (Z.of_nat (m * (length l - 1) + 1)) = Some (xs, ys) -> (i < length l)%nat ->
  nth (m * i) xs 0 == fst (nth i l (0, 0)) /\ nth (m * i) ys 0 == snd (nth i l (0, 0)).
Proof.
  intros l nf m s xs ys i L M HS H I. destruct (proj2 (C121_size l nf (Z.of_nat (m * (length l - 1) + 1))) xs ys H) as [LX _]. unfold asked in LX. destruct (Z.eqb_spec (Z.of_nat (m * (length l - 1) + 1)) (-1)); [lia|]. assert (LN : length xs = (m * (length l - 1) + 1)%nat) by lia.
  assert (AR : forall j, (j < length l)%nat -> arc l j == nq j * s). { induction j as [|j IH]; intros J; [cbn; change (nq 0) with 0; ring|]. cbn [Resamp_proofs.arc]. rewrite IH by lia. rewrite HS by exact J. rewrite nq_S. ring. }
  apply (C121_vertices l nf _ xs ys (m * i) i H); [nia|nia|exact I|]. rewrite !AR by lia. rewrite LN. rewrite Nat.add_sub. rewrite !nq_mult. pose proof (nq_pos m ltac:(lia)). pose proof (nq_pos (length l - 1) ltac:(lia)). field. split; lra.
Qed.
(** A single vertex, or a single point asked. *)
Theorem C121_single : forall l nf fs xs ys, uniform_resample l nf fs = Some (xs, ys) ->
  (length l = 1%nat -> forall k, (k < length xs)%nat -> nth k xs 0 == fst (nth 0 l (0, 0)) /\ nth k ys 0 == snd (nth 0 l (0, 0))) /\
  (length xs = 1%nat -> nth 0 xs 0 == fst (nth 0 l (0, 0)) /\ nth 0 ys 0 == snd (nth 0 l (0, 0))).
Proof.
  intros l nf fs xs ys H. destruct (resample_eq _ _ _ _ _ H) as (NE & A & EX & EY). set (n := Z.to_nat (asked l nf fs)) in *. assert (LX : length xs = n) by (rewrite EX, map_length; apply linspace_length). assert (LY : length ys = n) by (rewrite EY, map_length; apply linspace_length). split.
  - intros L k K. destruct l as [|[a b] [|]]; try discriminate L. assert (G : forall f d, interp (lengths [(a, b)]) [f] d = f). { intros f d. unfold interp, Resamp_model.lengths. cbn. match goal with |- (if ?c then _ else _) = _ => destruct c end; reflexivity. }
    rewrite EX, EY. split; [rewrite (nth_indep _ 0 (interp (lengths [(a, b)]) (map fst [(a, b)]) 0)) by (rewrite map_length, linspace_length; lia)|rewrite (nth_indep _ 0 (interp (lengths [(a, b)]) (map snd [(a, b)]) 0)) by (rewrite map_length, linspace_length; lia)]; rewrite map_nth; cbn [map fst snd nth]; rewrite G; reflexivity.
  - intros N. rewrite N in LX. rewrite <- LX in EX, EY. change (linspace 0 (last (lengths l) 0) 1) with [0] in EX, EY. rewrite EX, EY. cbn [map nth]. pose proof (lengths_rising distance l NE) as RI. pose proof (lengths_length distance l NE) as LL. assert (L0 : (0 < length l)%nat) by (destruct l; [congruence|cbn; lia]).
    assert (Z0 : 0 == nth 0 (lengths l) 0) by (rewrite (lengths_nth distance) by exact L0; reflexivity). rewrite (interp_knot _ (map fst l) 0 0 RI ltac:(rewrite map_length; lia) ltac:(lia) Z0), (interp_knot _ (map snd l) 0 0 RI ltac:(rewrite map_length; lia) ltac:(lia) Z0).
    assert (G : forall (f : Q * Q -> Q), f (0, 0) = 0 -> forall j, nth j (map f l) 0 = f (nth j l (0, 0))) by (intros f FE j; transitivity (nth j (map f l) (f (0, 0))); [rewrite FE; reflexivity|apply map_nth]). rewrite (G fst eq_refl), (G snd eq_refl). split; reflexivity.
Qed.

(** Mean along a contour: every regular point but the first, which is also the last
    one, is used once; a nan gives nan unless it is removed; the mean is between the
    bounds of the values. *)
Definition points_of (xs ys : list Q) : list (Q * Q) := map (fun k => (nth k xs 0, nth k ys 0)) (seq 1 (length xs - 1)).
Lemma points_combine : forall xs ys, length ys = length xs -> combine (tl xs) (tl ys) = points_of xs ys.
Proof.
  intros [|x xs] [|y ys] L; try discriminate L; [reflexivity|]. unfold points_of. cbn [tl length]. replace (S (length xs) - 1)%nat with (length xs) by lia. injection L as L. rewrite <- seq_shift, map_map. cbn [nth].
  revert ys L. induction xs as [|a xs IH]; intros [|b ys] L; try discriminate L; [reflexivity|]. cbn [combine length seq map nth]. f_equal. injection L as L. rewrite IH by exact L. rewrite <- seq_shift, map_map. reflexivity.
Qed.
Lemma Qsum_bounds : forall l m M, (forall v, In v l -> m <= v <= M) -> nq (length l) * m <= Qsum l <= nq (length l) * M.
Proof.
  induction l as [|a l IH]; intros m M H; [cbn; change (nq 0) with 0; lra|]. cbn [length Qsum]. rewrite !nq_S. pose proof (H a (or_introl eq_refl)). pose proof (IH m M (fun v V => H v (or_intror V))). nra.
Qed.
Lemma mean_bounds : forall l m M q, mean l = Some q -> (forall v, In v l -> m <= v <= M) -> m <= q <= M.
Proof.
  intros l m M q E H. unfold mean in E. destruct l as [|a l]; [discriminate E|]. apply Some_inj in E. subst q. pose proof (Qsum_bounds _ _ _ H) as B. pose proof (nq_pos (length (a :: l)) ltac:(cbn; lia)) as P. revert B P. generalize (Qsum (a :: l)) (nq (length (a :: l))). intros u w B P. split; [apply Qle_shift_div_l; lra|apply Qle_shift_div_r; lra].
Qed.
Lemma sequence_all : forall (l : list (option Q)) l', sequence l = Some l' <-> l = map Some l'.
Proof.
  induction l as [|[v|] l IH]; intros l'; cbn.
  - split; [intros H; injection H as <-; reflexivity|destruct l'; [reflexivity|discriminate]].
  - destruct (sequence l) as [r|] eqn:E; cbn; split; intros H.
    + injection H as <-. cbn. f_equal. apply IH. reflexivity.
    + destruct l' as [|v' l']; [discriminate H|]. cbn in H. injection H as <- H. apply IH in H. injection H as <-. reflexivity.
    + discriminate H.
    + destruct l' as [|v' l']; [discriminate H|]. cbn in H. injection H as <- H. apply IH in H. discriminate H.
  - split; [discriminate|]. destruct l'; discriminate.
Qed.
Theorem C121_mean : forall value l nf fs rm res, mean_on_regular_contour distance value l nf fs rm = Some res ->
  exists xs ys, uniform_resample l nf fs = Some (xs, ys) /\
  let vs := map value (points_of xs ys) in
  (rm = false -> (res = None <-> (length xs <= 1)%nat \/ In None vs)) /\
  (rm = true -> (res = None <-> forall v, In v vs -> v = None)) /\
  (forall q, res = Some q -> exists good, q == Qsum good / nq (length good) /\ (rm = false -> vs = map Some good) /\ (rm = true -> good = flat_map (fun v => match v with Some q => [q] | None => [] end) vs)) /\
  forall m M q, res = Some q -> (forall v, In (Some v) vs -> m <= v <= M) -> m <= q <= M.
Proof.
  intros value l nf fs rm res H. unfold mean_on_regular_contour in H. destruct (uniform_resample l nf fs) as [[xs ys]|] eqn:E; [|discriminate H]. exists xs, ys. split; [reflexivity|]. cbn zeta. injection H as H.
  destruct (proj2 (C121_size l nf fs) xs ys E) as [_ LY]. rewrite (points_combine xs ys LY) in H. set (vs := map value (points_of xs ys)) in *. assert (LV : length vs = (length xs - 1)%nat) by (unfold vs, points_of; rewrite !map_length, seq_length; reflexivity). clearbody vs. unfold nan_mean in H.
  split; [|split; [|split]].
  - intros ->. destruct (sequence vs) as [g|] eqn:S1.
    + apply sequence_all in S1. subst vs. rewrite map_length in LV. destruct g as [|a g]; cbn in H; subst res; split; intros X; try discriminate X; try reflexivity.
      * left. cbn in LV. lia.
      * exfalso. destruct X as [X|X]; [cbn in LV; lia|]. apply in_map_iff in X as (y & Y & _). discriminate Y.
    + subst res. split; [|reflexivity]. intros _. right. clear LV. induction vs as [|[v|] vs IH]; cbn in *; [discriminate S1| |left; reflexivity]. right. apply IH. destruct (sequence vs); [discriminate S1|reflexivity].
  - intros ->. subst res. set (fl := flat_map _ vs). assert (F : forall q, In q fl <-> In (Some q) vs). { intros q. unfold fl. rewrite in_flat_map. split; [intros (v & V & I); destruct v as [w|]; [destruct I as [<-|[]]; exact V|destruct I]|intros I; exists (Some q); split; [exact I|left; reflexivity]]. }
    destruct fl as [|a fl'] eqn:EF; cbn [mean]; split; intros X; try discriminate X; try reflexivity.
    + intros [v|] V; [|reflexivity]. apply F in V. destruct V.
    + specialize (X (Some a) (proj1 (F a) (or_introl eq_refl))). discriminate X.
  - intros q ->. destruct rm.
    + exists (flat_map (fun v => match v with Some q => [q] | None => [] end) vs). split; [|split; [discriminate|reflexivity]]. unfold mean in H. destruct (flat_map _ vs); [discriminate H|]. injection H as <-. reflexivity.
    + destruct (sequence vs) as [g|] eqn:S1; [|discriminate H]. exists g. split; [|split; [intros _; apply sequence_all, S1|discriminate]]. unfold mean in H. destruct g; [discriminate H|]. injection H as <-. reflexivity.
  - intros m M q -> B. destruct rm.
    + apply (mean_bounds _ m M q H). intros v V. apply B. apply in_flat_map in V as ([w|] & W & I); [destruct I as [<-|[]]; exact W|destruct I].
    + destruct (sequence vs) as [g|] eqn:S1; [|discriminate H]. apply (mean_bounds _ m M q H). intros v V. apply B. apply sequence_all in S1. rewrite S1. apply in_map, V.
Qed.
End Props.
Print Assumptions C121_size.
Print Assumptions C121_points.
Print Assumptions C121_vertices.
Print Assumptions C121_ends.
Print Assumptions C121_regular.
Print Assumptions C121_single.
Print Assumptions C121_mean.

(** Profile of mean speeds of an eddy: [sampling] values at regular positions between
    the first and the last of the speeds. *)
Theorem C121_profile : forall speeds sampling, (2 <= sampling)%nat ->
  match profile speeds sampling with
  | None => speeds = []
  | Some p => speeds <> [] /\ length p = sampling /\
      nth 0 p 0 == nth 0 speeds 0 /\ nth (sampling - 1) p 0 == nth (length speeds - 1) speeds 0 /\
      (forall k, (k < sampling)%nat -> exists i j t, (i < length speeds)%nat /\ (j < length speeds)%nat /\ (j = i \/ j = S i) /\ 0 <= t <= 1 /\
         nq i + t == nq k * (nq (length speeds - 1) / nq (sampling - 1)) /\ nth k p 0 == (1 - t) * nth i speeds 0 + t * nth j speeds 0)
  end.
Proof.
  intros sp n N. assert (CASE : sp = [] \/ (exists v, sp = [v]) \/ (2 <= length sp)%nat) by (destruct sp as [|a [|b sp]]; [left; reflexivity|right; left; eauto|right; right; cbn; lia]).
  destruct CASE as [->|[(v & ->)|L]]; [reflexivity| |].
  - cbn [profile]. assert (R : forall k, (k < n)%nat -> nth k (repeat v n) 0 = v) by (intros k K; rewrite (nth_indep _ 0 v) by (rewrite repeat_length; exact K); apply nth_repeat).
    split; [discriminate|]. split; [apply repeat_length|]. rewrite !R by lia. cbn. split; [reflexivity|]. split; [reflexivity|]. intros k K. exists 0%nat, 0%nat, 0. rewrite R by exact K. pose proof (nq_pos (n - 1) ltac:(lia)). split; [lia|]. split; [lia|]. split; [left; reflexivity|]. split; [lra|]. split; [change (nq 0) with 0; field; lra|ring].
  - assert (E : profile sp n = raw_resample sp n) by (destruct sp as [|a [|b sp]]; cbn in L; try lia; reflexivity). rewrite E. unfold raw_resample. destruct (Nat.leb_spec (length sp) 1); [lia|]. set (m := length sp) in *. set (xp := map (fun i => nq i * (nq n - 1) / (nq m - 1)) (seq 0 m)).
    pose proof (nq_pos (n - 1) ltac:(lia)) as NP. pose proof (nq_pos (m - 1) ltac:(lia)) as MP. pose proof (nq_minus1 n ltac:(lia)) as N1. pose proof (nq_minus1 m ltac:(lia)) as M1.
    assert (XL : length xp = m) by (unfold xp; rewrite map_length, seq_length; reflexivity).
    assert (XN : forall i, (i < m)%nat -> nth i xp 0 == nq i * (nq (n - 1) / nq (m - 1))). { intros i I. unfold xp. rewrite (nth_indep _ 0 ((fun i => nq i * (nq n - 1) / (nq m - 1)) 0%nat)) by (rewrite map_length, seq_length; exact I). rewrite (map_nth (fun i => nq i * (nq n - 1) / (nq m - 1))), seq_nth by exact I. cbn [Nat.add]. rewrite N1, M1. field. lra. }
    assert (RT : 0 < nq (n - 1) / nq (m - 1)) by (apply Qlt_shift_div_l; lra).
    assert (RI : rising xp). { intros i I. rewrite XL in I. rewrite !XN by lia. rewrite nq_S. nra. }
    assert (XLAST : last xp 0 == nq (n - 1)) by (rewrite last_nth, XL, XN by lia; field; lra).
    assert (G : forall k, (k < n)%nat -> nth k (map (fun k => interp xp sp (nq k)) (seq 0 n)) 0 = interp xp sp (nq k)). { intros k K. rewrite (nth_indep _ 0 (interp xp sp (nq 0))) by (rewrite map_length, seq_length; exact K). rewrite (map_nth (fun k => interp xp sp (nq k))), seq_nth by exact K. reflexivity. }
    split; [intros ->; cbn in L; lia|]. split; [rewrite map_length, seq_length; reflexivity|]. rewrite !G by lia. split; [|split].
    + apply interp_knot; [exact RI|exact (eq_sym XL)|lia|]. rewrite XN by lia. change (nq 0) with 0. ring.
    + apply interp_knot; [exact RI|exact (eq_sym XL)|lia|]. rewrite XN by lia. field. lra.
    + intros k K. rewrite G by exact K. assert (K0 : nth 0 xp 0 <= nq k). { rewrite XN by lia. change (nq 0) with 0. pose proof (nq_nonneg k). lra. } assert (K1 : nq k <= last xp 0) by (rewrite XLAST; apply nq_le; lia).
      destruct (locate_range xp (nq k) RI ltac:(lia) K0 K1) as (I1 & I2 & I3). pose proof (interp_locate xp sp (nq k) RI (eq_sym XL) ltac:(lia) K0 K1) as V. set (i := locate xp (nq k)) in *. rewrite XL in I1. rewrite XN in I2 by lia. rewrite XN in I3 by lia. rewrite nq_S in I3. rewrite !XN, nq_S in V by lia.
      set (w := nq (n - 1) / nq (m - 1)) in *. exists i, (S i), (nq k / w - nq i). split; [lia|]. split; [exact I1|]. split; [right; reflexivity|]. assert (A : nq i <= nq k / w) by (apply Qle_shift_div_l; lra). assert (B : nq k / w <= nq i + 1) by (apply Qle_shift_div_r; lra). split; [lra|]. split.
      * unfold w. field. lra.
      * rewrite V. field. lra.
Qed.
Print Assumptions C121_profile.

(** A closed triangle with sides 3, 4, 5 (in metres) resampled with 13 points; a mean
    along it. *)
Definition dd (a b : Q * Q) : Q := let dx := Qabs.Qabs (fst a - fst b) in let dy := Qabs.Qabs (snd a - snd b) in if Qle_bool dx 0 then dy else if Qle_bool dy 0 then dx else 5.
Definition tri : list (Q * Q) := [(0, 0); (4, 0); (4, 3); (0, 0)].
Example C121_triangle : match uniform_resample dd tri 2 13 with Some (xs, ys) => map Qred xs = [0; 1; 2; 3; 4; 4; 4; 4; 16 # 5; 12 # 5; 8 # 5; 4 # 5; 0] /\ map Qred ys = [0; 0; 0; 0; 0; 1; 2; 3; 12 # 5; 9 # 5; 6 # 5; 3 # 5; 0] | None => False end.
Proof. vm_compute. split; reflexivity. Qed.
Example C121_default : match uniform_resample dd tri 2 (-1) with Some (xs, ys) => length xs = 8%nat | None => False end.
Proof. vm_compute. reflexivity. Qed.
Example C121_mean_case : match mean_on_regular_contour dd (fun p => Some (fst p + snd p)) tri 2 13 false with Some (Some q) => Qred q = 7 # 2 | _ => False end.
Proof. vm_compute. reflexivity. Qed.
Example C121_regular_case : match uniform_resample dd [(0, 0); (2, 0); (2, 2); (0, 2); (0, 0)] 2 9 with Some (xs, ys) => map Qred xs = [0; 1; 2; 2; 2; 1; 0; 0; 0] | None => False end.
Proof. vm_compute. reflexivity. Qed.
Example C121_profile_case : option_map (map Qred) (profile [1; 3; 2] 5) = Some [1; 2; 3; 5 # 2; 2].
Proof. vm_compute. reflexivity. Qed.
