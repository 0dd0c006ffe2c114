(** Lemmas on the fit of a circle. *)
From Coq Require Import List Arith Reals Lra Lia.
From Verif Require Import Base Corr_model Circ_model.
Import ListNotations.
Local Open Scope R_scope.

Lemma sumf_ext : forall {A} (f g : A -> R) l, (forall a, In a l -> f a = g a) -> sumf f l = sumf g l.
Proof. intros A f g. induction l as [|a l IH]; intros H; [reflexivity|]. cbn [sumf]. rewrite (H a (or_introl eq_refl)), IH by (intros b B; apply H; right; exact B). reflexivity. Qed.
Lemma sumf_plus : forall {A} (f g : A -> R) l, sumf (fun a => f a + g a) l = sumf f l + sumf g l.
Proof. intros A f g. induction l as [|a l IH]; cbn [sumf]; [lra|]. rewrite IH. lra. Qed.
Lemma sumf_scal : forall {A} k (f : A -> R) l, sumf (fun a => k * f a) l = k * sumf f l.
Proof. intros A k f. induction l as [|a l IH]; cbn [sumf]; [lra|]. rewrite IH. lra. Qed.
Lemma sumf_const : forall {A} k (l : list A), sumf (fun _ => k) l = INR (length l) * k.
Proof. intros A k. induction l as [|a l IH]; cbn [sumf length]; [cbn; lra|]. rewrite IH, S_INR. lra. Qed.
Lemma sumf_nonneg : forall {A} (f : A -> R) l, (forall a, In a l -> 0 <= f a) -> 0 <= sumf f l.
Proof. intros A f. induction l as [|a l IH]; intros H; cbn [sumf]; [lra|]. pose proof (H a (or_introl eq_refl)). pose proof (IH (fun b B => H b (or_intror B))). lra. Qed.
Lemma sumf_zero : forall {A} (f : A -> R) l, (forall a, In a l -> 0 <= f a) -> sumf f l <= 0 -> forall a, In a l -> f a = 0.
Proof.
  intros A f. induction l as [|a l IH]; intros H Z b B; [destruct B|]. cbn [sumf] in Z. pose proof (H a (or_introl eq_refl)). pose proof (sumf_nonneg f l (fun b B => H b (or_intror B))).
  destruct B as [<-|B]; [lra|]. apply IH; [intros; apply H; right; assumption|lra|exact B].
Qed.
Lemma sumf_map : forall {A B} (f : B -> R) (g : A -> B) l, sumf f (map g l) = sumf (fun a => f (g a)) l.
Proof. intros A B f g. induction l as [|a l IH]; [reflexivity|]. cbn [map sumf]. rewrite IH. reflexivity. Qed.
Lemma length_INR : forall {A} (l : list A), l <> [] -> 0 < INR (length l).
Proof. intros A l N. apply lt_0_INR. destruct l; [congruence|cbn; lia]. Qed.
Lemma maxf_ge : forall {A} (f : A -> R) l a, In a l -> f a <= maxf f l.
Proof.
  intros A f. induction l as [|b l IH]; intros a I; [destruct I|]. destruct l as [|c l]; [destruct I as [<-|[]]; cbn; lra|].
  change (maxf f (b :: c :: l)) with (Rmax (f b) (maxf f (c :: l))). destruct I as [<-|I]; [apply Rmax_l|]. eapply Rle_trans; [apply IH, I|apply Rmax_r].
Qed.
Lemma maxf_in : forall {A} (f : A -> R) l, l <> [] -> exists a, In a l /\ maxf f l = f a.
Proof.
  intros A f. induction l as [|b l IH]; intros N; [congruence|]. destruct l as [|c l]; [exists b; split; [left; reflexivity|reflexivity]|].
  change (maxf f (b :: c :: l)) with (Rmax (f b) (maxf f (c :: l))). destruct (IH ltac:(discriminate)) as (a & I & E). unfold Rmax. destruct (Rle_dec _ _); [exists a; split; [right; exact I|exact E]|exists b; split; [left; reflexivity|reflexivity]].
Qed.

(** ** Least squares *)
(** Sum of the squares of the residuals of [rows * v = z]. *)
Definition dot3 (row v : R * R * R) : R := let '(a, b, c) := row in let '(u, v, w) := v in a * u + b * v + c * w.
Definition cost (rows : list (R * R * R)) (z : list R) (v : R * R * R) : R :=
  sumf (fun q => (dot3 (fst q) v - snd q) ^ 2) (combine rows z).
(** What numpy says of [lstsq]: a solution of least residual. *)
Definition least_squares (lstsq : list (R * R * R) -> list R -> R * R * R) : Prop :=
  forall rows z v, length rows = length z -> cost rows z (lstsq rows z) <= cost rows z v.

(** Such a function exists: by orthogonalisation. *)
Definition inner (l : list (R * R * R * R)) (f g : R * R * R * R -> R) : R := sumf (fun q => f q * g q) l.
Definition over (a b : R) : R := if Req_EM_T b 0 then 0 else a / b.
Definition c1 (q : R * R * R * R) := let '(a, b, c, z) := q in a.
Definition c2 (q : R * R * R * R) := let '(a, b, c, z) := q in b.
Definition c3 (q : R * R * R * R) := let '(a, b, c, z) := q in c.
Definition c4 (q : R * R * R * R) := let '(a, b, c, z) := q in z.
Definition ortho_lstsq (rows : list (R * R * R)) (z : list R) : R * R * R :=
  let l := combine rows z in
  let k12 := over (inner l c2 c1) (inner l c1 c1) in
  let e2 q := c2 q - k12 * c1 q in
  let k13 := over (inner l c3 c1) (inner l c1 c1) in
  let k23 := over (inner l c3 e2) (inner l e2 e2) in
  let e3 q := c3 q - k13 * c1 q - k23 * e2 q in
  let t1 := over (inner l c4 c1) (inner l c1 c1) in
  let t2 := over (inner l c4 e2) (inner l e2 e2) in
  let t3 := over (inner l c4 e3) (inner l e3 e3) in
  (t1 - k12 * t2 - (k13 - k23 * k12) * t3, t2 - k23 * t3, t3).

Lemma inner_minus : forall l f g h k, inner l (fun q => f q - k * g q) h = inner l f h - k * inner l g h.
Proof. intros l f g h k. unfold inner. induction l as [|q l IH]; cbn [sumf]; [lra|]. rewrite IH. ring. Qed.
Lemma inner_sym : forall l f g, inner l f g = inner l g f.
Proof. intros. apply sumf_ext. intros. ring. Qed.
Lemma inner_zero : forall l f g, inner l f f = 0 -> inner l g f = 0.
Proof.
  intros l f g H. unfold inner in *. rewrite (sumf_ext _ (fun _ => 0)); [rewrite sumf_const; ring|]. intros q Q.
  assert (Z : f q * f q = 0) by (apply (sumf_zero (fun q => f q * f q) l); [intros; nra|lra|exact Q]). assert (f q = 0) by nra. rewrite H0. ring.
Qed.
Lemma over_ortho : forall l f g, inner l g f - over (inner l g f) (inner l f f) * inner l f f = 0.
Proof. intros l f g. unfold over. destruct (Req_EM_T (inner l f f) 0) as [E|N]; [rewrite (inner_zero l f g E); lra|field; exact N]. Qed.

Lemma ortho_least : least_squares ortho_lstsq.
Proof.
  intros rows z v _. unfold cost, ortho_lstsq. set (l := combine rows z). clearbody l. clear rows z.
  set (k12 := over (inner l c2 c1) (inner l c1 c1)). set (e2 := fun q => c2 q - k12 * c1 q). set (k13 := over (inner l c3 c1) (inner l c1 c1)). set (k23 := over (inner l c3 e2) (inner l e2 e2)).
  set (e3 := fun q => c3 q - k13 * c1 q - k23 * e2 q). set (t1 := over (inner l c4 c1) (inner l c1 c1)). set (t2 := over (inner l c4 e2) (inner l e2 e2)). set (t3 := over (inner l c4 e3) (inner l e3 e3)).
  assert (O12 : inner l e2 c1 = 0) by (unfold e2; rewrite inner_minus; apply over_ortho).
  assert (O13 : inner l e3 c1 = 0). { unfold e3. rewrite inner_minus, O12, inner_minus. unfold k13. rewrite (over_ortho l c1 c3). ring. }
  assert (O23 : inner l e3 e2 = 0). { unfold e3. rewrite inner_minus, inner_minus. rewrite (inner_sym l c1 e2), O12. unfold k23. pose proof (over_ortho l e2 c3). lra. }
  set (res := fun q => c4 q - t1 * c1 q - t2 * e2 q - t3 * e3 q).
  assert (R1 : inner l res c1 = 0). { unfold res. rewrite !inner_minus, O12, O13. pose proof (over_ortho l c1 c4). fold t1 in H. lra. }
  assert (R2 : inner l res e2 = 0). { unfold res. rewrite !inner_minus, O23, (inner_sym l c1 e2), O12. pose proof (over_ortho l e2 c4). fold t2 in H. lra. }
  assert (R3 : inner l res e3 = 0). { unfold res. rewrite !inner_minus, (inner_sym l c1 e3), O13, (inner_sym l e2 e3), O23. pose proof (over_ortho l e3 c4). fold t3 in H. lra. }
  destruct v as [[u v] w]. set (sol := (t1 - k12 * t2 - (k13 - k23 * k12) * t3, t2 - k23 * t3, t3)).
  (* the difference of the two solutions in the orthogonal base *)
  set (d3 := w - t3). set (d2 := v - (t2 - k23 * t3) + k23 * d3). set (d1 := u - (t1 - k12 * t2 - (k13 - k23 * k12) * t3) + k12 * d2 + (k13 - k23 * k12) * d3).
  assert (E : sumf (fun q => (dot3 (fst q) (u, v, w) - snd q) ^ 2) l = sumf (fun q => (dot3 (fst q) sol - snd q) ^ 2) l + sumf (fun q => (d1 * c1 q + d2 * e2 q + d3 * e3 q) ^ 2) l - 2 * (d1 * inner l res c1 + d2 * inner l res e2 + d3 * inner l res e3)).
  { unfold inner. rewrite <- !sumf_scal. rewrite <- !sumf_plus. rewrite <- sumf_scal. replace (sumf (fun q => (dot3 (fst q) (u, v, w) - snd q) ^ 2) l) with (sumf (fun q : R * R * R * R => (dot3 (fst q) (u, v, w) - snd q) ^ 2 + 0) l) by (apply sumf_ext; intros; ring).
    assert (G : forall q, In q l -> (dot3 (fst q) (u, v, w) - snd q) ^ 2 + 0 = ((dot3 (fst q) sol - snd q) ^ 2 + (d1 * c1 q + d2 * e2 q + d3 * e3 q) ^ 2) + (-1) * (2 * (d1 * (res q * c1 q) + d2 * (res q * e2 q) + d3 * (res q * e3 q)))).
    { intros [[[a b] c] zz] _. unfold dot3, sol, res, e3, e2, c1, c2, c3, c4, d1, d2, d3. cbn [fst snd]. ring. }
    rewrite (sumf_ext _ _ l G). rewrite sumf_plus, sumf_scal. ring. }
  match goal with |- ?a <= _ => change a with (sumf (fun q : R * R * R * R => (dot3 (fst q) sol - snd q) ^ 2) l) end.
  rewrite E, R1, R2, R3. pose proof (sumf_nonneg (fun q => (d1 * c1 q + d2 * e2 q + d3 * e3 q) ^ 2) l ltac:(intros; apply pow2_ge_0)). lra.
Qed.

(** ** Circles *)
(** Square of the distance of two points. *)
Definition dist2 (p c : pt) : R := (fst p - fst c) ^ 2 + (snd p - snd c) ^ 2.
(** Sum, on the vertices, of the squares of (square of the distance to the centre
    minus square of the radius). *)
Definition misfit (t : list pt) (x y r : R) : R := sumf (fun p => (dist2 p (x, y) - r ^ 2) ^ 2) t.
(** The circle which has the least misfit. *)
Definition best_circle (t : list pt) (x y r : R) : Prop := 0 <= r /\ forall u v w, misfit t x y r <= misfit t u v w.
(** Three vertices are not on a line. *)
Definition not_on_line (t : list pt) : Prop :=
  exists p q r, In p t /\ In q t /\ In r t /\ (fst q - fst p) * (snd r - snd p) - (snd q - snd p) * (fst r - fst p) <> 0.

(** the same with any number instead of the square of the radius *)
Definition gap (t : list pt) (x y w2 : R) : R := sumf (fun p => (dist2 p (x, y) - w2) ^ 2) t.

Lemma gap_mean : forall t x y w2, t <> [] -> gap t x y (mean (fun p => dist2 p (x, y)) t) <= gap t x y w2.
Proof.
  intros t x y w2 N. unfold gap, mean. pose proof (length_INR t N) as L. set (n := INR (length t)) in *. set (m := sumf (fun p => dist2 p (x, y)) t / n).
  assert (E : sumf (fun p => (dist2 p (x, y) - w2) ^ 2) t = sumf (fun p => (dist2 p (x, y) - m) ^ 2) t + 2 * (m - w2) * (sumf (fun p => dist2 p (x, y)) t - n * m) + n * (m - w2) ^ 2).
  { unfold n. clearbody m. clear. induction t as [|p t IH]; [cbn; ring|]. cbn [sumf length]. rewrite S_INR, IH. ring. }
  rewrite E. replace (sumf (fun p => dist2 p (x, y)) t - n * m) with 0 by (unfold m; field; lra). pose proof (pow2_ge_0 (m - w2)). nra.
Qed.
Lemma mean_nonneg : forall {A} (f : A -> R) t, t <> [] -> (forall a, In a t -> 0 <= f a) -> 0 <= mean f t.
Proof. intros A f t N H. unfold mean. pose proof (length_INR t N). apply Rmult_le_pos; [apply sumf_nonneg, H|]. left. apply Rinv_0_lt_compat. assumption. Qed.
Lemma dist2_nonneg : forall p c, 0 <= dist2 p c.
Proof. intros. unfold dist2. pose proof (pow2_ge_0 (fst p - fst c)). pose proof (pow2_ge_0 (snd p - snd c)). lra. Qed.
(** A best circle is best among all the numbers. *)
Lemma best_gap : forall t x y r, t <> [] -> best_circle t x y r -> forall u v w2, gap t x y (r ^ 2) <= gap t u v w2.
Proof.
  intros t x y r N [_ B] u v w2. set (m := mean (fun p => dist2 p (u, v)) t). assert (M : 0 <= m) by (apply mean_nonneg; [exact N|intros; apply dist2_nonneg]).
  eapply Rle_trans; [|apply (gap_mean t u v w2 N)]. fold m. specialize (B u v (sqrt m)). unfold misfit in B. rewrite pow2_sqrt in B by exact M. exact B.
Qed.
Lemma gap_unique : forall t x y w x' y' w', not_on_line t -> (forall u v e, gap t x y w <= gap t u v e) -> (forall u v e, gap t x' y' w' <= gap t u v e) -> x = x' /\ y = y' /\ w = w'.
Proof.
  intros t x y w x' y' w' (p & q & r & P & Q & R0 & NL) B B'.
  (* middle of the two solutions *)
  set (u := (x + x') / 2). set (v := (y + y') / 2). set (e := u ^ 2 + v ^ 2 - ((x ^ 2 + y ^ 2 - w) + (x' ^ 2 + y' ^ 2 - w')) / 2).
  assert (E : gap t u v e = (gap t x y w + gap t x' y' w') / 2 - sumf (fun p => ((dist2 p (x, y) - w) - (dist2 p (x', y') - w')) ^ 2) t / 4).
  { unfold gap. assert (G : forall p, (dist2 p (u, v) - e) ^ 2 = ((dist2 p (x, y) - w) ^ 2 + (dist2 p (x', y') - w') ^ 2) / 2 - ((dist2 p (x, y) - w) - (dist2 p (x', y') - w')) ^ 2 / 4). { intros a. unfold dist2, e, u, v. cbn [fst snd]. field. }
    clear - G. induction t as [|a t IH]; [cbn; lra|]. cbn [sumf]. rewrite IH, G. lra. }
  pose proof (B u v e) as B1. pose proof (B x' y' w') as B2. pose proof (B' x y w) as B3. rewrite E in B1.
  assert (Z : forall a, In a t -> ((dist2 a (x, y) - w) - (dist2 a (x', y') - w')) ^ 2 = 0). { apply (sumf_zero (fun p => ((dist2 p (x, y) - w) - (dist2 p (x', y') - w')) ^ 2)); [intros; apply pow2_ge_0|]. lra. }
  assert (Z' : forall a, In a t -> 2 * (x' - x) * fst a + 2 * (y' - y) * snd a + (x ^ 2 + y ^ 2 - w - (x' ^ 2 + y' ^ 2 - w')) = 0).
  { intros a A. pose proof (Z a A) as H. assert (H0 : (dist2 a (x, y) - w) - (dist2 a (x', y') - w') = 0) by (clear - H; nra). rewrite <- H0. unfold dist2. cbn [fst snd]. ring. }
  pose proof (Z' p P) as H1. pose proof (Z' q Q) as H2. pose proof (Z' r R0) as H3. set (a := x' - x) in *. set (b := y' - y) in *.
  assert (D1 : a * (fst q - fst p) + b * (snd q - snd p) = 0) by lra. assert (D2 : a * (fst r - fst p) + b * (snd r - snd p) = 0) by lra.
  set (D := (fst q - fst p) * (snd r - snd p) - (snd q - snd p) * (fst r - fst p)) in *.
  assert (A0 : a * D = 0). { unfold D. replace (a * ((fst q - fst p) * (snd r - snd p) - (snd q - snd p) * (fst r - fst p))) with ((a * (fst q - fst p) + b * (snd q - snd p)) * (snd r - snd p) - (a * (fst r - fst p) + b * (snd r - snd p)) * (snd q - snd p)) by ring. rewrite D1, D2. ring. }
  assert (B0 : b * D = 0). { unfold D. replace (b * ((fst q - fst p) * (snd r - snd p) - (snd q - snd p) * (fst r - fst p))) with ((a * (fst r - fst p) + b * (snd r - snd p)) * (fst q - fst p) - (a * (fst q - fst p) + b * (snd q - snd p)) * (fst r - fst p)) by ring. rewrite D1, D2. ring. }
  assert (a = 0) by (apply Rmult_integral in A0 as [|]; [assumption|contradiction]). assert (b = 0) by (apply Rmult_integral in B0 as [|]; [assumption|contradiction]).
  assert (x' = x) by (unfold a in *; lra). assert (y' = y) by (unfold b in *; lra). subst x' y'. split; [reflexivity|]. split; [reflexivity|]. unfold a, b in H1. lra.
Qed.
Lemma best_unique : forall t x y r x' y' r', not_on_line t -> best_circle t x y r -> best_circle t x' y' r' -> x = x' /\ y = y' /\ r = r'.
Proof.
  intros t x y r x' y' r' NL B B'. assert (N : t <> []) by (destruct NL as (p & _ & _ & P & _); intros ->; destruct P).
  destruct (gap_unique t x y (r ^ 2) x' y' (r' ^ 2) NL (best_gap _ _ _ _ N B) (best_gap _ _ _ _ N B')) as (-> & -> & E). destruct B as [R0 _], B' as [R1 _]. split; [reflexivity|]. split; [reflexivity|]. nra.
Qed.

(** A solution of least squares of the rows (k (x - xm) / s, k (y - ym) / s, 1). *)
Lemma cost_rows : forall t k s xm ym U V c, s <> 0 ->
  cost (map (fun p : pt => (k * (fst p - xm) / s, k * (snd p - ym) / s, 1)) t) (map (fun p => ((fst p - xm) ^ 2 + (snd p - ym) ^ 2) / s ^ 2) t) (U, V, c)
  = gap t (k * U / 2 * s + xm) (k * V / 2 * s + ym) ((c + ((k * U / 2) ^ 2 + (k * V / 2) ^ 2)) * s ^ 2) / s ^ 4.
Proof.
  intros t k s xm ym U V c S0. unfold cost, gap. induction t as [|p t IH]; [cbn; field; exact S0|]. cbn [map combine sumf]. rewrite IH. cbn [dot3 fst snd]. unfold dist2. cbn [fst snd]. field. exact S0.
Qed.
Lemma solution_best : forall t k s xm ym U V c, t <> [] -> 0 < s -> k <> 0 ->
  (forall v, cost (map (fun p : pt => (k * (fst p - xm) / s, k * (snd p - ym) / s, 1)) t) (map (fun p => ((fst p - xm) ^ 2 + (snd p - ym) ^ 2) / s ^ 2) t) (U, V, c) <= cost (map (fun p : pt => (k * (fst p - xm) / s, k * (snd p - ym) / s, 1)) t) (map (fun p => ((fst p - xm) ^ 2 + (snd p - ym) ^ 2) / s ^ 2) t) v) ->
  let x0 := k * U / 2 * s + xm in let y0 := k * V / 2 * s + ym in
  let e := c + ((k * U / 2) ^ 2 + (k * V / 2) ^ 2) in
  e * s ^ 2 = mean (fun p => dist2 p (x0, y0)) t /\ best_circle t x0 y0 (sqrt e * s).
Proof.
  intros t k s xm ym U V c N S0 K H x0 y0 e. assert (S4 : 0 < s ^ 4) by (apply pow_lt; exact S0). assert (S2 : 0 < s ^ 2) by (apply pow_lt; exact S0).
  assert (G : forall u v w2, gap t x0 y0 (e * s ^ 2) <= gap t u v w2).
  { intros u v w2. specialize (H (2 * (u - xm) / s / k, 2 * (v - ym) / s / k, w2 / s ^ 2 - (((u - xm) / s) ^ 2 + ((v - ym) / s) ^ 2))). rewrite !cost_rows in H by lra. fold x0 y0 e in H.
    replace (k * (2 * (u - xm) / s / k) / 2) with ((u - xm) / s) in H by (field; split; lra). replace (k * (2 * (v - ym) / s / k) / 2) with ((v - ym) / s) in H by (field; split; lra).
    replace ((u - xm) / s * s + xm) with u in H by (field; lra). replace ((v - ym) / s * s + ym) with v in H by (field; lra). replace ((w2 / s ^ 2 - (((u - xm) / s) ^ 2 + ((v - ym) / s) ^ 2) + (((u - xm) / s) ^ 2 + ((v - ym) / s) ^ 2)) * s ^ 2) with w2 in H by (field; lra).
    apply (Rmult_le_reg_r (/ s ^ 4)); [apply Rinv_0_lt_compat; exact S4|exact H]. }
  assert (M : e * s ^ 2 = mean (fun p => dist2 p (x0, y0)) t).
  { pose proof (G x0 y0 (mean (fun p => dist2 p (x0, y0)) t)) as G1. unfold gap, mean in *. pose proof (length_INR t N) as L. set (n := INR (length t)) in *. set (m := sumf (fun p => dist2 p (x0, y0)) t / n) in *. set (w2 := e * s ^ 2) in *.
    assert (E : sumf (fun p => (dist2 p (x0, y0) - w2) ^ 2) t = sumf (fun p => (dist2 p (x0, y0) - m) ^ 2) t + 2 * (m - w2) * (sumf (fun p => dist2 p (x0, y0)) t - n * m) + n * (m - w2) ^ 2).
    { unfold n. clearbody m w2. clear. induction t as [|p t IH]; [cbn; ring|]. cbn [sumf length]. rewrite S_INR, IH. ring. }
    rewrite E in G1. replace (sumf (fun p => dist2 p (x0, y0)) t - n * m) with 0 in G1 by (unfold m; field; lra). assert (Z : (m - w2) ^ 2 = 0) by (pose proof (pow2_ge_0 (m - w2)); nra). assert (m - w2 = 0) by nra. lra. }
  split; [exact M|]. assert (E0 : 0 <= e). { assert (0 <= e * s ^ 2) by (rewrite M; apply mean_nonneg; [exact N|intros; apply dist2_nonneg]). nra. }
  split; [apply Rmult_le_pos; [apply sqrt_pos|lra]|]. intros u v w. unfold misfit. replace ((sqrt e * s) ^ 2) with (e * s ^ 2) by (rewrite Rpow_mult_distr, pow2_sqrt by exact E0; reflexivity). exact (G u v (w ^ 2)).
Qed.
