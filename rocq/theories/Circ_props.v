(** Property C120: circle fitted on a contour, on real numbers (axioms of the
    real numbers of the standard library). *)
From Coq Require Import List Arith Bool Reals Lra Lia.
From Verif Require Import Base Corr_model Circ_model Circ_proofs.
Import ListNotations.
Local Open Scope R_scope.

Lemma all_same_max : forall t (xm ym : R), t <> [] -> maxf (fun p : pt => (fst p - xm) ^ 2 + (snd p - ym) ^ 2) t = 0 -> forall p, In p t -> p = (xm, ym).
Proof.
  intros t xm ym N M p P. pose proof (maxf_ge (fun p : pt => (fst p - xm) ^ 2 + (snd p - ym) ^ 2) t p P) as G. cbn beta in G. rewrite M in G. pose proof (pow2_ge_0 (fst p - xm)). pose proof (pow2_ge_0 (snd p - ym)). destruct p as [x y]. cbn [fst snd] in *. f_equal; nra.
Qed.
Lemma max_pos : forall t (xm ym : R) p q, In p t -> In q t -> p <> q -> 0 < maxf (fun p : pt => (fst p - xm) ^ 2 + (snd p - ym) ^ 2) t.
Proof.
  intros t xm ym p q P Q N. assert (T : t <> []) by (intros ->; destruct P). pose proof (maxf_ge (fun p : pt => (fst p - xm) ^ 2 + (snd p - ym) ^ 2) t p P) as G. cbn beta in G. pose proof (pow2_ge_0 (fst p - xm)). pose proof (pow2_ge_0 (snd p - ym)).
  destruct (Req_dec (maxf (fun p : pt => (fst p - xm) ^ 2 + (snd p - ym) ^ 2) t) 0) as [E|E]; [|lra]. exfalso. apply N. rewrite (all_same_max t xm ym T E p P), (all_same_max t xm ym T E q Q). reflexivity.
Qed.
(** The circle and the error are defined. *)
Lemma pull_none : forall x0 y0 r l, sequence (map (pull x0 y0 r) l) = None <-> In (x0, y0) l.
Proof.
  intros x0 y0 r. induction l as [|p l IH]; [cbn; split; [discriminate|intros []]|]. cbn [map sequence In]. unfold pull at 1. set (d := sqrt ((fst p - x0) ^ 2 + (snd p - y0) ^ 2)).
  assert (D : d = 0 <-> p = (x0, y0)).
  { unfold d. pose proof (pow2_ge_0 (fst p - x0)). pose proof (pow2_ge_0 (snd p - y0)). split.
    - intros E. apply sqrt_eq_0 in E; [|lra]. destruct p as [x y]. cbn [fst snd] in *. f_equal; nra.
    - intros ->. cbn [fst snd]. replace ((x0 - x0) ^ 2 + (y0 - y0) ^ 2) with 0 by ring. apply sqrt_0. }
  destruct (Req_EM_T d 0) as [E|E].
  - cbn [bind]. split; [intros _; left; apply D, E|reflexivity].
  - cbn [bind]. destruct (sequence (map (pull x0 y0 r) l)) eqn:Q; cbn [bind].
    + split; [discriminate|]. intros [C|C]; [exfalso; apply E, D, C|apply IH in C; discriminate C].
    + split; [intros _; right; apply IH; reflexivity|reflexivity].
Qed.
Lemma error_none : forall l x0 y0 r, (2 <= length l)%nat -> 0 < r -> (shape_error l x0 y0 r = None <-> In (x0, y0) l).
Proof.
  intros l x0 y0 r L R0. unfold shape_error. destruct (Nat.ltb_spec (length l) 2); [lia|]. pose proof (pull_none x0 y0 r l) as P. destruct (sequence (map (pull x0 y0 r) l)); cbn [bind]; [|tauto].
  destruct (Req_EM_T (r ^ 2 * PI) 0) as [E|E]; [exfalso; pose proof PI_RGT_0; assert (0 < r ^ 2) by (apply pow_lt; exact R0); nra|]. split; [discriminate|]. intros C. apply P in C. discriminate C.
Qed.

(** What both fits give. *)
Lemma fit_facts : forall lstsq l, least_squares lstsq -> (exists p q, In p (tl l) /\ In q (tl l) /\ p <> q) ->
  (exists x0 y0 r, fit_circle lstsq l = option_map (fun e => (x0, y0, r, e)) (shape_error l x0 y0 r) /\ best_circle (tl l) x0 y0 r /\ r ^ 2 = mean (fun p => dist2 p (x0, y0)) (tl l)) /\
  (exists x0 y0 r, fit_circle_ lstsq l = option_map (fun e => (x0, y0, r, e)) (shape_error l x0 y0 r) /\ best_circle (tl l) x0 y0 r /\ r ^ 2 = mean (fun p => dist2 p (x0, y0)) (tl l)).
Proof.
  intros lstsq l H (p & q & P & Q & D). assert (N : tl l <> []) by (intros E; rewrite E in P; destruct P). set (t := tl l) in *.
  assert (LT : (length t =? 0)%nat = false) by (apply Nat.eqb_neq; destruct t; [congruence|discriminate]). split.
  - unfold fit_circle. fold t. rewrite LT. set (xm := mean fst t). set (ym := mean snd t). set (nm := maxf (fun p => (fst p - xm) ^ 2 + (snd p - ym) ^ 2) t).
    assert (NM : 0 < nm) by (apply (max_pos t xm ym p q P Q D)). destruct (Req_EM_T nm 0) as [E|_]; [lra|]. pose proof (sqrt_lt_R0 nm NM) as S0. set (s := sqrt nm) in *.
    assert (S2 : nm = s ^ 2) by (unfold s; rewrite pow2_sqrt; lra). rewrite S2.
    destruct (lstsq (map (fun p => (2 * (fst p - xm) / s, 2 * (snd p - ym) / s, 1)) t) (map (fun p => ((fst p - xm) ^ 2 + (snd p - ym) ^ 2) / s ^ 2) t)) as [[U V] c] eqn:EL.
    destruct (solution_best t 2 s xm ym U V c N S0 ltac:(lra)) as [M B]. { intros v. rewrite <- EL. apply H. rewrite !map_length. reflexivity. }
    replace (2 * U / 2) with U in * by field. replace (2 * V / 2) with V in * by field. set (e := c + (U ^ 2 + V ^ 2)) in *.
    exists (U * s + xm), (V * s + ym), (sqrt e * s). split; [destruct (shape_error l (U * s + xm) (V * s + ym) (sqrt e * s)); reflexivity|]. split; [exact B|].
    rewrite <- M. rewrite Rpow_mult_distr. rewrite pow2_sqrt; [reflexivity|]. assert (0 <= e * s ^ 2) by (rewrite M; apply mean_nonneg; [exact N|intros; apply dist2_nonneg]). assert (0 < s ^ 2) by (apply pow_lt; exact S0). nra.
  - unfold fit_circle_. fold t. rewrite LT. destruct (lstsq (map (fun p => (fst p, snd p, 1)) t) (map (fun p => fst p ^ 2 + snd p ^ 2) t)) as [[a b] c] eqn:EL.
    destruct (solution_best t 1 1 0 0 a b c N ltac:(lra) ltac:(lra)) as [M B].
    { intros v. assert (E1 : map (fun p : pt => (1 * (fst p - 0) / 1, 1 * (snd p - 0) / 1, 1)) t = map (fun p => (fst p, snd p, 1)) t) by (apply map_ext; intros [x y]; cbn [fst snd]; repeat f_equal; field).
      assert (E2 : map (fun p : R * R => ((fst p - 0) ^ 2 + (snd p - 0) ^ 2) / 1 ^ 2) t = map (fun p => fst p ^ 2 + snd p ^ 2) t) by (apply map_ext; intros [x y]; cbn [fst snd]; field). rewrite E1, E2, <- EL. apply H. rewrite !map_length. reflexivity. }
    replace (1 * a / 2 * 1 + 0) with (a / 2) in * by field. replace (1 * b / 2 * 1 + 0) with (b / 2) in * by field. replace (c + ((1 * a / 2) ^ 2 + (1 * b / 2) ^ 2)) with (c + (a / 2) ^ 2 + (b / 2) ^ 2) in * by field. set (e := c + (a / 2) ^ 2 + (b / 2) ^ 2) in *. rewrite Rmult_1_r in B.
    exists (a / 2), (b / 2), (sqrt e). split; [destruct (shape_error l (a / 2) (b / 2) (sqrt e)); reflexivity|]. split; [exact B|].
    rewrite <- M. rewrite pow2_sqrt; [ring|]. assert (0 <= e * 1 ^ 2) by (rewrite M; apply mean_nonneg; [exact N|intros; apply dist2_nonneg]). lra.
Qed.
Lemma mean_pos : forall t x y p q, In p t -> In q t -> p <> q -> 0 < mean (fun a => dist2 a (x, y)) t.
Proof.
  intros t x y p q P Q D. assert (N : t <> []) by (intros ->; destruct P). pose proof (mean_nonneg (fun a => dist2 a (x, y)) t N ltac:(intros; apply dist2_nonneg)) as M. destruct (Req_dec (mean (fun a => dist2 a (x, y)) t) 0) as [E|E]; [|lra]. exfalso. apply D.
  assert (Z : forall a, In a t -> a = (x, y)).
  { intros a A. assert (S0 : sumf (fun a => dist2 a (x, y)) t = 0) by (unfold mean in E; pose proof (length_INR t N); apply (Rmult_eq_reg_r (/ INR (length t))); [rewrite Rmult_0_l; exact E|apply Rinv_neq_0_compat; lra]).
    pose proof (sumf_zero (fun a => dist2 a (x, y)) t ltac:(intros; apply dist2_nonneg) ltac:(lra) a A) as H. unfold dist2 in H. cbn [fst snd] in H. pose proof (pow2_ge_0 (fst a - x)). pose proof (pow2_ge_0 (snd a - y)). destruct a as [u v]. cbn [fst snd] in *. f_equal; nra. }
  rewrite (Z p P), (Z q Q). reflexivity.
Qed.

(** The circle given is the one of least misfit, its centre is any vertex only
    when the function fails, and the square of its radius is the mean of the squares
    of the distances of the vertices (the first one, which is also the last one,
    taken once). *)
Theorem C120_best : forall lstsq l, least_squares lstsq -> (exists p q, In p (tl l) /\ In q (tl l) /\ p <> q) ->
  exists x0 y0 r, best_circle (tl l) x0 y0 r /\ 0 < r /\ r ^ 2 = mean (fun p => dist2 p (x0, y0)) (tl l) /\
    (fit_circle lstsq l = None <-> In (x0, y0) l) /\
    forall x y rho err, fit_circle lstsq l = Some (x, y, rho, err) -> x = x0 /\ y = y0 /\ rho = r /\ shape_error l x0 y0 r = Some err.
Proof.
  intros lstsq l H D. destruct (fit_facts lstsq l H D) as ((x0 & y0 & r & E & B & M) & _). exists x0, y0, r. destruct D as (p & q & P & Q & D).
  assert (R0 : 0 < r). { destruct B as [B _]. pose proof (mean_pos (tl l) x0 y0 p q P Q D). rewrite <- M in H0. destruct (Req_dec r 0) as [->|]; [|lra]. exfalso. replace (0 ^ 2) with 0 in H0 by ring. lra. }
  assert (L : (2 <= length l)%nat). { destruct l as [|a [|b l]]; cbn in *; try contradiction; lia. }
  split; [exact B|]. split; [exact R0|]. split; [exact M|]. rewrite E. split.
  - rewrite <- (error_none l x0 y0 r L R0). destruct (shape_error l x0 y0 r); cbn; split; intros X; try discriminate X; reflexivity.
  - intros x y rho err X. destruct (shape_error l x0 y0 r) as [e|]; cbn in X; [|discriminate X]. injection X as <- <- <- <-. auto.
Qed.
Print Assumptions C120_best.

(** With three vertices which are not on a line the circle is unique: it does not
    depend on the library, and both methods give it. *)
Theorem C120_unique : forall t x y r x' y' r', not_on_line t -> best_circle t x y r -> best_circle t x' y' r' -> x = x' /\ y = y' /\ r = r'.
Proof. exact best_unique. Qed.
Print Assumptions C120_unique.
Theorem C120_methods : forall lstsq lstsq' l, least_squares lstsq -> least_squares lstsq' -> not_on_line (tl l) ->
  fit_circle lstsq l = fit_circle_ lstsq' l /\ fit_circle lstsq l = fit_circle lstsq' l.
Proof.
  intros f f' l H H' NL. assert (D : exists p q, In p (tl l) /\ In q (tl l) /\ p <> q). { destruct NL as (p & q & r & P & Q & _ & N). exists p, q. split; [exact P|]. split; [exact Q|]. intros ->. apply N. ring. }
  destruct (fit_facts f l H D) as ((x0 & y0 & r & E & B & _) & _). destruct (fit_facts f' l H' D) as ((x1 & y1 & r1 & E1 & B1 & _) & (x2 & y2 & r2 & E2 & B2 & _)).
  destruct (best_unique _ _ _ _ _ _ _ NL B B1) as (-> & -> & ->). destruct (best_unique _ _ _ _ _ _ _ NL B1 B2) as (-> & -> & ->). rewrite E, E1, E2. auto.
Qed.
Print Assumptions C120_methods.

(** Vertices on a circle: this circle. *)
Theorem C120_exact : forall lstsq l a b rho, least_squares lstsq -> not_on_line (tl l) -> 0 <= rho -> (forall p, In p (tl l) -> dist2 p (a, b) = rho ^ 2) ->
  forall x y r err, fit_circle lstsq l = Some (x, y, r, err) -> x = a /\ y = b /\ r = rho.
Proof.
  intros f l a b rho H NL R0 C x y r err E. assert (D : exists p q, In p (tl l) /\ In q (tl l) /\ p <> q). { destruct NL as (p & q & s & P & Q & _ & N). exists p, q. split; [exact P|]. split; [exact Q|]. intros ->. apply N. ring. }
  destruct (C120_best f l H D) as (x0 & y0 & r0 & B & _ & _ & _ & G). destruct (G _ _ _ _ E) as (-> & -> & -> & _). apply (best_unique (tl l)); [exact NL|exact B|]. split; [exact R0|]. intros u v w.
  unfold misfit. rewrite (sumf_ext _ (fun _ => 0)); [rewrite sumf_const; rewrite Rmult_0_r; apply sumf_nonneg; intros; apply pow2_ge_0|]. intros p P. rewrite (C p P). ring.
Qed.
Print Assumptions C120_exact.

(** ** Areas *)
Definition cross (p q : pt) : R := fst p * snd q - fst q * snd p.
Fixpoint shoelace (l : list pt) : R := match l with a :: ((b :: _) as l') => cross a b + shoelace l' | _ => 0 end.
Definition closed (l : list pt) : Prop := (2 <= length l)%nat /\ nth (length l - 1) l (0, 0) = nth 0 l (0, 0).
Lemma shoelace_area : forall l a b, shoelace (a :: b :: l) = fst a * snd b + area_from (a :: b :: l) - fst (nth (length l + 1) (a :: b :: l) (0, 0)) * snd (nth (length l) (a :: b :: l) (0, 0)).
Proof.
  induction l as [|c l IH]; intros a b; [cbn; unfold cross; ring|]. change (shoelace (a :: b :: c :: l)) with (cross a b + shoelace (b :: c :: l)). rewrite IH. change (area_from (a :: b :: c :: l)) with (fst b * (snd c - snd a) + area_from (b :: c :: l)).
  cbn [length]. replace (S (length l) + 1)%nat with (S (length l + 1)) by lia. cbn [nth]. unfold cross. destruct (length l) eqn:Q; cbn [Nat.add nth]; ring.
Qed.
Lemma poly_area_shoelace : forall l, closed l -> poly_area l = Rabs (shoelace l) * (1 / 2).
Proof.
  intros l [L C]. destruct l as [|a [|b l]]; cbn [length] in L; try lia. rewrite shoelace_area. unfold poly_area. f_equal. f_equal. cbn [length] in *. replace (S (S (length l)) - 2)%nat with (length l) by lia. replace (length l + 1)%nat with (S (S (length l)) - 1)%nat by lia. rewrite C. cbn [nth]. ring.
Qed.

(** Similarities: rotation or symmetry of matrix [k (c, - s; s, c)] or
    [k (c, s; s, - c)], then a move. *)
Definition similar (k c s eps a b : R) (p : pt) : pt := (k * (c * fst p - eps * s * snd p) + a, k * (s * fst p + eps * c * snd p) + b).
Lemma shoelace_similar : forall k c s eps a b l p, c ^ 2 + s ^ 2 = 1 ->
  shoelace (map (similar k c s eps a b) (p :: l)) = k ^ 2 * eps * shoelace (p :: l) + a * (snd (similar k c s eps a b (last (p :: l) p)) - snd (similar k c s eps a b p)) - b * (fst (similar k c s eps a b (last (p :: l) p)) - fst (similar k c s eps a b p)).
Proof.
  intros k c s eps a b l. induction l as [|q l IH]; intros p CS; [cbn; ring|]. specialize (IH q CS). set (f := similar k c s eps a b) in *.
  change (shoelace (map f (p :: q :: l))) with (cross (f p) (f q) + shoelace (map f (q :: l))). change (shoelace (p :: q :: l)) with (cross p q + shoelace (q :: l)). rewrite IH.
  assert (LQ : last (p :: q :: l) p = last (q :: l) q). { change (last (p :: q :: l) p) with (last (q :: l) p). clear. revert p q. induction l as [|x l IH]; intros p q; [reflexivity|]. change (last (q :: x :: l) p) with (last (x :: l) p). change (last (q :: x :: l) q) with (last (x :: l) q). rewrite (IH p x), (IH q x). reflexivity. }
  rewrite LQ. assert (X : cross (f p) (f q) = k ^ 2 * eps * cross p q + a * (snd (f q) - snd (f p)) - b * (fst (f q) - fst (f p))).
  { unfold f, similar, cross. cbn [fst snd]. replace (k ^ 2 * eps * (fst p * snd q - fst q * snd p)) with (k ^ 2 * eps * (c ^ 2 + s ^ 2) * (fst p * snd q - fst q * snd p)) by (rewrite CS; ring). ring. }
  rewrite X. ring.
Qed.
Lemma closed_last : forall l p, closed (p :: l) -> last (p :: l) p = p.
Proof.
  intros l p [L C]. cbn [nth] in C.
  assert (G : forall d l q, nth (length (q :: l) - 1) (q :: l) d = last (q :: l) p). { intros d. induction l0 as [|x l0 IH]; intros q; [reflexivity|]. cbn [length]. replace (S (S (length l0)) - 1)%nat with (S (length (x :: l0) - 1)) by (cbn; lia). exact (IH x). }
  rewrite <- (G (0, 0)). exact C.
Qed.
Lemma area_similar : forall k c s eps a b l, c ^ 2 + s ^ 2 = 1 -> eps ^ 2 = 1 -> closed l -> poly_area (map (similar k c s eps a b) l) = k ^ 2 * poly_area l.
Proof.
  intros k c s eps a b l CS EP C. assert (C' : closed (map (similar k c s eps a b) l)).
  { destruct C as [L C]. split; [rewrite map_length; exact L|]. rewrite map_length. assert (G : forall i, (i < length l)%nat -> nth i (map (similar k c s eps a b) l) (0, 0) = similar k c s eps a b (nth i l (0, 0))) by (intros i I; rewrite (nth_indep _ (0, 0) (similar k c s eps a b (0, 0))) by (rewrite map_length; exact I); apply map_nth). rewrite !G by lia. rewrite C. reflexivity. }
  rewrite (poly_area_shoelace _ C'), (poly_area_shoelace _ C). destruct l as [|p l]; [destruct C as [L _]; cbn in L; lia|]. rewrite shoelace_similar by exact CS. rewrite (closed_last l p C).
  replace (k ^ 2 * eps * shoelace (p :: l) + a * (snd (similar k c s eps a b p) - snd (similar k c s eps a b p)) - b * (fst (similar k c s eps a b p) - fst (similar k c s eps a b p))) with (eps * (k ^ 2 * shoelace (p :: l))) by ring.
  rewrite Rabs_mult. assert (Rabs eps = 1). { unfold Rabs. destruct (Rcase_abs eps); nra. } rewrite H, Rabs_mult, (Rabs_pos_eq (k ^ 2)) by apply pow2_ge_0. ring.
Qed.

Lemma pull_similar : forall k c s eps a b x0 y0 r p, c ^ 2 + s ^ 2 = 1 -> eps ^ 2 = 1 -> 0 < k ->
  pull (fst (similar k c s eps a b (x0, y0))) (snd (similar k c s eps a b (x0, y0))) (k * r) (similar k c s eps a b p) = option_map (similar k c s eps a b) (pull x0 y0 r p).
Proof.
  intros k c s eps a b x0 y0 r [x y] CS EP K. unfold pull. cbn [fst snd similar].
  set (d2 := (x - x0) ^ 2 + (y - y0) ^ 2).
  assert (D : (k * (c * x - eps * s * y) + a - (k * (c * x0 - eps * s * y0) + a)) ^ 2 + (k * (s * x + eps * c * y) + b - (k * (s * x0 + eps * c * y0) + b)) ^ 2 = k ^ 2 * d2).
  { unfold d2. transitivity (k ^ 2 * ((c ^ 2 + s ^ 2) * (x - x0) ^ 2 + eps ^ 2 * (c ^ 2 + s ^ 2) * (y - y0) ^ 2)); [ring|]. rewrite CS, EP. ring. }
  rewrite D. assert (D0 : 0 <= d2) by (unfold d2; pose proof (pow2_ge_0 (x - x0)); pose proof (pow2_ge_0 (y - y0)); lra).
  rewrite sqrt_mult by (try apply pow2_ge_0; exact D0). rewrite sqrt_pow2 by lra. set (d := sqrt d2).
  destruct (Req_EM_T d 0) as [E|E]; destruct (Req_EM_T (k * d) 0) as [E'|E']; [reflexivity|exfalso; apply E'; rewrite E; ring|exfalso; apply E; nra|].
  assert (RD : k * r / (k * d) = r / d) by (field; split; lra). rewrite RD. cbn [option_map]. f_equal. destruct (Rlt_dec (r / d) 1); [|reflexivity]. unfold similar. cbn [fst snd]. f_equal; ring.
Qed.
Lemma sequence_option_map : forall {A B} (f : A -> B) l, sequence (map (option_map f) l) = option_map (map f) (sequence l).
Proof. induction l as [|[x|] l IH]; cbn; [reflexivity| |reflexivity]. rewrite IH. destruct (sequence l); reflexivity. Qed.
Lemma sequence_length : forall {A} (l : list (option A)) l', sequence l = Some l' -> length l' = length l.
Proof. induction l as [|[x|] l IH]; cbn; intros l' E; [injection E as <-; reflexivity| |discriminate E]. destruct (sequence l) eqn:Q; cbn in E; [|discriminate E]. injection E as <-. cbn. f_equal. apply IH. reflexivity. Qed.
Lemma sequence_nth : forall {A} (l : list (option A)) l' d i, sequence l = Some l' -> (i < length l)%nat -> nth i l None = Some (nth i l' d).
Proof. induction l as [|[x|] l IH]; cbn; intros l' d i E I; [lia| |discriminate E]. destruct (sequence l) eqn:Q; cbn in E; [|discriminate E]. injection E as <-. destruct i; cbn; [reflexivity|]. apply IH; [reflexivity|lia]. Qed.
Lemma pulled_closed : forall x0 y0 r l l', closed l -> sequence (map (pull x0 y0 r) l) = Some l' -> closed l'.
Proof.
  intros x0 y0 r l l' [L C] E. pose proof (sequence_length _ _ E) as N. rewrite map_length in N. split; [lia|]. rewrite N.
  assert (G : forall i, (i < length l)%nat -> pull x0 y0 r (nth i l (0, 0)) = Some (nth i l' (0, 0))).
  { intros i I. pose proof (sequence_nth _ _ (0, 0) i E ltac:(rewrite map_length; exact I)) as Q. etransitivity; [|exact Q]. rewrite (nth_indep _ None (pull x0 y0 r (0, 0))) by (rewrite map_length; exact I). symmetry. apply map_nth. }
  apply Some_inj. rewrite <- !G by lia. rewrite C. reflexivity.
Qed.
Lemma error_similar : forall k c s eps a b l x0 y0 r, c ^ 2 + s ^ 2 = 1 -> eps ^ 2 = 1 -> 0 < k -> closed l ->
  shape_error (map (similar k c s eps a b) l) (fst (similar k c s eps a b (x0, y0))) (snd (similar k c s eps a b (x0, y0))) (k * r) = shape_error l x0 y0 r.
Proof.
  intros k c s eps a b l x0 y0 r CS EP K C. unfold shape_error. rewrite map_length. destruct (length l <? 2)%nat; [reflexivity|]. rewrite map_map.
  rewrite (map_ext _ (fun p => option_map (similar k c s eps a b) (pull x0 y0 r p))) by (intros p; apply pull_similar; assumption). rewrite <- (map_map (pull x0 y0 r) (option_map (similar k c s eps a b))), sequence_option_map.
  destruct (sequence (map (pull x0 y0 r) l)) as [l'|] eqn:E; cbn [option_map bind]; [|reflexivity]. pose proof (pulled_closed _ _ _ _ _ C E) as C'. rewrite !area_similar by assumption.
  assert (K2 : 0 < k ^ 2) by (apply pow_lt; exact K). rewrite Rpow_mult_distr. destruct (Req_EM_T (r ^ 2 * PI) 0) as [Z|Z]; destruct (Req_EM_T (k ^ 2 * r ^ 2 * PI) 0) as [Z'|Z'].
  - reflexivity.
  - exfalso. apply Z'. rewrite Rmult_assoc, Z. ring.
  - exfalso. apply Z. apply (Rmult_eq_reg_l (k ^ 2)); [|lra]. rewrite Rmult_0_r. rewrite <- Z'. ring.
  - f_equal. field. split; [apply PI_neq0|]. split; [|lra]. intros ->. apply Z. ring.
Qed.
Lemma best_similar : forall k c s eps a b t x y r, c ^ 2 + s ^ 2 = 1 -> eps ^ 2 = 1 -> 0 < k -> best_circle t x y r ->
  best_circle (map (similar k c s eps a b) t) (fst (similar k c s eps a b (x, y))) (snd (similar k c s eps a b (x, y))) (k * r).
Proof.
  intros k c s eps a b t x y r CS EP K [R0 B]. split; [apply Rmult_le_pos; lra|].
  assert (G : forall u v w, misfit (map (similar k c s eps a b) t) (fst (similar k c s eps a b (u, v))) (snd (similar k c s eps a b (u, v))) (k * w) = k ^ 4 * misfit t u v w).
  { intros u v w. unfold misfit. rewrite sumf_map, <- sumf_scal. apply sumf_ext. intros [p q] _. unfold dist2, similar. cbn [fst snd].
    replace ((k * (c * p - eps * s * q) + a - (k * (c * u - eps * s * v) + a)) ^ 2 + (k * (s * p + eps * c * q) + b - (k * (s * u + eps * c * v) + b)) ^ 2) with (k ^ 2 * ((p - u) ^ 2 + (q - v) ^ 2)); [ring|].
    transitivity (k ^ 2 * ((c ^ 2 + s ^ 2) * (p - u) ^ 2 + eps ^ 2 * (c ^ 2 + s ^ 2) * (q - v) ^ 2)); [rewrite CS, EP; ring|ring]. }
  intros u v w. set (u' := (c * (u - a) + s * (v - b)) / k). set (v' := eps * (c * (v - b) - s * (u - a)) / k).
  assert (U : similar k c s eps a b (u', v') = (u, v)).
  { unfold similar, u', v'. cbn [fst snd]. f_equal.
    - transitivity ((c ^ 2 + eps ^ 2 * s ^ 2) * (u - a) + (c * s - eps ^ 2 * c * s) * (v - b) + a); [field; lra|]. rewrite EP. replace (c ^ 2 + 1 * s ^ 2) with (c ^ 2 + s ^ 2) by ring. rewrite CS. ring.
    - transitivity ((c * s - eps ^ 2 * c * s) * (u - a) + (s ^ 2 + eps ^ 2 * c ^ 2) * (v - b) + b); [field; lra|]. rewrite EP. replace (s ^ 2 + 1 * c ^ 2) with (c ^ 2 + s ^ 2) by ring. rewrite CS. ring. }
  specialize (G u' v' (w / k)) as G'. rewrite U in G'. cbn [fst snd] in G'. replace (k * (w / k)) with w in G' by (field; lra). rewrite G, G'. apply Rmult_le_compat_l; [apply pow_le; lra|apply B].
Qed.
Lemma line_similar : forall k c s eps a b t, c ^ 2 + s ^ 2 = 1 -> eps ^ 2 = 1 -> 0 < k -> not_on_line t -> not_on_line (map (similar k c s eps a b) t).
Proof.
  intros k c s eps a b t CS EP K (p & q & r & P & Q & R0 & N). set (f := similar k c s eps a b). exists (f p), (f q), (f r). split; [apply in_map, P|]. split; [apply in_map, Q|]. split; [apply in_map, R0|].
  intros E. apply N. assert (X : (fst (f q) - fst (f p)) * (snd (f r) - snd (f p)) - (snd (f q) - snd (f p)) * (fst (f r) - fst (f p)) = k ^ 2 * eps * ((fst q - fst p) * (snd r - snd p) - (snd q - snd p) * (fst r - fst p))).
  { unfold f, similar. cbn [fst snd]. transitivity (k ^ 2 * eps * (c ^ 2 + s ^ 2) * ((fst q - fst p) * (snd r - snd p) - (snd q - snd p) * (fst r - fst p))); [ring|rewrite CS; ring]. }
  rewrite X in E. assert (eps <> 0) by (intros ->; lra). assert (k ^ 2 <> 0) by (apply pow_nonzero; lra). apply Rmult_integral in E as [E|E]; [|exact E]. apply Rmult_integral in E as [E|E]; contradiction.
Qed.

(** A contour which is moved, turned, reflected or enlarged has its circle moved,
    turned, reflected and enlarged in the same way, and the same error. *)
Theorem C120_moves : forall lstsq l k c s eps a b, least_squares lstsq -> not_on_line (tl l) -> closed l -> c ^ 2 + s ^ 2 = 1 -> eps ^ 2 = 1 -> 0 < k ->
  fit_circle lstsq (map (similar k c s eps a b) l) =
  option_map (fun '(x, y, r, err) => (fst (similar k c s eps a b (x, y)), snd (similar k c s eps a b (x, y)), k * r, err)) (fit_circle lstsq l).
Proof.
  intros f l k c s eps a b H NL C CS EP K. assert (DI : forall t, not_on_line t -> exists p q, In p t /\ In q t /\ p <> q). { intros t (p & q & r & P & Q & _ & N). exists p, q. split; [exact P|]. split; [exact Q|]. intros ->. apply N. ring. }
  assert (TL : tl (map (similar k c s eps a b) l) = map (similar k c s eps a b) (tl l)) by (destruct l; reflexivity). pose proof (line_similar k c s eps a b _ CS EP K NL) as NL'. rewrite <- TL in NL'.
  destruct (fit_facts f l H (DI _ NL)) as ((x0 & y0 & r & E & B & _) & _). destruct (fit_facts f (map (similar k c s eps a b) l) H (DI _ NL')) as ((x1 & y1 & r1 & E1 & B1 & _) & _).
  pose proof (best_similar k c s eps a b _ _ _ _ CS EP K B) as B'. rewrite <- TL in B'. destruct (best_unique _ _ _ _ _ _ _ NL' B1 B') as (-> & -> & ->). rewrite E1, E, error_similar by assumption. destruct (shape_error l x0 y0 r); reflexivity.
Qed.
Print Assumptions C120_moves.

(** No vertex out of the circle: the error is the part of the disc which the contour
    does not fill. *)
Theorem C120_inside : forall (l : list pt) x0 y0 r, (2 <= length l)%nat -> 0 < r -> (forall p, In p l -> p <> (x0, y0) /\ dist2 p (x0, y0) <= r ^ 2) ->
  shape_error l x0 y0 r = Some (100 * (1 - poly_area l / (PI * r ^ 2))).
Proof.
  intros l x0 y0 r L R0 H. unfold shape_error. destruct (Nat.ltb_spec (length l) 2); [lia|]. assert (E : sequence (map (pull x0 y0 r) l) = Some l).
  { clear L H0. induction l as [|p l IH]; [reflexivity|]. cbn [map sequence]. destruct (H p (or_introl eq_refl)) as [N D]. rewrite IH by (intros q Q; apply H; right; exact Q). unfold pull. unfold dist2 in D. cbn [fst snd] in D. set (d2 := (fst p - x0) ^ 2 + (snd p - y0) ^ 2) in *.
    assert (D0 : 0 < d2). { unfold d2. pose proof (pow2_ge_0 (fst p - x0)). pose proof (pow2_ge_0 (snd p - y0)). destruct (Req_dec d2 0) as [Z|Z]; unfold d2 in Z; [|lra]. exfalso. apply N. destruct p as [x y]. cbn [fst snd] in *. f_equal; nra. }
    pose proof (sqrt_lt_R0 d2 D0). assert (sqrt d2 <= r) by (rewrite <- (sqrt_pow2 r) by lra; apply sqrt_le_1_alt; exact D).
    destruct (Req_EM_T (sqrt d2) 0) as [Z|Z]; [lra|]. destruct (Rlt_dec (r / sqrt d2) 1) as [Y|Y]; [|reflexivity]. exfalso. apply (Rmult_lt_compat_r (sqrt d2)) in Y; [|exact H0]. unfold Rdiv in Y. rewrite Rmult_assoc, Rinv_l in Y by lra. lra. }
  rewrite E. cbn [bind]. pose proof PI_RGT_0. assert (0 < r ^ 2) by (apply pow_lt; exact R0). destruct (Req_EM_T (r ^ 2 * PI) 0) as [Z|Z]; [exfalso; nra|]. f_equal. field. split; lra.
Qed.
Print Assumptions C120_inside.

(** The square of vertices (1, 1), (-1, 1), (-1, -1), (1, -1). *)
Definition square : list pt := [(1, 1); (-1, 1); (-1, -1); (1, -1); (1, 1)].
Lemma square_area : poly_area square = 4.
Proof. unfold poly_area, square. cbn. rewrite Rabs_pos_eq by lra. field. Qed.

(** The documentation of the error gives another formula, with the area of the
    intersection of the contour and the disc.  The disc of radius 1 is in the square,
    the intersection is the disc and the formula gives less than 34 per cent; the
    function gives 100 per cent. *)
Theorem C120_formula_refuted : shape_error square 0 0 1 = Some 100 /\
  (forall x y, x ^ 2 + y ^ 2 <= 1 -> -1 <= x <= 1 /\ -1 <= y <= 1) /\ poly_area square = 4 /\ (4 + PI - 2 * PI) / PI * 100 < 34.
Proof.
  split.
  - unfold shape_error. change (length square <? 2)%nat with false. set (h := / sqrt 2).
    assert (S2 : 0 < sqrt 2) by (apply sqrt_lt_R0; lra). assert (S22 : sqrt 2 * sqrt 2 = 2) by (apply sqrt_sqrt; lra). assert (H2 : h * h = 1 / 2) by (unfold h; rewrite <- Rinv_mult, S22; lra). assert (H0 : 0 < h) by (apply Rinv_0_lt_compat; exact S2). assert (H1 : h < 1) by nra.
    assert (P : forall x y, x ^ 2 = 1 -> y ^ 2 = 1 -> pull 0 0 1 (x, y) = Some (x * h, y * h)).
    { intros x y X Y. unfold pull. cbn [fst snd]. replace ((x - 0) ^ 2 + (y - 0) ^ 2) with 2 by (rewrite !Rminus_0_r; lra). destruct (Req_EM_T (sqrt 2) 0); [lra|]. replace (1 / sqrt 2) with h by (unfold h, Rdiv; ring). destruct (Rlt_dec h 1); [|lra]. f_equal. f_equal; ring. }
    unfold square at 1. cbn [map]. rewrite !P by ring. cbn [sequence bind]. rewrite square_area. destruct (Req_EM_T (1 ^ 2 * PI) 0) as [Z|Z]; [exfalso; pose proof PI_RGT_0; lra|]. f_equal.
    assert (A : poly_area [(1 * h, 1 * h); (-1 * h, 1 * h); (-1 * h, -1 * h); (1 * h, -1 * h); (1 * h, 1 * h)] = 2). { unfold poly_area. cbn. rewrite Rabs_pos_eq; nra. }
    match goal with |- context [poly_area ?q] => replace (poly_area q) with 2 by (symmetry; exact A) end. field. intros Z'. apply Z. rewrite Z'. ring.
  - split; [intros x y H; split; nra|]. split; [exact square_area|]. assert (3 < PI) by (pose proof PI2_3_2; lra). apply (Rmult_lt_reg_r PI); [lra|]. unfold Rdiv. replace ((4 + PI - 2 * PI) * / PI * 100 * PI) with ((4 - PI) * 100) by (field; lra). lra.
Qed.
Print Assumptions C120_formula_refuted.

(** The least misfit may be reached at a vertex of the contour, even when it is simple:
    the function fails, whatever the library gives. *)
Definition notched : list pt := [(1, 0); (0, 1); (-1, 0); (0, 0); (0, -1); (1, 0)].
Theorem C120_centre_refuted : forall lstsq, least_squares lstsq -> fit_circle lstsq notched = None /\ fit_circle_ lstsq notched = None.
Proof.
  intros f H. assert (NL : not_on_line (tl notched)). { exists (0, 1), (-1, 0), (0, 0). cbn. split; [left; reflexivity|]. split; [right; left; reflexivity|]. split; [right; right; left; reflexivity|]. lra. }
  assert (B : best_circle (tl notched) 0 0 (sqrt (4 / 5))).
  { split; [apply sqrt_pos|]. intros u v w. unfold misfit. rewrite pow2_sqrt by lra. set (m := u ^ 2 + v ^ 2 - w ^ 2). unfold dist2. cbn [tl notched sumf fst snd]. replace (((0 - u) ^ 2 + (1 - v) ^ 2 - w ^ 2) ^ 2 + (((-1 - u) ^ 2 + (0 - v) ^ 2 - w ^ 2) ^ 2 + (((0 - u) ^ 2 + (0 - v) ^ 2 - w ^ 2) ^ 2 + (((0 - u) ^ 2 + (-1 - v) ^ 2 - w ^ 2) ^ 2 + (((1 - u) ^ 2 + (0 - v) ^ 2 - w ^ 2) ^ 2 + 0))))) with (5 * (m + 4 / 5) ^ 2 + 4 / 5 + 8 * u ^ 2 + 8 * v ^ 2) by (unfold m; field).
    pose proof (pow2_ge_0 (m + 4 / 5)). pose proof (pow2_ge_0 u). pose proof (pow2_ge_0 v). lra. }
  assert (D : exists p q, In p (tl notched) /\ In q (tl notched) /\ p <> q). { exists (0, 1), (-1, 0). split; [left; reflexivity|]. split; [right; left; reflexivity|]. intros E. injection E as E _. lra. }
  destruct (C120_methods f f notched H H NL) as [EQ _]. rewrite <- EQ. assert (N : fit_circle f notched = None); [|split; exact N].
  destruct (C120_best f notched H D) as (x0 & y0 & r & B1 & _ & _ & N & _). destruct (best_unique _ _ _ _ _ _ _ NL B1 B) as (-> & -> & _). apply N. cbn. tauto.
Qed.
Print Assumptions C120_centre_refuted.

(** A square: circle of its vertices, with any library. *)
Lemma square_not_on_line : not_on_line (tl square).
Proof. exists (-1, 1), (-1, -1), (1, -1). cbn. split; [left; reflexivity|]. split; [right; left; reflexivity|]. split; [right; right; left; reflexivity|]. lra. Qed.
Example C120_square : forall lstsq, least_squares lstsq -> fit_circle lstsq square = Some (0, 0, sqrt 2, 100 * (1 - 4 / (PI * 2))).
Proof.
  intros f H. assert (D : exists p q, In p (tl square) /\ In q (tl square) /\ p <> q). { exists (-1, 1), (-1, -1). split; [left; reflexivity|]. split; [right; left; reflexivity|]. intros E. injection E as E. lra. }
  assert (CI : forall p, In p square -> p <> (0, 0) /\ dist2 p (0, 0) = sqrt 2 ^ 2). { rewrite pow2_sqrt by lra. unfold dist2. intros p [<-|[<-|[<-|[<-|[<-|[]]]]]]; cbn [fst snd]; (split; [intros E; injection E as E _; lra|ring]). }
  assert (B : best_circle (tl square) 0 0 (sqrt 2)). { split; [apply sqrt_pos|]. intros u v w. unfold misfit. rewrite (sumf_ext _ (fun _ => 0)); [rewrite sumf_const; rewrite Rmult_0_r; apply sumf_nonneg; intros; apply pow2_ge_0|]. intros p P. rewrite (proj2 (CI p (or_intror P))). ring. }
  destruct (fit_facts f square H D) as ((x0 & y0 & r & E & B1 & _) & _). destruct (best_unique _ _ _ _ _ _ _ square_not_on_line B1 B) as (-> & -> & ->). rewrite E, C120_inside.
  - rewrite square_area, pow2_sqrt by lra. reflexivity.
  - cbn. lia.
  - apply sqrt_lt_R0. lra.
  - intros p P. destruct (CI p P) as [N Q]. split; [exact N|rewrite Q; lra].
Qed.
Example C120_library : least_squares ortho_lstsq.
Proof. exact ortho_least. Qed.
(** the square turned by the angle of cosine 3/5, enlarged and moved *)
Example C120_square_moved : forall lstsq, least_squares lstsq ->
  fit_circle lstsq (map (similar 2 (3 / 5) (4 / 5) (-1) 7 11) square) = Some (2 * (3 / 5 * 0 - -1 * (4 / 5) * 0) + 7, 2 * (4 / 5 * 0 + -1 * (3 / 5) * 0) + 11, 2 * sqrt 2, 100 * (1 - 4 / (PI * 2))).
Proof. intros f H. rewrite C120_moves; [rewrite (C120_square f H); reflexivity|exact H|exact square_not_on_line|split; [cbn; lia|reflexivity]|field|ring|lra]. Qed.
