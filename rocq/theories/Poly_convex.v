(** Lemmas on points on one side of all the edges, or separated by a line. *)
From Coq Require Import List Arith ZArith QArith Bool Lia Lqa Permutation.
From Verif Require Import Base Qaux Poly_model Poly_spec Poly_wind Poly_area.
Import ListNotations.
Local Close Scope Q_scope.
Local Open Scope nat_scope.

(** ** Separation by a line *)
Definition side (alpha beta : Q) (p v : point) : Q := (alpha * (fst v - fst p) + beta * (snd v - snd p))%Q.
Lemma orient_rel : forall p a b, (orient a b p == (fst a - fst p) * (snd b - snd p) - (fst b - fst p) * (snd a - snd p))%Q.
Proof. intros. unfold orient. ring. Qed.
Lemma orient_side : forall alpha beta p a b, (alpha * orient a b p == side alpha beta p a * (snd b - snd p) - side alpha beta p b * (snd a - snd p))%Q.
Proof. intros. unfold orient, side. ring. Qed.
Lemma prod_pos : forall x y, (0 < x -> 0 < y -> 0 < x * y)%Q.
Proof. intros. nra. Qed.
Lemma prod_nn : forall x y, (0 <= x -> 0 <= y -> 0 <= x * y)%Q.
Proof. intros. nra. Qed.
Lemma winding_separated : forall poly p alpha beta, (forall v, In v poly -> (0 < side alpha beta p v)%Q) -> winding_number_poly p poly = 0%Z.
Proof.
  intros poly p alpha beta S. rewrite winding_sum.
  assert (UP : forall a b, In a poly -> In b poly -> (snd a <= snd p)%Q -> (snd p < snd b)%Q -> (0 < alpha * orient a b p)%Q).
  { intros a b A B LA LB. rewrite (orient_side alpha beta). pose proof (prod_pos (side alpha beta p a) (snd b - snd p) (S a A) ltac:(lra)). pose proof (prod_nn (side alpha beta p b) (snd p - snd a) ltac:(specialize (S b B); lra) ltac:(lra)). lra. }
  assert (DN : forall a b, In a poly -> In b poly -> (snd b <= snd p)%Q -> (snd p < snd a)%Q -> (alpha * orient a b p < 0)%Q).
  { intros a b A B LB LA. pose proof (UP b a B A LB LA). assert (E : (orient a b p == - orient b a p)%Q) by (unfold orient; ring). rewrite E. lra. }
  destruct (Q_dec alpha 0) as [[N|P]|Z].
  - (* nothing on the right of the point *)
    apply zsum_zero. intros e I. apply edges_In in I as [I1 I2]. unfold cross. rewrite is_left_orient. repeat qcase; cbn [negb]; auto; exfalso.
    + pose proof (UP _ _ I1 I2 ltac:(assumption) ltac:(assumption)). nra.
    + pose proof (DN _ _ I1 I2 ltac:(assumption) ltac:(lra)). nra.
  - (* nothing on the left of the point *)
    rewrite <- (edges_telescope (above p) poly). apply zsum_ext. intros e I. apply edges_In in I as [I1 I2]. unfold cross, above. rewrite is_left_orient. repeat qcase; cbn [negb]; auto; try lia; exfalso; try lra.
    + pose proof (UP _ _ I1 I2 ltac:(assumption) ltac:(assumption)). nra.
    + pose proof (DN _ _ I1 I2 ltac:(lra) ltac:(assumption)). nra.
  - (* all above or all below *)
    apply zsum_zero. intros e I. apply edges_In in I as [I1 I2]. unfold cross. rewrite is_left_orient. repeat qcase; cbn [negb]; auto; exfalso.
    + pose proof (UP _ _ I1 I2 ltac:(assumption) ltac:(assumption)) as X. rewrite Z in X. lra.
    + pose proof (DN _ _ I1 I2 ltac:(assumption) ltac:(lra)) as X. rewrite Z in X. lra.
Qed.
(** A point strictly on the right of the line of [c] and [d], all the vertices
    being on this line or on its left. *)
Lemma winding_other_side : forall poly p c d, (forall v, In v poly -> (0 <= orient c d v)%Q) -> (orient c d p < 0)%Q -> winding_number_poly p poly = 0%Z.
Proof.
  intros poly p c d L R. apply (winding_separated poly p (- (snd d - snd c)) (fst d - fst c)). intros v V. specialize (L v V). assert (E : (side (- (snd d - snd c)) (fst d - fst c) p v == orient c d v - orient c d p)%Q) by (unfold side, orient; ring). rewrite E. lra.
Qed.

(** ** On the left of all the edges *)
Lemma edges_fst : forall poly v, In v poly -> exists w, In (v, w) (edges poly).
Proof.
  intros [|a r] v I; [destruct I|]. rewrite edges_path. enough (H : forall l first, In v l -> exists w, In (v, w) (path first l)) by exact (H _ a I). clear.
  induction l as [|x l IH]; intros first I; [destruct I|]. destruct I as [<-|I]; [eexists; left; reflexivity|]. destruct (IH first I) as [w W]. exists w. right. exact W.
Qed.
Lemma edges_snd : forall poly v, In v poly -> exists u, In (u, v) (edges poly).
Proof.
  intros poly v I. assert (I' : In v (rev poly)) by (apply -> in_rev; exact I). destruct (edges_fst _ _ I') as [w W]. apply (Permutation_in _ (edges_rev poly)) in W. apply in_map_iff in W as ([x y] & E & W). unfold swap in E. cbn [fst snd] in E. injection E as -> ->. eauto.
Qed.
Lemma zsum_nonneg : forall {T} (f : T -> Z) l, (forall x, In x l -> (0 <= f x)%Z) -> (0 <= zsum (map f l))%Z /\ forall x, In x l -> (f x <= zsum (map f l))%Z.
Proof.
  intros T f l. induction l as [|a l IH]; intros H; cbn [map zsum fold_right]; [split; [lia|intros x []]|]. fold (zsum (map f l)). destruct IH as [A B]; [intros; apply H; right; auto|]. pose proof (H a (or_introl eq_refl)). split; [lia|]. intros x [<-|I]; [lia|]. specialize (B x I). lia.
Qed.
Lemma same_along : forall (f : point -> Z) poly, (forall e, In e (edges poly) -> f (fst e) = f (snd e)) -> forall u v, In u poly -> In v poly -> f u = f v.
Proof.
  intros f [|a r] H u v U V; [destruct U|]. enough (G : forall v, In v (a :: r) -> f v = f a) by (rewrite (G u U), (G v V); reflexivity). clear u v U V. rewrite edges_steps in H.
  assert (G : forall l x, (forall e, In e (steps (x :: l)) -> f (fst e) = f (snd e)) -> forall v, In v (x :: l) -> f v = f x).
  { induction l as [|b l IH]; intros x K v [<-|I]; auto; [destruct I|]. rewrite steps_cons in K. rewrite (IH b); [symmetry; exact (K _ (or_introl eq_refl))|intros e E; apply K; right; exact E|exact I]. }
  intros v V. apply (G (r ++ [a]) a H). destruct V as [<-|V]; [left; auto|right; apply in_or_app; auto].
Qed.
Lemma edges_telescope_neg : forall (f : point -> Q) poly, poly <> [] -> (forall e, In e (edges poly) -> (f (snd e) < f (fst e))%Q) -> False.
Proof.
  intros f poly N H. pose proof (edges_qtelescope f poly) as T. assert (G : forall l : list (point * point), l <> [] -> (forall e, In e l -> (f (snd e) < f (fst e))%Q) -> (qsum (map (fun e => f (snd e) - f (fst e)) l) < 0)%Q).
  { induction l as [|e l IH]; intros NE K; [contradiction|]. cbn [map]. rewrite qsum_cons. pose proof (K e (or_introl eq_refl)). destruct l as [|e' l]; [cbn [map qsum fold_right]; lra|]. assert (X := IH ltac:(discriminate) (fun x I => K x (or_intror I))). lra. }
  assert (X : (qsum (map (fun e => f (snd e) - f (fst e)) (edges poly)) < 0)%Q). { apply G; [|exact H]. destruct poly as [|a r]; [contradiction|]. destruct (edges_fst (a :: r) a (or_introl eq_refl)) as [w W]. intros E. rewrite E in W. destruct W. } lra.
Qed.
Lemma slope_order : forall ua va ub vb, ((0 < va /\ 0 < vb) \/ (va < 0 /\ vb < 0) -> 0 < ua * vb - ub * va -> ub / vb < ua / va)%Q.
Proof.
  intros ua va ub vb V H. assert (NA : ~ (va == 0)%Q) by (destruct V; lra). assert (NB : ~ (vb == 0)%Q) by (destruct V; lra).
  assert (P : (0 < va * vb)%Q) by (destruct V as [V|V]; nra).
  assert (EA : (ua / va == (ua * vb) / (va * vb))%Q) by (field; auto). assert (EB : (ub / vb == (ub * va) / (va * vb))%Q) by (field; auto). rewrite EA, EB. apply Qmult_lt_compat_r; [apply Qinv_lt_0_compat; exact P|lra].
Qed.
Lemma winding_left : forall poly p, poly <> [] -> (forall e, In e (edges poly) -> (0 < orient (fst e) (snd e) p)%Q) -> (1 <= winding_number_poly p poly)%Z.
Proof.
  intros poly p NE H. rewrite winding_sum. set (f := fun e : point * point => cross p (fst e) (snd e)).
  assert (NN : forall e, In e (edges poly) -> (0 <= f e)%Z). { intros e I. specialize (H e I). unfold f, cross. rewrite is_left_orient. repeat qcase; cbn [negb]; lia || contradiction. }
  destruct (zsum_nonneg f (edges poly) NN) as [Z0 Z1]. destruct (Z_lt_le_dec (zsum (map f (edges poly))) 1) as [L|L]; [exfalso|exact L].
  assert (ZE : forall e, In e (edges poly) -> f e = 0%Z) by (intros e I; specialize (NN e I); specialize (Z1 e I); lia).
  assert (SAME : forall e, In e (edges poly) -> above p (fst e) = above p (snd e)).
  { assert (LE : forall e, In e (edges poly) -> (0 <= above p (fst e) - above p (snd e))%Z). { intros e I. specialize (ZE e I). specialize (H e I). unfold f, cross in ZE. rewrite is_left_orient in ZE. unfold above. revert ZE. repeat qcase; cbn [negb]; lia || (exfalso; lra) || contradiction. }
    pose proof (zsum_nonneg (fun e => (above p (fst e) - above p (snd e))%Z) (edges poly) LE) as [_ B].
    assert (T : zsum (map (fun e => (above p (fst e) - above p (snd e))%Z) (edges poly)) = 0%Z). { pose proof (edges_telescope (fun v => (- above p v)%Z) poly) as T. erewrite zsum_ext; [exact T|]. intros e _. cbn. lia. }
    intros e I. specialize (B e I). specialize (LE e I). rewrite T in B. cbn beta in B. lia. }
  pose proof (same_along (above p) poly SAME) as ALL.
  assert (ORD : ((forall v, In v poly -> 0 < snd v - snd p) \/ (forall v, In v poly -> snd v - snd p < 0))%Q).
  { destruct poly as [|a r]; [contradiction|]. destruct (Qlt_le_dec (snd p) (snd a)) as [A|A].
    - left. intros v V. specialize (ALL v a V (or_introl eq_refl)). unfold above in ALL. revert ALL. repeat qcase; try discriminate; lra || (exfalso; lra).
    - right. assert (LOW : forall v, In v (a :: r) -> (snd v - snd p <= 0)%Q). { intros v V. specialize (ALL v a V (or_introl eq_refl)). unfold above in ALL. revert ALL. repeat qcase; try discriminate; try lra. }
      intros v V. specialize (LOW v V) as LV. destruct (Qlt_le_dec (snd v - snd p) 0) as [X|X]; [exact X|exfalso].
      destruct (edges_fst _ _ V) as [w W]. destruct (edges_snd _ _ V) as [u U]. pose proof (H _ W) as HW. pose proof (H _ U) as HU. cbn [fst snd] in HW, HU. rewrite orient_rel in HW, HU. destruct (edges_In _ _ W) as [_ IW]. destruct (edges_In _ _ U) as [IU _]. cbn [fst snd] in IW, IU. pose proof (LOW _ IW). pose proof (LOW _ IU).
      assert (Z : (snd v - snd p == 0)%Q) by lra. rewrite Z in HW, HU. set (t := (fst v - fst p)%Q) in *. clearbody t. destruct (Qlt_le_dec t 0); [assert (0 <= (- t) * - (snd u - snd p))%Q by (apply prod_nn; lra)|assert (0 <= t * - (snd w - snd p))%Q by (apply prod_nn; lra)]; lra. }
  apply (edges_telescope_neg (fun v => (fst v - fst p) / (snd v - snd p))%Q poly NE). intros e I. destruct (edges_In _ _ I) as [I1 I2]. pose proof (H e I) as HE. rewrite orient_rel in HE. apply slope_order; [|exact HE].
  destruct ORD as [O|O]; [left|right]; split; apply O; auto.
Qed.
