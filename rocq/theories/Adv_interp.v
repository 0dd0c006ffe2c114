From Coq Require Import List Arith ZArith QArith Qround Qabs Bool Lia Lqa.
From Verif Require Import Base Qaux Grid_model Grid_proofs Grid_path Adv_model Adv_spec Adv_proofs Adv_more.
Import ListNotations.
Local Close Scope Q_scope.
Local Open Scope nat_scope.

Section Interp.
Variables (f : frame) (z : list (list Q)) (m : list (list bool)).
Hypothesis Z_ : matrix z (f_nx f) (f_ny f).
Hypothesis M_ : matrix m (f_nx f) (f_ny f).
Hypothesis N : (0 < f_nx f)%Z.
Hypothesis NY : (0 < f_ny f)%Z.
(** Corners of a cell, if it can be used. *)
Definition usable (i j : Z) : option quad :=
  if negb (f_circ f) && ((i <? 0) || (f_nx f <=? i + 1))%Z then None
  else if ((j <? 0) || (f_ny f <=? j + 1))%Z then None
  else let '(a, b, c, d) := four f true m i j in if a || b || c || d then None else Some (quad_of (four f 0%Q z i j)).
Lemma value_usable : forall p, value_at f z m p = option_map (bilinear (place_x f p) (place_y f p)) (usable (cell_x f p) (cell_y f p)).
Proof.
  intros p. unfold value_at, usable. destruct (_ && _); [reflexivity|]. destruct (_ || _); [reflexivity|]. destruct (four f true m _ _) as [[[a b] c] d]. destruct (a || b || c || d); reflexivity.
Qed.
Lemma usable_wrap : forall i j, usable (col f i) j = usable i j.
Proof.
  intros i j. unfold usable, four. rewrite !col_col, !col_succ by exact N.
  replace (negb (f_circ f) && ((col f i <? 0) || (f_nx f <=? col f i + 1))%Z) with (negb (f_circ f) && ((i <? 0) || (f_nx f <=? i + 1))%Z); [reflexivity|].
  unfold col. destruct (f_circ f); reflexivity.
Qed.
(** What is kept: the start, or the corners of a cell. *)
Definition kept (st : zcache) : Prop :=
  st = {| z_i := -100000000; z_j := -10000000; z_masked := false; z_val := None |}
  \/ ((f_circ f = true -> (0 <= z_i st < f_nx f)%Z) /\ (z_masked st = true /\ usable (z_i st) (z_j st) = None \/ z_masked st = false /\ exists q, z_val st = Some q /\ usable (z_i st) (z_j st) = Some q)).
Definition special (p : Q * Q) : Prop := cell_x f p = (-100000000)%Z /\ cell_y f p = (-10000000)%Z.
Lemma finish : forall st p, (z_masked st = true /\ usable (cell_x f p) (cell_y f p) = None \/ z_masked st = false /\ exists q, z_val st = Some q /\ usable (cell_x f p) (cell_y f p) = Some q) ->
  (if z_masked st then Some (st, None) else
    let! q := z_val st in
    Some (st, Some ((q00 q * (1 - ((fst p - f_x0 f) / f_xs f - inject_Z (cell_x f p))) + q10 q * ((fst p - f_x0 f) / f_xs f - inject_Z (cell_x f p))) * (1 - ((snd p - f_y0 f) / f_ys f - inject_Z (cell_y f p)))
      + (q01 q * (1 - ((fst p - f_x0 f) / f_xs f - inject_Z (cell_x f p))) + q11 q * ((fst p - f_x0 f) / f_xs f - inject_Z (cell_x f p))) * ((snd p - f_y0 f) / f_ys f - inject_Z (cell_y f p)))%Q)) = Some (st, value_at f z m p).
Proof.
  intros st p H. rewrite value_usable. destruct H as [[-> ->]|[-> (q & -> & ->)]]; reflexivity.
Qed.
Lemma bilinear_at_spec : forall st p, kept st -> ~ special p -> exists st', kept st' /\ bilinear_at f z m st p = Some (st', value_at f z m p).
Proof.
  intros st p K NS. unfold bilinear_at. cbv zeta. fold (cell_x f p) (cell_y f p).
  destruct (negb (cell_x f p =? z_i st)%Z || negb (cell_y f p =? z_j st)%Z) eqn:NEW.
  - set (i := cell_x f p). set (j := cell_y f p). fold (col f i) (col f (i + 1)).
    assert (R : f_circ f = true -> (0 <= col f i < f_nx f)%Z) by (intros C; apply col_range; auto).
    assert (OUT : ((f_nx f <=? col f (i + 1)) || (col f i <? 0) || (j <? 0) || (f_ny f <=? j + 1))%Z
              = (negb (f_circ f) && ((i <? 0) || (f_nx f <=? i + 1)) || ((j <? 0) || (f_ny f <=? j + 1)))%Z).
    { destruct (f_circ f) eqn:C; cbn [negb andb orb].
      - assert (0 <= col f (i + 1) < f_nx f)%Z by (apply col_range; auto). destruct (Z.leb_spec (f_nx f) (col f (i + 1))); [lia|]. specialize (R eq_refl). destruct (Z.ltb_spec (col f i) 0); [lia|]. reflexivity.
      - unfold col. rewrite C. destruct (i <? 0)%Z, (f_nx f <=? i + 1)%Z, (j <? 0)%Z, (f_ny f <=? j + 1)%Z; reflexivity. }
    rewrite OUT. destruct (negb (f_circ f) && ((i <? 0) || (f_nx f <=? i + 1)) || ((j <? 0) || (f_ny f <=? j + 1)))%Z eqn:O.
    + assert (U : usable i j = None).
      { unfold usable. apply orb_true_iff in O. destruct O as [-> | ->]; [reflexivity|]. destruct (_ && _); reflexivity. }
      cbn [bind]. eexists. split; [|apply finish; left; split; [reflexivity|exact U]]. right. cbn [z_i z_j z_masked]. split; [exact R|]. left. split; [reflexivity|]. rewrite usable_wrap. exact U.
    + apply orb_false_iff in O. destruct O as [O1 O2]. pose proof O2 as O3. apply orb_false_iff in O3. destruct O3 as [J0 J1]. apply Z.ltb_ge in J0. apply Z.leb_gt in J1.
      assert (I : f_circ f = true \/ (0 <= i /\ i + 1 < f_nx f)%Z).
      { apply andb_false_iff in O1. destruct O1 as [O|O]; [left; apply negb_false_iff; exact O|right]. apply orb_false_iff in O. destruct O as [A B]. apply Z.ltb_ge in A. apply Z.leb_gt in B. lia. }
      rewrite (corners_four f m i j true M_ N I) by lia. cbn [bind].
      destruct (four f true m i j) as [[[a b] c] d] eqn:F. destruct (a || b || c || d) eqn:MK.
      * assert (U : usable i j = None) by (unfold usable; rewrite O1, O2, F, MK; reflexivity).
        cbn [bind]. eexists. split; [|apply finish; left; split; [reflexivity|exact U]]. right. cbn [z_i z_j z_masked]. split; [exact R|]. left. split; [reflexivity|]. rewrite usable_wrap. exact U.
      * rewrite (corners_four f z i j 0%Q Z_ N I) by lia. cbn [bind].
        assert (U : usable i j = Some (quad_of (four f 0%Q z i j))) by (unfold usable; rewrite O1, O2, F, MK; reflexivity).
        eexists. split; [|apply finish; right; split; [reflexivity|]; exists (quad_of (four f 0%Q z i j)); split; [reflexivity|exact U]].
        right. cbn [z_i z_j z_masked z_val]. split; [exact R|]. right. split; [reflexivity|]. exists (quad_of (four f 0%Q z i j)). split; [reflexivity|]. rewrite usable_wrap. exact U.
  - apply orb_false_iff in NEW. destruct NEW as [E1 E2]. apply negb_false_iff, Z.eqb_eq in E1. apply negb_false_iff, Z.eqb_eq in E2.
    cbn [bind]. exists st. split; [exact K|]. apply finish. destruct K as [->|[_ K]].
    + exfalso. apply NS. split; [exact E1|exact E2].
    + rewrite E1, E2. exact K.
Qed.
Lemma bilinear_loop_spec : forall ps st, kept st -> (forall p, In p ps -> ~ special p) -> bilinear_loop f z m st ps = Some (map (value_at f z m) ps).
Proof.
  induction ps as [|p ps IH]; intros st K NS; cbn [bilinear_loop map]; [reflexivity|].
  destruct (bilinear_at_spec st p K (NS p (or_introl eq_refl))) as (st' & K' & ->). cbn [bind fst snd]. rewrite IH; auto. intros; apply NS; right; auto.
Qed.
End Interp.
Lemma interp2d_bilinear_spec : forall x_g y_g f z m ps, frame_of x_g y_g = Some f -> matrix z (f_nx f) (f_ny f) -> matrix m (f_nx f) (f_ny f) ->
  (forall p, In p ps -> ~ special f p) -> interp2d_bilinear x_g y_g z m ps = Some (map (value_at f z m) ps).
Proof.
  intros x_g y_g f z m ps E Z_ M_ NS. unfold interp2d_bilinear. rewrite E. cbn [bind]. destruct (frame_sizes _ _ _ E) as (A & _ & B & _).
  apply bilinear_loop_spec; auto; [lia|left; reflexivity].
Qed.
(** Between the values of the grid. *)
Lemma value_between : forall f z m p v lo hi, matrix z (f_nx f) (f_ny f) -> (0 < f_nx f)%Z -> all_between lo hi z -> value_at f z m p = Some v -> (lo <= v /\ v <= hi)%Q.
Proof.
  intros f z m p v lo hi Z_ N B E. rewrite value_usable in E. unfold usable in E.
  destruct (negb (f_circ f) && _) eqn:O; [discriminate E|]. destruct ((cell_y f p <? 0)%Z || (f_ny f <=? cell_y f p + 1)%Z) eqn:O2; [discriminate E|]. destruct (four f true m _ _) as [[[a b] c] d]. destruct (a || b || c || d); [discriminate E|].
  cbn [option_map] in E. apply Some_inj in E. subst v. destruct (place_range f p) as [X Y]. apply bilinear_between; auto.
  apply orb_false_iff in O2. destruct O2 as [J0 J1]. apply Z.ltb_ge in J0. apply Z.leb_gt in J1. apply four_between; auto; [|lia].
  apply andb_false_iff in O. destruct O as [O|O]; [left; apply negb_false_iff; exact O|right]. apply orb_false_iff in O. destruct O as [A1 B1]. apply Z.ltb_ge in A1. apply Z.leb_gt in B1. lia.
Qed.
(** Functions a + b x + c y + d x y are reproduced. *)
Lemma value_exact : forall f z m p v A B C D, ~ (f_xs f == 0)%Q -> ~ (f_ys f == 0)%Q ->
  (forall i j, (0 <= i < f_nx f)%Z -> (0 <= j < f_ny f)%Z ->
    let x := (f_x0 f + inject_Z i * f_xs f)%Q in let y := (f_y0 f + inject_Z j * f_ys f)%Q in (node 0%Q z i j == A + B * x + C * y + D * x * y)%Q) ->
  (0 <= cell_x f p)%Z -> (cell_x f p + 1 < f_nx f)%Z -> value_at f z m p = Some v ->
  (v == A + B * fst p + C * snd p + D * fst p * snd p)%Q.
Proof.
  intros f z m p v A B C D XS YS G I0 I1 E. rewrite value_usable in E. unfold usable in E.
  destruct (negb (f_circ f) && _) eqn:O; [discriminate E|]. destruct ((cell_y f p <? 0)%Z || (f_ny f <=? cell_y f p + 1)%Z) eqn:O2; [discriminate E|].
  destruct (four f true m _ _) as [[[a b] c] d]. destruct (a || b || c || d); [discriminate E|].
  cbn [option_map] in E. apply Some_inj in E. subst v. apply orb_false_iff in O2. destruct O2 as [J0 J1]. apply Z.ltb_ge in J0. apply Z.leb_gt in J1.
  assert (R0 : row f (cell_y f p) = cell_y f p) by (unfold row; destruct (Z.ltb_spec (cell_y f p) 0); lia).
  assert (R1 : row f (cell_y f p + 1) = (cell_y f p + 1)%Z) by (unfold row; destruct (Z.ltb_spec (cell_y f p + 1) 0); lia).
  assert (C0 : col f (cell_x f p) = cell_x f p) by (unfold col; destruct (f_circ f); [apply Z.mod_small; lia|reflexivity]).
  assert (C1 : col f (cell_x f p + 1) = (cell_x f p + 1)%Z) by (unfold col; destruct (f_circ f); [apply Z.mod_small; lia|reflexivity]).
  unfold four, quad_of, bilinear, mix. cbn [q00 q01 q10 q11]. rewrite R0, R1, C0, C1, !G by lia.
  unfold place_x, place_y. set (i := cell_x f p) in *. set (j := cell_y f p) in *. rewrite !inject_Z_plus. change (inject_Z 1) with 1%Q. field. split; assumption.
Qed.
(** Points a whole turn apart. *)
Lemma value_turn : forall f z m p q k, ~ (f_xs f == 0)%Q -> (0 < f_nx f)%Z -> f_circ f = true \/ k = 0%Z -> apart (inject_Z (k * f_nx f) * f_xs f) p q ->
  match value_at f z m p, value_at f z m q with Some v, Some w => (v == w)%Q | None, None => True | _, _ => False end.
Proof.
  intros f z m p q k XS N CK A. pose proof (cell_x_apart f (inject_Z (k * f_nx f) * f_xs f) k XS (Qeq_refl _) p q A) as CX. pose proof (cell_y_apart f _ p q A) as CY.
  rewrite !value_usable, CX, CY.
  assert (V : usable f z m (cell_x f p + k * f_nx f)%Z (cell_y f p) = usable f z m (cell_x f p) (cell_y f p)).
  { destruct CK as [CC| ->]; [|rewrite Z.mul_0_l, Z.add_0_r; reflexivity]. rewrite <- (usable_wrap f z m N (cell_x f p + _)), <- (usable_wrap f z m N (cell_x f p)). f_equal. unfold col. rewrite CC. apply Z.mod_add. lia. }
  rewrite V. destruct (usable f z m (cell_x f p) (cell_y f p)); cbn [option_map]; [|exact I]. apply bilinear_comp.
  - unfold place_x. rewrite CX. destruct A as [A _]. rewrite A, inject_Z_plus. field. exact XS.
  - unfold place_y. rewrite CY. destruct A as [_ A]. rewrite A. reflexivity.
Qed.
