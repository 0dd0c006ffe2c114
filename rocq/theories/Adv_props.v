(** Properties of advection (C58), of time weights (C62), of interpolation (C20)
    and of filaments (C86). *)
From Coq Require Import List Arith ZArith QArith Qround Qabs Bool Lia Lqa Sorted.
From Verif Require Import Base Qaux Split_model Grid_model Grid_path Grp_tracks Grp_more Adv_model Adv_spec Adv_proofs Adv_more Adv_time Adv_interp Adv_fil.
Import ListNotations.
Local Close Scope Q_scope.
Local Open Scope nat_scope.

(** Grids and fields for the cases: one which does not wrap with a masked node, and
    a circular one. *)
Definition qred_p (a : particle) : particle := match a with (Some p, m) => (Some (Qred (fst p), Qred (snd p)), m) | _ => a end.
Definition fl_x : list Q := [0; 1; 2; 3]%Q.
Definition fl_y : list Q := [0; 1; 2]%Q.
Definition fl_g : fields :=
  ([[1; 1; 1]; [1; 0; 0]; [0; 1; 0]; [1; 1; 1]]%Q, [[0; 1; 0]; [0; 0; 0]; [0; 0; 1]; [1; 0; 0]]%Q,
   [[false; false; false]; [false; false; false]; [false; false; false]; [false; true; false]]).
Definition fl_g1 : fields :=
  ([[1; 1; 1]; [0; 0; 0]; [0; 1; 0]; [1; 1; 1]]%Q, [[0; 0; 0]; [1; 0; 0]; [0; 0; 1]; [1; 0; 0]]%Q,
   [[false; false; false]; [false; false; false]; [false; false; false]; [false; false; false]]).
Definition fl_ps : list particle := [(Some (0, 0), false); (Some (2, 0), false); (None, true); (Some (5, 0), false); (Some (1, 1), false)]%Q.
Definition fl_f : frame := {| f_x0 := 0; f_y0 := 0; f_xs := 1; f_ys := 1; f_nx := 4; f_ny := 3; f_circ := false |}.
Lemma fl_frame : frame_of fl_x fl_y = Some fl_f.
Proof. vm_compute. reflexivity. Qed.
Lemma fl_fits : fits fl_f fl_g /\ fits fl_f fl_g1.
Proof. split; unfold fits, fl_g, fl_g1, fl_f, matrix; cbn [f_nx f_ny]; repeat split; repeat constructor. Qed.
Definition ci_x : list Q := [0; 90; 180; 270]%Q.
Definition ci_g : fields :=
  ([[1; 1; 1]; [0; 2; 0]; [1; 0; 1]; [2; 2; 2]]%Q, [[0; 0; 0]; [0; 1; 0]; [0; 0; 1]; [1; 0; 0]]%Q,
   [[false; false; false]; [false; false; false]; [false; false; false]; [false; false; false]]).
Definition ci_f : frame := {| f_x0 := 0; f_y0 := 0; f_xs := 90; f_ys := 1; f_nx := 4; f_ny := 3; f_circ := true |}.
Lemma ci_frame : frame_of ci_x fl_y = Some ci_f.
Proof. vm_compute. reflexivity. Qed.
Lemma ci_fits : fits ci_f ci_g.
Proof. unfold fits, ci_g, ci_f, matrix; cbn [f_nx f_ny]; repeat split; repeat constructor. Qed.
Ltac in_list := repeat match goal with H : In _ (_ :: _) |- _ => destruct H as [<-|H] | H : In _ [] |- _ => destruct H end.
Lemma ci_between : all_between 0 2 (fst (fst ci_g)) /\ all_between 0 1 (snd (fst ci_g)) /\ no_mask (snd ci_g).
Proof. split; [|split]; intros r q R I; unfold ci_g in R; cbn [fst snd] in R; in_list; try reflexivity; split; discriminate. Qed.

(** ** C58: advection *)

(** Each particle of the result is what becomes of this particle alone; [fate_..]
    (Adv_spec) has no memory of the last cell. *)
Theorem C58_euler : forall x_g y_g f g ps n r, frame_of x_g y_g = Some f -> fits f g ->
  Forall2 (fun a b => fate_euler f g n a = Some b) ps r -> advect x_g y_g g ps n = Some r.
Proof. intros. eapply advect_spec; eassumption. Qed.
Print Assumptions C58_euler.
Theorem C58_rk4 : forall x_g y_g f g ps n r, frame_of x_g y_g = Some f -> fits f g ->
  Forall2 (fun a b => fate_rk4 f g n a = Some b) ps r -> advect_rk4 x_g y_g g ps n = Some r.
Proof. intros. eapply advect_rk4_spec; eassumption. Qed.
Print Assumptions C58_rk4.
Theorem C58_two_dates_euler : forall x_g y_g f g0 g1 ps ws r, frame_of x_g y_g = Some f -> fits f g0 -> fits f g1 ->
  Forall2 (fun a b => fate_t f g0 g1 ws a = Some b) ps r -> advect_t x_g y_g g0 g1 ps ws = Some r.
Proof. intros. eapply advect_t_spec; eassumption. Qed.
Print Assumptions C58_two_dates_euler.
Theorem C58_two_dates_rk4 : forall x_g y_g f g0 g1 half_w ps ws r, frame_of x_g y_g = Some f -> fits f g0 -> fits f g1 ->
  Forall2 (fun a b => fate_t_rk4 f g0 g1 half_w ws a = Some b) ps r -> advect_t_rk4 x_g y_g g0 g1 ps ws half_w = Some r.
Proof. intros. eapply advect_t_rk4_spec; eassumption. Qed.
Print Assumptions C58_two_dates_rk4.
(** Particles in the order moved, lost in the masked cell, masked, out of the grid, moved. *)
Example C58_cases : map (option_map qred_p) (map (fate_euler fl_f fl_g 2) fl_ps)
    = map Some [(Some (2, 0), false); (None, true); (None, true); (None, true); (Some (1, 1), false)]%Q
  /\ map (option_map qred_p) (map (fate_rk4 fl_f fl_g 1) fl_ps)
    = map Some [(Some (1, 0), false); (None, true); (None, true); (None, true); (Some (1, 1), false)]%Q
  /\ map (option_map qred_p) (map (fate_t fl_f fl_g fl_g1 [1; 1 # 2]%Q) fl_ps)
    = map Some [(Some (3 # 2, 1 # 2), false); (None, true); (None, true); (None, true); (Some (1, 1), false)]%Q
  /\ map (option_map qred_p) (map (fate_t_rk4 fl_f fl_g fl_g1 (1 # 4) [1]%Q) fl_ps)
    = map Some [(Some (873655 # 1048576, 234661 # 1572864), false); (None, true); (None, true); (None, true); (Some (1, 1), false)]%Q
  /\ frame_of fl_x fl_y = Some fl_f /\ fits fl_f fl_g /\ fits fl_f fl_g1.
Proof. split; [vm_compute; reflexivity|]. split; [vm_compute; reflexivity|]. split; [vm_compute; reflexivity|]. split; [vm_compute; reflexivity|]. split; [exact fl_frame|exact fl_fits]. Qed.

(** The position of a particle in the list and the other particles change nothing:
    particle [k] of the result is the result for this particle alone. *)
Theorem C58_alone : forall x_g y_g f g ps n r, frame_of x_g y_g = Some f -> fits f g ->
  Forall2 (fun a b => fate_rk4 f g n a = Some b) ps r ->
  length r = length ps /\ forall k a b, nth_error ps k = Some a -> nth_error r k = Some b -> advect_rk4 x_g y_g g [a] n = Some [b].
Proof.
  intros x_g y_g f g ps n r E F H. split; [clear -H; induction H; [reflexivity|cbn; congruence]|]. intros k a b A B.
  assert (X : fate_rk4 f g n a = Some b).
  { clear -H A B. revert k A B. induction H as [|x y l l' R _ IH]; intros [|k] A B; try discriminate; cbn [nth_error] in *; [congruence|eapply IH; eassumption]. }
  eapply C58_rk4; eauto.
Qed.
Print Assumptions C58_alone.
Theorem C58_alone_euler : forall x_g y_g f g ps n r, frame_of x_g y_g = Some f -> fits f g ->
  Forall2 (fun a b => fate_euler f g n a = Some b) ps r ->
  length r = length ps /\ forall k a b, nth_error ps k = Some a -> nth_error r k = Some b -> advect x_g y_g g [a] n = Some [b].
Proof.
  intros x_g y_g f g ps n r E F H. split; [clear -H; induction H; [reflexivity|cbn; congruence]|]. intros k a b A B.
  assert (X : fate_euler f g n a = Some b).
  { clear -H A B. revert k A B. induction H as [|x y l l' R _ IH]; intros [|k] A B; try discriminate; cbn [nth_error] in *; [congruence|eapply IH; eassumption]. }
  eapply C58_euler; eauto.
Qed.
Print Assumptions C58_alone_euler.
(** Releases compose: advecting the result again by [m] steps is advecting by
    [n + m] steps; lost particles stay lost. *)
Theorem C58_compose : forall x_g y_g f g ps n m r r', frame_of x_g y_g = Some f -> fits f g ->
  Forall2 (fun a b => fate_rk4 f g n a = Some b) ps r -> Forall2 (fun a b => fate_rk4 f g m a = Some b) r r' ->
  advect_rk4 x_g y_g g ps n = Some r /\ advect_rk4 x_g y_g g r m = Some r' /\ advect_rk4 x_g y_g g ps (n + m) = Some r'.
Proof.
  intros x_g y_g f g ps n m r r' E F H H'. split; [eapply C58_rk4; eauto|]. split; [eapply C58_rk4; eauto|]. eapply C58_rk4; eauto.
  clear -H H'. revert r' H'. induction H as [|a b ps r R _ IH]; intros r' H'; inversion H'; subst; constructor; auto.
  unfold fate_rk4. rewrite repeat_app. eapply fate_app; [exact R|]. assumption.
Qed.
Print Assumptions C58_compose.
(** The velocity at a node of the grid is the one stored there. *)
Theorem C58_node : forall f s g w i j d, ~ (f_xs f == 0)%Q -> ~ (f_ys f == 0)%Q -> (0 <= j)%Z ->
  sample f s (cell_value f g) (fun _ : unit => speed) w (f_x0 f + inject_Z i * f_xs f, f_y0 f + inject_Z j * f_ys f)%Q = At d ->
  (fst d == node 0 (fst (fst g)) (col f i) j /\ snd d == node 0 (snd (fst g)) (col f i) j)%Q.
Proof. exact sample_node. Qed.
Print Assumptions C58_node.
Example C58_node_case : match sample ci_f (-100000) (cell_value ci_f ci_g) (fun _ : unit => speed) tt (450, 1)%Q with At d => Qred (fst d) = 2%Q /\ Qred (snd d) = 1%Q | _ => False end.
Proof. vm_compute. split; reflexivity. Qed.

(** Positions a whole number of turns apart (or equal positions written
    differently) stay so, with every scheme. *)
Definition turns (f : frame) (c : Q) : Prop := exists k, (c == inject_Z (k * f_nx f) * f_xs f)%Q /\ (f_circ f = true \/ k = 0%Z).
Theorem C58_turn : forall f g0 g1 c p q n ws half_w, fits f g0 -> fits f g1 -> ~ (f_xs f == 0)%Q -> turns f c -> apart c p q ->
  both_apart c (journey (euler f (-100000) (cell_value f g0) (fun _ => speed)) (repeat tt n) p)
               (journey (euler f (-100000) (cell_value f g0) (fun _ => speed)) (repeat tt n) q)
  /\ both_apart c (journey (rk4 f (-1000000) (cell_value f g0) (fun _ => speed) (fun w => w)) (repeat tt n) p)
                  (journey (rk4 f (-1000000) (cell_value f g0) (fun _ => speed) (fun w => w)) (repeat tt n) q)
  /\ both_apart c (journey (euler f (-100000) (cell_values f g0 g1) speed_t) ws p)
                  (journey (euler f (-100000) (cell_values f g0 g1) speed_t) ws q)
  /\ both_apart c (journey (rk4 f (-1000000) (cell_values f g0 g1) speed_t (fun w => w - half_w)%Q) ws p)
                  (journey (rk4 f (-1000000) (cell_values f g0 g1) speed_t (fun w => w - half_w)%Q) ws q).
Proof.
  intros f g0 g1 c p q n ws half_w F0 F1 XS (k & C & CK) A.
  assert (N : (0 < f_nx f)%Z) by (destruct g0 as [[u v] m]; destruct F0 as (_ & _ & _ & N & _); exact N).
  assert (W1 : forall i j, cell_value f g0 (col f i) j = cell_value f g0 i j) by (intros; apply cell_value_wrap; exact F0).
  assert (W2 : forall i j, cell_values f g0 g1 (col f i) j = cell_values f g0 g1 i j) by (intros; unfold cell_values; rewrite !cell_value_wrap by assumption; reflexivity).
  repeat split; apply journey_apart; auto; intros w p' q' A'.
  - eapply euler_apart; eauto. exact speed_apart.
  - eapply rk4_apart; eauto. exact speed_apart.
  - eapply euler_apart; eauto. exact speed_t_apart.
  - eapply rk4_apart; eauto. exact speed_t_apart.
Qed.
Print Assumptions C58_turn.
Example C58_turn_case : turns ci_f 360 /\ turns ci_f (-720) /\ turns fl_f 0 /\ apart 360 (-90, 1)%Q (270, 1)%Q
  /\ option_map qred_p (fate_euler ci_f ci_g 1 (Some (-90, 1)%Q, false)) = Some (Some (-88, 1)%Q, false)
  /\ option_map qred_p (fate_euler ci_f ci_g 1 (Some (270, 1)%Q, false)) = Some (Some (272, 1)%Q, false).
Proof.
  split; [exists 1%Z; split; [reflexivity|left; reflexivity]|]. split; [exists (-2)%Z; split; [reflexivity|left; reflexivity]|]. split; [exists 0%Z; split; [reflexivity|right; reflexivity]|].
  split; [split; reflexivity|]. split; vm_compute; reflexivity.
Qed.

(** The move along each axis in [n] steps is at most [n] times the largest value of
    the field and at least [n] times the smallest: no overshoot. *)
Definition within (n : nat) (lo hi a b : Q) : Prop := (a + inject_Z (Z.of_nat n) * lo <= b /\ b <= a + inject_Z (Z.of_nat n) * hi)%Q.
Theorem C58_bounds : forall f g lo hi lo' hi' n p p', fits f g -> all_between lo hi (fst (fst g)) -> all_between lo' hi' (snd (fst g)) ->
  (fate_euler f g n (Some p, false) = Some (Some p', false) \/ fate_rk4 f g n (Some p, false) = Some (Some p', false)) ->
  within n lo hi (fst p) (fst p') /\ within n lo' hi' (snd p) (snd p').
Proof.
  intros f g lo hi lo' hi' n p p' F BU BV H. unfold within.
  assert (X : forall w p d, True -> sample f (-100000) (cell_value f g) (fun _ : unit => speed) w p = At d -> (lo <= fst d /\ fst d <= hi)%Q) by (intros; eapply sample_speed; eauto).
  assert (Y : forall w p d, True -> sample f (-100000) (cell_value f g) (fun _ : unit => speed) w p = At d -> (lo' <= snd d /\ snd d <= hi')%Q) by (intros; eapply sample_speed; eauto).
  assert (X' : forall w p d, True -> sample f (-1000000) (cell_value f g) (fun _ : unit => speed) w p = At d -> (lo <= fst d /\ fst d <= hi)%Q) by (intros; eapply sample_speed; eauto).
  assert (Y' : forall w p d, True -> sample f (-1000000) (cell_value f g) (fun _ : unit => speed) w p = At d -> (lo' <= snd d /\ snd d <= hi')%Q) by (intros; eapply sample_speed; eauto).
  assert (L : length (repeat tt n) = n) by apply repeat_length.
  destruct H as [H|H]; unfold fate_euler, fate_rk4, fate in H; match type of H with context [journey ?s ?w ?p] => destruct (journey s w p) as [q| |] eqn:J end; try discriminate H; apply Some_inj in H; injection H as ->; rewrite <- L.
  - split; [eapply (journey_moves (fun _ => True) lo hi fst)|eapply (journey_moves (fun _ => True) lo' hi' snd)]; try exact J; auto; apply euler_moves; auto.
  - split; [eapply (journey_moves (fun _ => True /\ True /\ True) lo hi fst)|eapply (journey_moves (fun _ => True /\ True /\ True) lo' hi' snd)]; try exact J; auto; eapply (rk4_moves f (-1000000) (cell_value f g) (fun _ => speed) (fun w => w) (fun _ => True)); auto; intros; cbn [fst snd]; field.
Qed.
Print Assumptions C58_bounds.
(** Two dates: the same, if the weights used, at full, half and whole steps, are
    between 0 and 1 (C62). *)
Definition weight_ok (w : Q) : Prop := (0 <= w /\ w <= 1)%Q.
Theorem C58_bounds_two_dates : forall f g0 g1 lo hi lo' hi' ws half_w p p', fits f g0 -> fits f g1 ->
  all_between lo hi (fst (fst g0)) -> all_between lo' hi' (snd (fst g0)) -> all_between lo hi (fst (fst g1)) -> all_between lo' hi' (snd (fst g1)) ->
  (forall w, In w ws -> weight_ok w /\ weight_ok (w - half_w) /\ weight_ok (w - half_w - half_w))%Q ->
  (fate_t f g0 g1 ws (Some p, false) = Some (Some p', false) \/ fate_t_rk4 f g0 g1 half_w ws (Some p, false) = Some (Some p', false)) ->
  within (length ws) lo hi (fst p) (fst p') /\ within (length ws) lo' hi' (snd p) (snd p').
Proof.
  intros f g0 g1 lo hi lo' hi' ws half_w p p' F0 F1 BU BV BU1 BV1 WS H. unfold within.
  assert (X : forall s w p d, weight_ok w -> sample f s (cell_values f g0 g1) speed_t w p = At d -> (lo <= fst d /\ fst d <= hi)%Q) by (intros s w p0 d W E; eapply sample_speed_t; [exact F0|exact F1|exact W|exact BU|exact BV|exact BU1|exact BV1|exact E]).
  assert (Y : forall s w p d, weight_ok w -> sample f s (cell_values f g0 g1) speed_t w p = At d -> (lo' <= snd d /\ snd d <= hi')%Q) by (intros s w p0 d W E; eapply sample_speed_t; [exact F0|exact F1|exact W|exact BU|exact BV|exact BU1|exact BV1|exact E]).
  destruct H as [H|H]; unfold fate_t, fate_t_rk4, fate in H; match type of H with context [journey ?s ?w ?p] => destruct (journey s w p) as [q| |] eqn:J end; try discriminate H; apply Some_inj in H; injection H as ->.
  - split; [eapply (journey_moves weight_ok lo hi fst)|eapply (journey_moves weight_ok lo' hi' snd)]; try exact J; try (intros w I; apply WS; exact I); apply euler_moves; auto; intros w p0 d; [apply X|apply Y].
  - split; [eapply (journey_moves _ lo hi fst)|eapply (journey_moves _ lo' hi' snd)]; try exact J; try exact WS; apply (rk4_moves f (-1000000) (cell_values f g0 g1) speed_t (fun w => w - half_w)%Q weight_ok); try (intros; cbn [fst snd]; field); intros w p0 d; [apply X|apply Y].
Qed.
Print Assumptions C58_bounds_two_dates.
Example C58_bounds_case : fits ci_f ci_g /\ all_between 0 2 (fst (fst ci_g)) /\ all_between 0 1 (snd (fst ci_g)) /\ (exists p', fate_rk4 ci_f ci_g 1 (Some (0, 0)%Q, false) = Some (Some p', false))
  /\ (forall w, In w [1]%Q -> weight_ok w /\ weight_ok (w - (1 # 4)) /\ weight_ok (w - (1 # 4) - (1 # 4)))%Q
  /\ exists p', fate_t_rk4 fl_f fl_g fl_g1 (1 # 4) [1]%Q (Some (0, 0)%Q, false) = Some (Some p', false).
Proof.
  split; [exact ci_fits|]. split; [apply ci_between|]. split; [apply ci_between|].
  assert (S_ : forall o : option particle, match o with Some (Some _, false) => True | _ => False end -> exists p', o = Some (Some p', false)) by (intros [[[p|] [|]]|] H; try destruct H; eauto).
  split; [apply S_; vm_compute; exact I|]. split; [|apply S_; vm_compute; exact I].
  intros w [<-|[]]. repeat split; discriminate.
Qed.
(** A uniform current moves a particle by exactly [n] times the current. *)
Theorem C58_uniform : forall f g a b n p p', fits f g -> all_between a a (fst (fst g)) -> all_between b b (snd (fst g)) ->
  (fate_euler f g n (Some p, false) = Some (Some p', false) \/ fate_rk4 f g n (Some p, false) = Some (Some p', false)) ->
  (fst p' == fst p + inject_Z (Z.of_nat n) * a /\ snd p' == snd p + inject_Z (Z.of_nat n) * b)%Q.
Proof. intros f g a b n p p' F A B H. destruct (C58_bounds f g a a b b n p p' F A B H) as [[X1 X2] [Y1 Y2]]. split; lra. Qed.
Print Assumptions C58_uniform.
(** On a circular grid without masked value, a particle is not lost as long as the
    extreme values of the field cannot take it out of the rows. *)
Theorem C58_stays : forall f g lo hi n p, fits f g -> no_mask (snd g) -> f_circ f = true -> (0 < f_ys f)%Q -> all_between lo hi (snd (fst g)) ->
  in_rows f (snd p + inject_Z (Z.of_nat n) * low0 lo)%Q -> in_rows f (snd p + inject_Z (Z.of_nat n) * high0 hi)%Q ->
  (exists p', fate_euler f g n (Some p, false) = Some (Some p', false)) /\ (exists p', fate_rk4 f g n (Some p, false) = Some (Some p', false)).
Proof.
  intros f g lo hi n p F NM C YS BV A B.
  assert (ST : forall s (w : unit) p, in_rows f (snd p) -> exists d, sample f s (cell_value f g) (fun _ => speed) w p = At d).
  { intros s w p0 R. unfold sample. rewrite C. cbn [negb andb]. destruct (cell_value_stay f g p0 F NM C YS R) as (q & ->). cbn. eauto. }
  assert (UU : exists l h, all_between l h (fst (fst g))).
  { exists (fold_right (fun r a => fold_right (fun x y => if Qle_bool x y then x else y) a r) 0%Q (fst (fst g))), (fold_right (fun r a => fold_right (fun x y => if Qle_bool x y then y else x) a r) 0%Q (fst (fst g))).
    generalize (fst (fst g)). clear. intros l.
    assert (LO : forall r a, (fold_right (fun x y => if Qle_bool x y then x else y) a r <= a)%Q /\ forall q, In q r -> (fold_right (fun x y => if Qle_bool x y then x else y) a r <= q)%Q).
    { induction r as [|x r IH]; intros a; cbn [fold_right]; [split; [lra|intros q []]|]. destruct (IH a) as [I1 I2]. destruct (Qle_bool x _) eqn:E; [apply Qle_bool_iff in E|apply Qle_bool_false in E]; split; try lra; intros q [<-|I]; try lra; specialize (I2 q I); lra. }
    assert (HI : forall r a, (a <= fold_right (fun x y => if Qle_bool x y then y else x) a r)%Q /\ forall q, In q r -> (q <= fold_right (fun x y => if Qle_bool x y then y else x) a r)%Q).
    { induction r as [|x r IH]; intros a; cbn [fold_right]; [split; [lra|intros q []]|]. destruct (IH a) as [I1 I2]. destruct (Qle_bool x _) eqn:E; [apply Qle_bool_iff in E|apply Qle_bool_false in E]; split; try lra; intros q [<-|I]; try lra; specialize (I2 q I); lra. }
    intros r q R I. split.
    - induction l as [|r' l IH]; [destruct R|]. cbn [fold_right]. destruct R as [->|R]; [apply LO; exact I|]. eapply Qle_trans; [apply (proj1 (LO _ _))|]. apply IH. exact R.
    - induction l as [|r' l IH]; [destruct R|]. cbn [fold_right]. destruct R as [->|R]; [apply HI; exact I|]. eapply Qle_trans; [|apply (proj1 (HI _ _))]. apply IH. exact R. }
  destruct UU as (l & h & BU).
  assert (SM : forall s (w : unit) p d, True -> sample f s (cell_value f g) (fun _ => speed) w p = At d -> (lo <= snd d /\ snd d <= hi)%Q) by (intros; eapply sample_speed; eauto).
  assert (L : length (repeat tt n) = n) by apply repeat_length.
  split.
  - destruct (journey_stays f lo hi (euler f (-100000) (cell_value f g) (fun _ : unit => speed)) (fun _ => True)) with (ws := repeat tt n) (p := p) as (p' & J); auto.
    + intros w p0 _ S0. apply (euler_stays f (-100000) (cell_value f g) (fun _ => speed) (fun _ => True) lo hi); try exact (SM _); try exact (ST _); auto.
    + apply euler_moves; [reflexivity|exact (SM _)].
    + rewrite L. exact A.
    + rewrite L. exact B.
    + exists p'. unfold fate_euler, fate. rewrite J. reflexivity.
  - destruct (journey_stays f lo hi (rk4 f (-1000000) (cell_value f g) (fun _ : unit => speed) (fun w => w)) (fun _ => True /\ True /\ True)) with (ws := repeat tt n) (p := p) as (p' & J); auto.
    + intros w p0 W S0. apply (rk4_stays f (-1000000) (cell_value f g) (fun _ => speed) (fun _ => True) lo hi); try exact (SM _); try exact (ST _); auto.
    + eapply (rk4_moves f (-1000000) (cell_value f g) (fun _ => speed) (fun w => w) (fun _ => True)); [intros; cbn [fst snd]; field|exact (SM _)].
    + rewrite L. exact A.
    + rewrite L. exact B.
    + exists p'. unfold fate_rk4, fate. rewrite J. reflexivity.
Qed.
Print Assumptions C58_stays.
Example C58_stays_case : no_mask (snd ci_g) /\ in_rows ci_f (snd (0, 1 # 2)%Q + inject_Z (Z.of_nat 1) * low0 0)%Q /\ in_rows ci_f (snd (0, 1 # 2)%Q + inject_Z (Z.of_nat 1) * high0 1)%Q.
Proof. split; [apply ci_between|]. split; split; vm_compute; reflexivity || discriminate. Qed.
(** Two dates with the same fields give what one date gives, whatever the weights. *)
Theorem C58_same_dates : forall f g p ws half_w, fits f g -> ~ (f_xs f == 0)%Q ->
  both_apart 0 (journey (euler f (-100000) (cell_value f g) (fun _ => speed)) (repeat tt (length ws)) p)
               (journey (euler f (-100000) (cell_values f g g) speed_t) ws p)
  /\ both_apart 0 (journey (rk4 f (-1000000) (cell_value f g) (fun _ => speed) (fun w => w)) (repeat tt (length ws)) p)
                  (journey (rk4 f (-1000000) (cell_values f g g) speed_t (fun w => w - half_w)%Q) ws p).
Proof.
  intros f g p ws half_w F XS. assert (A : apart 0 p p) by (split; ring).
  split; apply journey_apart2; auto; try apply repeat_length; [apply euler_apart2|apply rk4_apart2]; intros; apply sample_same; auto.
Qed.
Print Assumptions C58_same_dates.
(** A particle is out of what the code handles only more than a whole grid south of
    the first row, or in one cell far out of a grid which does not wrap. *)
Theorem C58_handled : forall f s g w p, sample f s (cell_value f g) (fun _ : unit => speed) w p = Broken ->
  (cell_y f p < - f_ny f)%Z \/ (cell_x f p = s /\ cell_y f p = s).
Proof. exact sample_broken. Qed.
Print Assumptions C58_handled.
(** South of the grid a particle is not lost: it is moved with the rows of the
    northern end (row -1 is the last one). *)
Definition south_g : fields :=
  ([[0; 0; 5]; [0; 0; 5]]%Q, [[0; 0; 0]; [0; 0; 0]]%Q, [[false; false; false]; [false; false; false]]).
Theorem C58_south_refuted : option_map (map qred_p) (advect [0; 1]%Q [0; 1; 2]%Q south_g [(Some (0, -1)%Q, false)] 1) = Some [(Some (5, -1)%Q, false)]
  /\ option_map (map qred_p) (advect [0; 1]%Q [0; 1; 2]%Q south_g [(Some (0, 2)%Q, false)] 1) = Some [(None, true)].
Proof. vm_compute. split; reflexivity. Qed.
Print Assumptions C58_south_refuted.
(** In the cell used as mark for "no cell", on a grid which does not wrap, the first
    particle of the list stays in place; after another one it is lost. *)
Theorem C58_mark_refuted :
  option_map (map qred_p) (advect [0; 1; 2]%Q [0; 1; 2]%Q ([[1; 1; 1]; [1; 1; 1]; [1; 1; 1]]%Q, [[0; 0; 0]; [0; 0; 0]; [0; 0; 0]]%Q, repeat (repeat false 3) 3) [(Some (-100000, -100000)%Q, false)] 1)
    = Some [(Some (-100000, -100000)%Q, false)]
  /\ option_map (map qred_p) (advect [0; 1; 2]%Q [0; 1; 2]%Q ([[1; 1; 1]; [1; 1; 1]; [1; 1; 1]]%Q, [[0; 0; 0]; [0; 0; 0]; [0; 0; 0]]%Q, repeat (repeat false 3) 3) [(Some (0, 0)%Q, false); (Some (-100000, -100000)%Q, false)] 1)
    = Some [(Some (1, 0)%Q, false); (None, true)].
Proof. vm_compute. split; reflexivity. Qed.
Print Assumptions C58_mark_refuted.
