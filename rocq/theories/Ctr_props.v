(** C91: the contours kept, their tables and the nearest contour of a level. *)
From Coq Require Import List Arith ZArith QArith Qabs Lia Lqa Bool.
From Verif Require Import Base Qaux Poly_model Poly_pairs Ctr_model Ctr_spec Ctr_proofs Ctr_near.
Import ListNotations.
Local Close Scope Q_scope.
Local Open Scope nat_scope.

Lemma init_spec : forall junk junkn ku drawn ls t, contours_init junk junkn ku drawn = Some (ls, t) ->
  exists ks, ls = map (map fst) ks /\ t = tables_of ks /\ Forall2 (fun ps cs => keeps ku ps (map fst cs)) drawn ks /\
    (forall cs c, In cs ks -> In c cs -> bbox (fst c) = Some (snd c) /\ fst c <> []).
Proof.
  intros junk junkn ku drawn ls t H. unfold contours_init in H. destruct (keep_levels_spec ku drawn) as (ks & E & K & B). rewrite E in H. cbn [bind] in H.
  destruct (existsb _ drawn) eqn:X; [|discriminate H]. assert (N : ks <> []). { intros ->. inversion K; subst. discriminate X. }
  rewrite (fill_tables_spec junk junkn ks N) in H. cbn [bind] in H. injection H as <- <-. exists ks. split; [reflexivity|]. split; [reflexivity|]. split; assumption.
Qed.

(** ** Which contours are kept *)
Theorem C91_kept : forall junk junkn keep_unclose drawn ls t,
  contours_init junk junkn keep_unclose drawn = Some (ls, t) -> Forall2 (keeps keep_unclose) drawn ls.
Proof.
  intros junk junkn ku drawn ls t H. destruct (init_spec _ _ _ _ _ _ H) as (ks & -> & _ & K & _).
  clear H. induction K as [|ps cs d ks K1 K IH]; cbn [map]; constructor; assumption.
Qed.
Print Assumptions C91_kept.

Theorem C91_built : forall junk junkn keep_unclose drawn,
  (exists r, contours_init junk junkn keep_unclose drawn = Some r) <-> (exists ps, In ps drawn /\ ps <> []).
Proof.
  intros junk junkn ku drawn. unfold contours_init. destruct (keep_levels_spec ku drawn) as (ks & E & K & B). rewrite E. cbn [bind].
  destruct (existsb _ drawn) eqn:X.
  - apply existsb_exists in X as (ps & I & L). assert (N : ks <> []). { intros ->. inversion K; subst. destruct I. }
    rewrite (fill_tables_spec junk junkn ks N). cbn [bind]. split; [|intros _; eexists; reflexivity]. intros _. exists ps. split; [exact I|]. intros ->. discriminate L.
  - split; [intros (r & R); discriminate R|]. intros (ps & I & N). assert (Y : existsb (fun ps => negb (length ps =? 0)) drawn = true).
    { apply existsb_exists. exists ps. split; [exact I|]. destruct ps; [contradiction|reflexivity]. } rewrite X in Y. discriminate Y.
Qed.
Print Assumptions C91_built.

(** ** The tables *)
Theorem C91_tables : forall junk junkn keep_unclose drawn ls t, contours_init junk junkn keep_unclose drawn = Some (ls, t) ->
  length (t_level_index t) = length ls /\ length (t_nb_contour t) = length ls /\
  length (t_x t) = length (concat (concat ls)) /\ length (t_y t) = length (concat (concat ls)) /\
  length (t_nb_pt t) = length (concat ls) /\ length (t_contour_index t) = length (concat ls) /\
  forall level ps, nth_error ls level = Some ps -> exists first,
    nth_error (t_level_index t) level = Some first /\ nth_error (t_nb_contour t) level = Some (length ps) /\
    first = length (concat (firstn level ls)) /\
    forall i p, nth_error ps i = Some p -> exists start x0 x1 y0 y1,
      nth_error (t_contour_index t) (first + i) = Some start /\ nth_error (t_nb_pt t) (first + i) = Some (length p) /\
      nth_error (t_x_min t) (first + i) = Some x0 /\ nth_error (t_x_max t) (first + i) = Some x1 /\
      nth_error (t_y_min t) (first + i) = Some y0 /\ nth_error (t_y_max t) (first + i) = Some y1 /\
      (forall v, In v p -> (x0 <= fst v <= x1)%Q /\ (y0 <= snd v <= y1)%Q) /\
      (exists a b c d, In a p /\ In b p /\ In c p /\ In d p /\ fst a = x0 /\ fst b = x1 /\ snd c = y0 /\ snd d = y1) /\
      forall j v, nth_error p j = Some v -> nth_error (t_x t) (start + j) = Some (fst v) /\ nth_error (t_y t) (start + j) = Some (snd v).
Proof.
  intros junk junkn ku drawn ls t H. destruct (init_spec _ _ _ _ _ _ H) as (ks & -> & -> & _ & W). clear H.
  assert (CC : concat (map (map fst) ks) = map fst (concat ks)) by (symmetry; apply concat_map).
  assert (LP : forall f : point -> Q, length (flat_map (fun c : kept => map f (fst c)) (concat ks)) = length (concat (map fst (concat ks)))).
  { intros f. rewrite flat_map_concat_map. generalize (concat ks). intros l. induction l as [|c l IH]; [reflexivity|]. cbn [map concat]. rewrite !app_length, map_length, IH. reflexivity. }
  cbn [t_level_index t_nb_contour t_x t_y t_nb_pt t_contour_index tables_of]. rewrite CC, !excl_sums_length, !map_length.
  split; [reflexivity|]. split; [reflexivity|]. split; [apply (LP fst)|]. split; [apply (LP snd)|]. split; [reflexivity|]. split; [reflexivity|].
  intros level ps L. rewrite nth_error_map in L. destruct (nth_error ks level) as [cs|] eqn:C; [|discriminate L]. cbn [option_map] in L. apply Some_inj in L. subst ps.
  exists (sum_list (firstn level (map (@length _) ks))). split; [apply nth_error_excl_sums; rewrite map_length; apply nth_error_Some; rewrite C; discriminate|].
  split; [rewrite nth_error_map, C; cbn [option_map]; rewrite map_length; reflexivity|]. split.
  { clear. revert level. induction ks as [|k ks IH]; intros [|level]; try reflexivity. cbn [map firstn concat]. rewrite app_length, map_length, <- IH. reflexivity. }
  intros i p I. rewrite nth_error_map in I. destruct (nth_error cs i) as [c|] eqn:J; [|discriminate I]. cbn [option_map] in I. apply Some_inj in I. subst p.
  pose proof (nth_concat _ ks level cs i c C J) as G. set (g := sum_list (firstn level (map (@length _) ks)) + i) in *.
  destruct (W cs c (nth_error_In _ _ C) (nth_error_In _ _ J)) as [B _]. destruct c as [p [[[x0 x1] y0] y1]]. cbn [fst snd] in B.
  destruct (bbox_spec _ _ _ _ _ B) as (I & (a & Ia & Ea) & (b & Ib & Eb) & (c & Ic & Ec) & (d & Id & Ed)).
  exists (sum_list (firstn g (map (fun c : kept => length (fst c)) (concat ks)))), x0, x1, y0, y1.
  split. { cbn [t_contour_index tables_of]. apply nth_error_excl_sums. rewrite map_length. apply nth_error_Some. rewrite G. discriminate. }
  cbn [t_nb_pt t_x_min t_x_max t_y_min t_y_max tables_of]. rewrite !nth_error_map, G. cbn [option_map fst]. unfold kx0, kx1, ky0, ky1. cbn [fst snd].
  split; [reflexivity|]. split; [reflexivity|]. split; [reflexivity|]. split; [reflexivity|]. split; [reflexivity|].
  split; [exact I|]. split. { exists a, b, c, d. split; [exact Ia|]. split; [exact Ib|]. split; [exact Ic|]. split; [exact Id|]. split; [exact Ea|]. split; [exact Eb|]. split; assumption. }
  intros j v V. split; [exact (nth_flat fst _ g (p, (x0, x1, y0, y1)) j v G V)|exact (nth_flat snd _ g (p, (x0, x1, y0, y1)) j v G V)].
Qed.
Print Assumptions C91_tables.

(** ** The nearest contour *)
Theorem C91_nearest : forall junk junkn keep_unclose drawn ls t level ps x y,
  contours_init junk junkn keep_unclose drawn = Some (ls, t) -> nth_error ls level = Some ps ->
  exists r, nearest_path t level x y = Some r /\
  match r with
  | None => forall p, In p ps -> ~ box_holds x y p
  | Some i => (exists p, In p ps /\ box_holds x y p) /\
      exists p0 v0 d0, nth_error ps 0 = Some p0 /\ nth_error p0 0 = Some v0 /\ (d0 == (fst v0 - x) * (fst v0 - x) + (snd v0 - y) * (snd v0 - y))%Q /\
      ((i = 0 /\ forall p v d, In p ps -> box_holds x y p -> In v p -> gap2 x y v d -> (d0 <= d)%Q) \/
       (exists d, nearest_of x y ps i d /\ (d < d0)%Q))
  end.
Proof.
  intros junk junkn ku drawn ls t level ps x y H L. destruct (init_spec _ _ _ _ _ _ H) as (ks & -> & -> & _ & W).
  rewrite nth_error_map in L. destruct (nth_error ks level) as [cs|] eqn:C; [|discriminate L]. cbn [option_map] in L. apply Some_inj in L. subst ps.
  apply nearest_spec; [exact C|]. intros c I. apply (W cs); [apply nth_error_In in C; exact C|exact I].
Qed.
Print Assumptions C91_nearest.

(** When the box of the first contour of the level holds the point, the answer is the
    nearest of the contours whose box holds it. *)
Theorem C91_nearest_first : forall junk junkn keep_unclose drawn ls t level p0 ps x y,
  contours_init junk junkn keep_unclose drawn = Some (ls, t) -> nth_error ls level = Some (p0 :: ps) -> box_holds x y p0 ->
  exists i d, nearest_path t level x y = Some (Some i) /\ nearest_of x y (p0 :: ps) i d.
Proof.
  intros junk junkn ku drawn ls t level p0 ps x y H L B. destruct (C91_nearest _ _ _ _ _ _ _ _ x y H L) as (r & E & R). destruct r as [i|].
  2:{ exfalso. apply (R p0); [left; reflexivity|exact B]. }
  exists i. destruct R as (_ & p & v0 & d0 & P & V & D & [[-> R]|(d & R & _)]).
  - cbn in P. apply Some_inj in P. subst p.
    assert (G : exists d, gap2 x y v0 d). { exists (gap_of x y (p0, (0, 0, 0, 0)%Q) v0). apply gap_of_spec. }
    destruct G as [d G]. assert (IV : In v0 p0) by (apply nth_error_In in V; exact V). assert (B0 : (d0 <= d)%Q). { apply (R p0 v0); [left; reflexivity|exact B|exact IV|exact G]. }
    assert (DD : (d == d0)%Q). { apply Qle_antisym; [|exact B0]. rewrite D. apply gap2_straight. exact G. }
    exists d. split; [exact E|]. split.
    + exists p0, v0. split; [reflexivity|]. split; [exact B|]. split; [exact IV|exact G].
    + intros j q w e J BQ IW GW. split; [|intros; lia]. rewrite DD. apply (R q w); [apply nth_error_In in J; exact J|exact BQ|exact IW|exact GW].
  - exists d. split; assumption.
Qed.
Print Assumptions C91_nearest_first.

(** ** Examples *)
Definition sq (x y h : Q) : list (Q * Q) := [(x - h, y - h); (x + h, y - h); (x + h, y + h); (x - h, y + h); (x - h, y - h)]%Q.
(** Two levels: a square around the meridian 0 and a smaller one inside it, an open contour, a short one. *)
Definition drawn2 : list (list (list (Q * Q))) :=
  [[sq 0 0 4; sq 359 0 2]; []; [[(0, 0); (1, 0); (1, 1); (0, 1)]; sq 10 10 1; [(0, 0); (1, 1); (0, 0)]]]%Q.
Example drawn2_built : match contours_init 7 7 false drawn2 with
  | Some (ls, t) => map (@length _) ls = [2; 0; 1] /\ t_level_index t = [0; 2; 2] /\ t_nb_contour t = [2; 0; 1] /\ t_contour_index t = [0; 5; 10] /\
      nearest_path t 0 0 0 = Some (Some 1) /\ nearest_path t 0 (-(3)) (-(3)) = Some (Some 0) /\ nearest_path t 0 20 0 = Some None /\ nearest_path t 1 0 0 = Some None
  | None => False end.
Proof. vm_compute. repeat split; reflexivity. Qed.
(** A point beside a small contour and inside a large one: the small one is the
    answer, although the point is outside of its box. *)
Definition drawn3 : list (list (list (Q * Q))) := [[sq 0 0 1; sq 0 0 10]].
Theorem C91_outside_refuted : match contours_init 0 0 false drawn3 with
  | Some (ls, t) => nearest_path t 0 2 0 = Some (Some 0) /\ nth_error ls 0 = Some [sq 0 0 1; sq 0 0 10]
  | None => False end.
Proof. vm_compute. split; reflexivity. Qed.
Lemma drawn3_outside : ~ box_holds 2 0 (sq 0 0 1) /\ box_holds 2 0 (sq 0 0 10).
Proof.
  split.
  - intros (x' & a & b & c & d & [k K] & A & B & _ & _ & [H1 H2] & _).
    assert (A1 : (-(1) <= fst a)%Q). { cbn in A. destruct A as [<-|[<-|[<-|[<-|[<-|[]]]]]]; vm_compute; discriminate. }
    assert (B1 : (fst b <= 1)%Q). { cbn in B. destruct B as [<-|[<-|[<-|[<-|[<-|[]]]]]]; vm_compute; discriminate. }
    assert (R : (inject_Z k < 0)%Q) by lra. assert (R2 : (-(1) < inject_Z k)%Q) by lra.
    change 0%Q with (inject_Z 0) in R. change (-(1))%Q with (inject_Z (-1)) in R2. rewrite <- Zlt_Qlt in R, R2. lia.
  - exists 2%Q, (0 - 10, 0 - 10)%Q, (0 + 10, 0 - 10)%Q, (0 - 10, 0 - 10)%Q, (0 + 10, 0 + 10)%Q. cbn [fst snd]. split; [apply Qcong_refl|]. cbn [In sq]. intuition lra.
Qed.
(** The same two contours the other way round. *)
Example drawn4_built : match contours_init 0 0 false [[sq 0 0 10; sq 0 0 1]] with
  | Some (ls, t) => nearest_path t 0 2 0 = Some (Some 0) | None => False end.
Proof. vm_compute. reflexivity. Qed.
(** Nothing drawn: the tables cannot be built. *)
Theorem C91_empty_refuted : contours_init 0 0 false [[]; []] = None.
Proof. reflexivity. Qed.
(** The ends of a contour away by 0.005 degree are brought together, unless it is flat. *)
Example almost_closed : match contours_init 0 0 false [[[(0, 0); (1, 0); (1, 1); (0, 1); (1#200, 0)]; [(0, 0); (1, 0); (2, 0); (0, 0)]]]%Q with
  | Some (ls, _) => ls = [[[(0, 0); (1, 0); (1, 1); (0, 1); (0, 0)]]]%Q | None => False end.
Proof. vm_compute. reflexivity. Qed.
