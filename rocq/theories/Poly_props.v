(** Properties C51 to C57 and C81 to C85: contours. *)
From Coq Require Import List Arith ZArith QArith Qabs Qround Bool Lia Lqa Permutation Sorted.
From Verif Require Import Base Qaux Sort Obs_spec Obs_props Corr_model Solver_proofs Poly_model Poly_spec Poly_wind Poly_area Poly_convex Poly_pairs Poly_mesh PolyIdx_model PolyIdx_proofs PolyVis_model PolyVis_spec PolyVis_proofs.
Import ListNotations.
Local Close Scope Q_scope.
Local Open Scope nat_scope.

Definition square : list point := [(0, 0); (4, 0); (4, 4); (0, 4)]%Q.
Definition pentagram : list point := [(0, 3); (2, -3); (-3, 1); (3, 1); (-2, -3)]%Q.

(** ** C51: bounding box *)
Theorem C51_outside_box : forall poly pt, outside_box poly pt -> winding_number_poly pt poly = 0%Z.
Proof. exact winding_outside. Qed.
Print Assumptions C51_outside_box.
Theorem C51_inside_in_box : forall poly pt x0 x1 y0 y1, bbox poly = Some (x0, x1, y0, y1) -> inside poly pt -> (x0 <= fst pt <= x1 /\ y0 <= snd pt <= y1)%Q.
Proof. exact inside_box. Qed.
Print Assumptions C51_inside_in_box.
(** A contour which crosses itself, a point on the right of it and a point turned around twice. *)
Example C51_case : winding_number_poly (4, 1)%Q pentagram = 0%Z /\ winding_number_poly (0, 0)%Q pentagram = (-2)%Z.
Proof. split; reflexivity. Qed.
Example C51_case_outside : outside_box pentagram (4, 1)%Q.
Proof. right. left. intros v [<-|[<-|[<-|[<-|[<-|[]]]]]]; reflexivity. Qed.

(** ** C52: first vertex, repeated vertices *)
Theorem C52_first_vertex : forall pt l r, winding_number_poly pt (l ++ r) = winding_number_poly pt (r ++ l).
Proof. exact winding_rotations. Qed.
Print Assumptions C52_first_vertex.
Theorem C52_closing_copies : forall pt a l copies, (forall q, In q copies -> same q a) -> winding_number_poly pt (a :: l ++ copies) = winding_number_poly pt (a :: l).
Proof. exact winding_repeat. Qed.
Print Assumptions C52_closing_copies.
Theorem C52_reduced : forall first r, (exists q, In q r /\ ~ same q first) ->
  exists l copies, reduce_size (first :: r) = Some l /\ first :: r = l ++ copies /\ (forall q, In q copies -> same q first) /\
  (forall l' q, l = l' ++ [q] -> 3 < length l -> ~ same q first) /\
  forall pt, winding_number_poly pt l = winding_number_poly pt (first :: r).
Proof.
  intros first r (q & I & D). pose proof (reduce_size_spec first r) as H. destruct (reduce_size (first :: r)) as [l|] eqn:R; [|exfalso; apply D, H, I].
  destruct H as (k & rest & A & B & C & (K1 & K2) & p & P & NP). exists l, rest. split; [reflexivity|]. split; [exact A|]. split; [exact B|]. split.
  - intros l' z E L. assert (LL : length l = k). { rewrite C in L |- *. rewrite firstn_length in L |- *. lia. }
    rewrite A, nth_error_app1 in P by lia. rewrite E, app_length in LL. cbn in LL. rewrite E, nth_error_app2 in P by lia. replace (k - 1 - length l') with 0 in P by lia. cbn in P. injection P as ->. exact NP.
  - intros pt. exact (winding_reduce pt _ _ R).
Qed.
Print Assumptions C52_reduced.
Theorem C52_translated : forall dx dy pt poly, winding_number_poly (fst pt + dx, snd pt + dy)%Q (map (fun p => (fst p + dx, snd p + dy)%Q) poly) = winding_number_poly pt poly.
Proof.
  intros dx dy pt poly. rewrite !winding_sum, edges_map, map_map. apply zsum_ext. intros [a b] _. cbn [fst snd]. unfold cross. rewrite !is_left_orient. cbn [fst snd].
  assert (E : (orient (fst a + dx, snd a + dy) (fst b + dx, snd b + dy) (fst pt + dx, snd pt + dy) == orient a b pt)%Q) by (unfold orient; cbn [fst snd]; ring).
  assert (L : forall x y d, Qle_bool (x + d) (y + d) = Qle_bool x y) by (intros x y d; destruct (Qle_bool_iff' x y), (Qle_bool_iff' (x + d) (y + d)); auto; exfalso; lra).
  assert (M : forall x y d, Qlt_bool (x + d) (y + d) = Qlt_bool x y) by (intros x y d; destruct (Qlt_bool_iff' x y), (Qlt_bool_iff' (x + d) (y + d)); auto; exfalso; lra).
  rewrite !L, !M. replace (Qlt_bool 0 (orient (fst a + dx, snd a + dy)%Q (fst b + dx, snd b + dy)%Q (fst pt + dx, snd pt + dy)%Q)) with (Qlt_bool 0 (orient a b pt)); [reflexivity|].
  destruct (Qlt_bool_iff' 0 (orient a b pt)), (Qlt_bool_iff' 0 (orient (fst a + dx, snd a + dy)%Q (fst b + dx, snd b + dy)%Q (fst pt + dx, snd pt + dy)%Q)); auto; exfalso; lra.
Qed.
Print Assumptions C52_translated.
Example C52_case : reduce_size (square ++ [(0, 0); (0, 0)]%Q) = Some square /\ winding_number_poly (1, 2)%Q (square ++ [(0, 0); (0, 0)]%Q) = 1%Z /\ winding_number_poly (1, 2)%Q (skipn 2 square ++ firstn 2 square) = 1%Z.
Proof. repeat split; reflexivity. Qed.
(** With all its points equal a contour cannot be reduced: the loop leaves the array. *)
Theorem C52_all_equal_refuted : forall p n, reduce_size (repeat p n) = None.
Proof.
  intros p n. unfold reduce_size. destruct n as [|n]; [reflexivity|]. cbn [repeat]. change (p :: repeat p n) with (repeat p (S n)). rewrite repeat_length. set (m := S n). clearbody m.
  assert (S : same_point p p = true) by (apply same_point_iff, same_refl). assert (G : forall i, i <= m -> last_other p (repeat p m) i = None).
  { induction i as [|i IH]; intros L; [reflexivity|]. cbn [last_other]. rewrite nth_error_repeat_lt. replace (i <? m) with true by (symmetry; apply Nat.ltb_lt; lia). cbn [bind]. rewrite S. cbn [negb]. apply IH. lia. }
  rewrite G by auto. reflexivity.
Qed.
Print Assumptions C52_all_equal_refuted.

(** ** C53: area *)
Theorem C53_area : forall a m z, same z a -> exists q, poly_area (a :: m ++ [z]) = Some q /\ (0 <= q)%Q /\ (q == Qabs (shoelace (a :: m)) / 2)%Q.
Proof.
  intros a m z S. destruct (poly_area_closed a m z S) as (q & E & H). exists q. split; [exact E|]. pose proof (Qabs_nonneg (shoelace (a :: m))) as N. split; [lra|]. rewrite H. reflexivity.
Qed.
Print Assumptions C53_area.
Theorem C53_copies : forall a m copies z, same z a -> (forall q, In q copies -> same q a) -> exists q r, poly_area (a :: m ++ [z]) = Some q /\ poly_area (a :: (m ++ copies) ++ [z]) = Some r /\ (q == r)%Q.
Proof.
  intros a m c z S C. destruct (poly_area_closed a m z S) as (q & E & H). destruct (poly_area_closed a (m ++ c) z S) as (r & F & G). exists q, r. split; [exact E|]. split; [exact F|]. rewrite H, G. rewrite (shoelace_repeat a m c C). reflexivity.
Qed.
Print Assumptions C53_copies.
(** The sum of the products does not depend on the first vertex nor on the
    position, changes its sign with the direction, and is the sum of the double
    areas of the triangles seen from any point. *)
Theorem C53_invariant : forall poly,
  (forall l r, poly = l ++ r -> shoelace (r ++ l) == shoelace poly)%Q /\ (shoelace (rev poly) == - shoelace poly)%Q /\
  (forall dx dy, shoelace (map (fun p => (fst p + dx, snd p + dy)) poly) == shoelace poly)%Q /\
  (forall k m, shoelace (map (fun p => (k * fst p, m * snd p)) poly) == k * m * shoelace poly)%Q /\
  (forall o, shoelace poly == qsum (map (fun e => orient o (fst e) (snd e)) (edges poly)))%Q.
Proof.
  intros poly. split; [intros l r ->; symmetry; apply shoelace_rotate|]. split; [apply shoelace_rev|]. split; [intros; apply shoelace_translate|]. split; [intros; apply shoelace_scale|]. intros o. apply shoelace_fan.
Qed.
Print Assumptions C53_invariant.
(** Areas of a contour and of its moved, turned and reversed copies. *)
Definition closed (l : list point) : list point := match l with [] => [] | a :: _ => l ++ [a] end.
Theorem C53_moved : forall l r dx dy, l ++ r <> [] -> exists q q1 q2 q3, poly_area (closed (l ++ r)) = Some q /\
  poly_area (closed (r ++ l)) = Some q1 /\ poly_area (closed (rev (l ++ r))) = Some q2 /\
  poly_area (closed (map (fun p => (fst p + dx, snd p + dy)%Q) (l ++ r))) = Some q3 /\ (q1 == q)%Q /\ (q2 == q)%Q /\ (q3 == q)%Q.
Proof.
  intros l r dx dy N. assert (G : forall c, c <> [] -> exists q, poly_area (closed c) = Some q /\ (q == Qabs (shoelace c) * (1 # 2))%Q).
  { intros [|a m] H; [contradiction|]. exact (poly_area_closed a m a (same_refl a)). }
  destruct (G (l ++ r) N) as (q & E & H). destruct (G (r ++ l)) as (q1 & E1 & H1). { intros E'. apply app_eq_nil in E' as [-> ->]. contradiction. }
  destruct (G (rev (l ++ r))) as (q2 & E2 & H2). { intros E'. apply (f_equal (@rev _)) in E'. rewrite rev_involutive in E'. contradiction. }
  destruct (G (map (fun p => (fst p + dx, snd p + dy)%Q) (l ++ r))) as (q3 & E3 & H3). { intros E'. apply map_eq_nil in E'. contradiction. }
  exists q, q1, q2, q3. repeat (split; [assumption|]). rewrite H, H1, H2, H3. split; [rewrite shoelace_rotate; reflexivity|]. split; [rewrite shoelace_rev, Qabs_opp; reflexivity|]. rewrite shoelace_translate. reflexivity.
Qed.
Print Assumptions C53_moved.
Example C53_case : option_map Qred (poly_area (closed square)) = Some 16%Q /\ option_map Qred (poly_area (closed (rev square))) = Some 16%Q /\ option_map Qred (poly_area (closed (skipn 1 square ++ firstn 1 square))) = Some 16%Q.
Proof. repeat split; reflexivity. Qed.
(** Without the closing point the value is not the area and changes with the position. *)
Theorem C53_open_refuted : option_map Qred (poly_area square) = Some 16%Q /\ option_map Qred (poly_area (map (fun p => (fst p + 10, snd p)%Q) square)) = Some 36%Q.
Proof. split; reflexivity. Qed.

(** ** C54: simplification *)
Theorem C54_simplified : forall poly size, 2 <= length poly -> 3 <= size ->
  exists kept first, visvalingam poly size = Some (map (fun i => nth i poly (0, 0)%Q) kept ++ repeat first (size - length kept)) /\
  length kept = Nat.min (length poly) (size - 1) /\ incr kept /\ (exists i r, kept = i :: r /\ first = nth i poly (0, 0)%Q) /\
  shrinks poly (seq 0 (length poly)) kept.
Proof.
  intros poly size N S. destruct (visvalingam_spec poly size N S) as (l & f & A & B & C & D & E). exists l, f. auto.
Qed.
Print Assumptions C54_simplified.
Theorem C54_size : forall poly size, 2 <= length poly -> 3 <= size -> exists out, visvalingam poly size = Some out /\ length out = size.
Proof.
  intros poly size N S. destruct (visvalingam_spec poly size N S) as (l & f & A & _ & _ & D & _). eexists. split; [exact A|]. rewrite app_length, map_length, repeat_length. lia.
Qed.
Print Assumptions C54_size.
Example C54_case : visvalingam [(0, 0); (2, 1 # 10); (4, 0); (4, 4); (2, 5); (0, 4)]%Q 5 = Some [(0, 0); (4, 0); (4, 4); (0, 4); (0, 0)]%Q.
Proof. reflexivity. Qed.
Example C54_case_short : visvalingam [(0, 0); (4, 0); (4, 4)]%Q 6 = Some [(0, 0); (4, 0); (4, 4); (0, 0); (0, 0); (0, 0)]%Q.
Proof. reflexivity. Qed.
(** A closed input: the closing point is a vertex like the others. *)
Example C54_case_closed : visvalingam [(0, 0); (4, 0); (4, 4); (0, 4); (0, 0)]%Q 5 = Some [(0, 0); (4, 0); (4, 4); (0, 4); (0, 0)]%Q.
Proof. reflexivity. Qed.
(** With a size of one no vertex is kept and the result is undefined. *)
Theorem C54_small_size_refuted : visvalingam [(0, 0); (4, 0); (4, 4)]%Q 1 = None.
Proof. reflexivity. Qed.

(** ** C55: contour of each particle *)
Theorem C55_first_contour : forall argsort pts cs, sorts argsort -> pts <> [] -> (forall p, In p pts -> (-90 <= snd p)%Q) -> (forall c, In c cs -> good_contour c) ->
  exists out, poly_indexs argsort pts cs = Some out /\ length out = length pts /\
  forall i p, nth_error pts i = Some p -> exists r, first_containing cs p r /\ nth_error out i = Some (match r with Some m => Z.of_nat m | None => (-1)%Z end).
Proof. exact poly_indexs_spec. Qed.
Print Assumptions C55_first_contour.
Theorem C55_inside : forall argsort pts cs, sorts argsort -> pts <> [] -> (forall p, In p pts -> (-90 <= snd p)%Q) -> (forall c, In c cs -> good_contour c) ->
  exists out, insidepoly argsort pts cs = Some out /\ length out = length pts /\
  forall i p, nth_error pts i = Some p -> exists b, nth_error out i = Some b /\ (b = true <-> exists c, In c cs /\ contains c p).
Proof.
  intros argsort pts cs SO NE LAT G. destruct (poly_indexs_spec argsort pts cs SO NE LAT G) as (out & E & L & H). unfold insidepoly. rewrite E. cbn [bind]. eexists. split; [reflexivity|]. split; [rewrite map_length; exact L|].
  intros i p P. destruct (H i p P) as (r & F & N). rewrite nth_error_map, N. cbn [option_map]. eexists. split; [reflexivity|]. destruct r as [m|].
  - destruct F as ((c & C1 & C2) & _). split; [intros _; exists c; split; [apply (nth_error_In _ _ C1)|exact C2]|]. intros _. apply negb_true_iff, Z.eqb_neq. lia.
  - split; [discriminate|]. intros (c & I & C). apply In_nth_error in I as (m & M). exfalso. exact (F m c M C).
Qed.
Print Assumptions C55_inside.
(** A contour across longitude 0 given from 358 to 362, points on both sides and one turn away. *)
Example C55_case : poly_indexs zargsort [(359, 1); (1, 1); (-359, 3); (20, 1); (721, 1 # 2)]%Q [[(358, 0); (362, 0); (362, 4); (358, 4); (358, 0)]; square]%Q = Some [0; 0; 0; -1; 0]%Z.
Proof. reflexivity. Qed.
Example C55_case_good : good_contour [(358, 0); (362, 0); (362, 4); (358, 4); (358, 0)]%Q.
Proof.
  split; [exists (358, 0)%Q, (362, 0)%Q; cbn; split; [tauto|split; [tauto|intros [A _]; discriminate]]|]. split.
  - intros p q [<-|[<-|[<-|[<-|[<-|[]]]]]] [<-|[<-|[<-|[<-|[<-|[]]]]]]; reflexivity.
  - intros p [<-|[<-|[<-|[<-|[<-|[]]]]]]; discriminate.
Qed.
(** A contour more than 180 degrees wide loses points. *)
Theorem C55_wide_refuted : inside [(0, 0); (200, 0); (200, 10); (0, 10)]%Q (190, 5)%Q /\ poly_indexs zargsort [(190, 5)]%Q [[(0, 0); (200, 0); (200, 10); (0, 10)]%Q] = Some [-1]%Z.
Proof. split; [discriminate|reflexivity]. Qed.
Theorem C55_no_particle_refuted : forall cs, poly_indexs zargsort [] cs = None.
Proof. reflexivity. Qed.

(** ** C56: pairs of boxes *)
Theorem C56_pairs : forall l0 l1 : list (list point), (forall c, In c l0 \/ In c l1 -> c <> []) ->
  (forall (c0 c1 : list point) p q r t, In c0 l0 -> In c1 l1 -> In p c0 -> In q c0 -> In r c1 -> In t c1 -> (fst p - fst q) + (fst r - fst t) < 180)%Q ->
  exists out, bbox_intersection l0 l1 = Some out /\ lex_sorted out /\
  forall i j, In (i, j) out <-> exists c0 c1 b0 b1, nth_error l0 i = Some c0 /\ nth_error l1 j = Some c1 /\ bbox c0 = Some b0 /\ bbox c1 = Some b1 /\ boxes_meet b0 b1.
Proof.
  intros l0 l1 NE W. destruct (sequence_map_total bbox l0) as [b0 B0]; [intros a A; apply bbox_total; auto|]. destruct (sequence_map_total bbox l1) as [b1 B1]; [intros a A; apply bbox_total; auto|].
  rewrite (bbox_intersection_eq l0 l1 b0 b1 B0 B1). eexists. split; [reflexivity|]. destruct (test_pairs_spec boxes_meet_code b0 b1) as [LS IF]. split; [exact LS|]. intros i j. rewrite IF. clear LS IF.
  destruct (sequence_map_nth _ _ _ B0) as [L0 N0]. destruct (sequence_map_nth _ _ _ B1) as [L1 N1].
  assert (K : forall c0 c1 e0 e1, In c0 l0 -> In c1 l1 -> bbox c0 = Some e0 -> bbox c1 = Some e1 -> (boxes_meet_code e0 e1 = true <-> boxes_meet e0 e1)).
  { intros c0 c1 [[[x0 x0'] y0] y0'] [[[x1 x1'] y1] y1'] I0 I1 E0 E1. destruct (bbox_spec _ _ _ _ _ E0) as (R0 & (p & P & <-) & (q & Q & <-) & _). destruct (bbox_spec _ _ _ _ _ E1) as (R1 & (r & R & <-) & (t & T & <-) & _).
    apply boxes_meet_spec; [destruct (R0 q Q); lra|destruct (R1 t T); lra|]. exact (W c0 c1 q p t r I0 I1 Q P T R). }
  split.
  - intros (e0 & e1 & E0 & E1 & M). assert (LI : i < length l0) by (apply nth_error_Some_lt in E0; lia). assert (LJ : j < length l1) by (apply nth_error_Some_lt in E1; lia).
    destruct (nth_error_lt_Some l0 i LI) as [c0 C0]. destruct (nth_error_lt_Some l1 j LJ) as [c1 C1]. destruct (N0 i c0 C0) as (e0' & X0 & Y0). destruct (N1 j c1 C1) as (e1' & X1 & Y1). assert (e0' = e0) by congruence. assert (e1' = e1) by congruence. subst.
    exists c0, c1, e0, e1. repeat (split; [assumption|]). apply (K c0 c1); auto; eapply nth_error_In; eauto.
  - intros (c0 & c1 & e0 & e1 & C0 & C1 & E0 & E1 & M). destruct (N0 i c0 C0) as (e0' & X0 & Y0). destruct (N1 j c1 C1) as (e1' & X1 & Y1). assert (e0' = e0) by congruence. assert (e1' = e1) by congruence. subst. exists e0, e1. repeat (split; [assumption|]). apply (K c0 c1); auto; eapply nth_error_In; eauto.
Qed.
Print Assumptions C56_pairs.
(** Two contours with a common inside point are always paired. *)
Theorem C56_common_point : forall (l0 l1 : list (list point)) i j c0 c1 p, (forall c, In c l0 \/ In c l1 -> c <> []) ->
  (forall (c0 c1 : list point) p q r t, In c0 l0 -> In c1 l1 -> In p c0 -> In q c0 -> In r c1 -> In t c1 -> (fst p - fst q) + (fst r - fst t) < 180)%Q ->
  nth_error l0 i = Some c0 -> nth_error l1 j = Some c1 -> contains c0 p -> contains c1 p ->
  exists out, bbox_intersection l0 l1 = Some out /\ In (i, j) out.
Proof.
  intros l0 l1 i j c0 c1 p NE W C0 C1 (k & K) (h & H). destruct (C56_pairs l0 l1 NE W) as (out & E & _ & IF). exists out. split; [exact E|]. apply IF.
  destruct (bbox_total c0) as [b0 B0]; [apply NE; left; eapply nth_error_In; eauto|]. destruct (bbox_total c1) as [b1 B1]; [apply NE; right; eapply nth_error_In; eauto|]. exists c0, c1, b0, b1. repeat (split; [assumption|]).
  destruct b0 as [[[x0 x0'] y0] y0'], b1 as [[[x1 x1'] y1] y1']. pose proof (inside_box _ _ _ _ _ _ B0 K) as [KX KY]. pose proof (inside_box _ _ _ _ _ _ B1 H) as [HX HY]. cbn [shift fst snd] in *. unfold boxes_meet. split; [|lra]. exists (k - h)%Z. rewrite inject_Z_minus. split; lra.
Qed.
Print Assumptions C56_common_point.
(** Before their overlap is measured, the second contour is moved by whole turns,
    all of it, next to the first one. *)
Theorem C56_wrapped : forall p0 p1 x0 x0' y0 y0' x1 x1' y1 y1', bbox p0 = Some (x0, x0', y0, y0') -> bbox p1 = Some (x1, x1', y1, y1') ->
  ((x0' - x0) + (x1' - x1) < 180)%Q -> boxes_meet (x0, x0', y0, y0') (x1, x1', y1, y1') ->
  exists k l, get_wrap_vertice p0 p1 = Some l /\ Forall2 same l (map (shift k) p1) /\ (x0 <= x1' + 360 * inject_Z k)%Q /\ (x1 + 360 * inject_Z k <= x0')%Q.
Proof. intros p0 p1 x0 x0' y0 y0' x1 x1' y1 y1' B0 B1. exact (get_wrap_spec p0 p1 _ _ B0 B1). Qed.
Print Assumptions C56_wrapped.
Definition west : list point := [(-2, 0); (2, 0); (2, 4); (-2, 4)]%Q.
Definition east : list point := [(359, 1); (363, 1); (363, 5); (359, 5)]%Q.
Definition far : list point := [(20, 1); (23, 1); (23, 5)]%Q.
Example C56_case : bbox_intersection [west; far] [far; east] = Some [(0, 1); (1, 0)] /\ option_map (map (fun p => (Qred (fst p), snd p))) (get_wrap_vertice west east) = Some [(-1, 1); (3, 1); (3, 5); (-1, 5)]%Q.
Proof. split; reflexivity. Qed.
(** With boxes of 100 degrees a pair can be missed. *)
Theorem C56_wide_refuted : exists c0 c1 b0 b1, bbox c0 = Some b0 /\ bbox c1 = Some b1 /\ boxes_meet b0 b1 /\ bbox_intersection [c0] [c1] = Some [].
Proof.
  exists [(0, 0); (100, 0); (100, 4); (0, 4)]%Q, [(450, 0); (550, 0); (550, 4); (450, 4)]%Q. eexists. eexists. split; [reflexivity|]. split; [reflexivity|]. split; [|reflexivity].
  unfold boxes_meet. cbn. split; [exists (-1)%Z; split; discriminate|split; discriminate].
Qed.
Print Assumptions C56_wide_refuted.

(** ** C57: overlap score *)
Lemma score_cases : forall mode hybrid t i a0 a1, (overlap_score mode hybrid t i a0 a1 == 0)%Q \/
  ((overlap_score mode hybrid t i a0 a1 == raw_score mode i a0 a1)%Q /\ ~ (i == 0)%Q /\
   ((t <= raw_score mode i a0 a1)%Q \/ (hybrid = true /\ (99 # 100 < raw_score MinimalArea i a0 a1)%Q))).
Proof.
  intros mode hybrid t i a0 a1. unfold overlap_score. destruct (Qeq_bool i 0) eqn:E; [left; reflexivity|]. assert (NZ : ~ (i == 0)%Q) by (intros H; apply Qeq_bool_iff in H; congruence).
  set (c := match mode with MinimalArea => _ | P1Area => _ | Union => _ end). assert (C : c = raw_score mode i a0 a1) by (destruct mode; reflexivity). rewrite C. clear c C.
  destruct (Qle_bool_iff' t (raw_score mode i a0 a1)) as [L|L]; [right; split; [reflexivity|auto]|]. destruct hybrid; cbn [andb]; [|left; reflexivity]. destruct (negb (Qeq_bool (raw_score mode i a0 a1) 0)); cbn [andb]; [|left; reflexivity].
  destruct (Qlt_bool_iff' (99 # 100) (i / (if Qle_bool a0 a1 then a0 else a1))) as [M|M]; [right; split; [reflexivity|auto]|left; reflexivity].
Qed.
Theorem C57_range : forall mode hybrid t i a0 a1, (0 <= i -> i <= a0 -> i <= a1 -> 0 < a0 -> 0 < a1 -> 0 <= overlap_score mode hybrid t i a0 a1 <= 1)%Q.
Proof.
  intros mode hybrid t i a0 a1 I I0 I1 A0 A1. destruct (score_cases mode hybrid t i a0 a1) as [E|[E _]]; rewrite E; [lra|]. apply raw_range; auto.
Qed.
Print Assumptions C57_range.
Theorem C57_threshold : forall mode hybrid t i a0 a1, (overlap_score mode hybrid t i a0 a1 == 0)%Q \/
  ((overlap_score mode hybrid t i a0 a1 == raw_score mode i a0 a1)%Q /\
   ((t <= raw_score mode i a0 a1)%Q \/ (hybrid = true /\ (99 # 100 < raw_score MinimalArea i a0 a1)%Q))).
Proof. intros. destruct (score_cases mode hybrid t i a0 a1) as [E|(E & _ & C)]; auto. Qed.
Print Assumptions C57_threshold.
Theorem C57_kept : forall mode hybrid t i a0 a1, (0 < i -> i <= a0 -> i <= a1 ->
  (t <= raw_score mode i a0 a1 \/ (hybrid = true /\ 99 # 100 < raw_score MinimalArea i a0 a1)) -> overlap_score mode hybrid t i a0 a1 == raw_score mode i a0 a1)%Q.
Proof.
  intros mode hybrid t i a0 a1 I I0 I1 H. unfold overlap_score. destruct (Qeq_bool i 0) eqn:E; [apply Qeq_bool_iff in E; lra|].
  set (c := match mode with MinimalArea => _ | P1Area => _ | Union => _ end). assert (C : c = raw_score mode i a0 a1) by (destruct mode; reflexivity). rewrite C. clear c C.
  assert (NZ : ~ (raw_score mode i a0 a1 == 0)%Q).
  { intros Z. assert (G : forall d, (0 < d -> i / d == 0 -> False)%Q) by (intros d D Z'; assert (0 < i / d)%Q by (apply Qlt_shift_div_l; lra); lra). destruct mode; cbn [raw_score] in Z; [apply (G (a0 + a1 - i)%Q); lra| |apply (G a1); lra]. destruct (Qle_bool_iff' a0 a1); [apply (G a0); lra|apply (G a1); lra]. }
  destruct (Qle_bool_iff' t (raw_score mode i a0 a1)) as [L|L]; [reflexivity|]. destruct H as [H|[-> H]]; [contradiction|]. destruct (Qeq_bool (raw_score mode i a0 a1) 0) eqn:Z; [apply Qeq_bool_iff in Z; contradiction|]. cbn [andb negb]. cbn [raw_score] in H. destruct (Qlt_bool_iff' (99 # 100) (i / (if Qle_bool a0 a1 then a0 else a1))) as [M|M]; [reflexivity|contradiction].
Qed.
Print Assumptions C57_kept.
Lemma raw_symmetric : forall mode i a0 a1, mode <> P1Area -> (raw_score mode i a0 a1 == raw_score mode i a1 a0)%Q.
Proof.
  intros mode i a0 a1 N. destruct mode; [| |congruence]; cbn [raw_score].
  - rewrite (Qplus_comm a0 a1). reflexivity.
  - destruct (Qle_bool_iff' a0 a1) as [A|A], (Qle_bool_iff' a1 a0) as [B|B]; try reflexivity; [|exfalso; lra]. assert (E : (a0 == a1)%Q) by lra. rewrite E. reflexivity.
Qed.
Theorem C57_symmetric : forall mode hybrid t i a0 a1, mode <> P1Area -> (0 <= i -> i <= a0 -> i <= a1 -> overlap_score mode hybrid t i a0 a1 == overlap_score mode hybrid t i a1 a0)%Q.
Proof.
  intros mode hybrid t i a0 a1 N I I0 I1. pose proof (raw_symmetric mode i a0 a1 N) as S. pose proof (raw_symmetric MinimalArea i a0 a1) as M. specialize (M ltac:(discriminate)).
  destruct (score_cases mode hybrid t i a0 a1) as [E|(E & NZ & C)].
  - destruct (score_cases mode hybrid t i a1 a0) as [F|(F & NZ & C)]; [rewrite E, F; reflexivity|]. rewrite F, <- S. apply C57_kept; try lra. destruct C as [C|[C D]]; [left; lra|right; split; [auto|lra]].
  - rewrite E, S. symmetry. apply C57_kept; try lra. destruct C as [C|[C D]]; [left; lra|right; split; [auto|lra]].
Qed.
Print Assumptions C57_symmetric.
Theorem C57_union_below : forall mode hybrid t i a0 a1, (0 <= i -> i <= a0 -> i <= a1 -> 0 < a0 -> 0 < a1 ->
  overlap_score Union hybrid t i a0 a1 <= overlap_score mode hybrid t i a0 a1 /\ overlap_score mode hybrid t i a0 a1 <= overlap_score MinimalArea hybrid t i a0 a1)%Q.
Proof.
  intros mode hybrid t i a0 a1 I I0 I1 A0 A1.
  assert (D : forall d e, (0 < d -> d <= e -> i / e <= i / d)%Q). { intros d e P L. apply Qle_div; [lra|]. apply (Qle_trans _ ((i / d) * d)%Q); [rewrite Qmult_comm, Qmult_div_r by lra; lra|]. assert (0 <= i / d)%Q by (apply Qdiv_le; lra). rewrite (Qmult_comm _ d), (Qmult_comm _ e). apply Qmult_le_compat_r; auto. }
  assert (R1 : forall m, (raw_score Union i a0 a1 <= raw_score m i a0 a1)%Q). { intros m. destruct m; cbn [raw_score]; [lra| |apply D; lra]. destruct (Qle_bool_iff' a0 a1); apply D; lra. }
  assert (R2 : forall m, (raw_score m i a0 a1 <= raw_score MinimalArea i a0 a1)%Q). { intros m. destruct m; cbn [raw_score]; [apply (R1 MinimalArea)|lra|]. destruct (Qle_bool_iff' a0 a1); apply D; lra. }
  assert (G : forall m m', (raw_score m i a0 a1 <= raw_score m' i a0 a1)%Q -> (overlap_score m hybrid t i a0 a1 <= overlap_score m' hybrid t i a0 a1)%Q).
  { intros m m' L. pose proof (C57_range m' hybrid t i a0 a1 I I0 I1 A0 A1) as [P _]. destruct (score_cases m hybrid t i a0 a1) as [E|(E & NZ & C)]; rewrite E; [exact P|]. rewrite C57_kept; try lra. destruct C as [C|C]; [left; lra|right; exact C]. }
  split; apply G; auto.
Qed.
Print Assumptions C57_union_below.
Theorem C57_full : forall hybrid t i a0 a1, (0 <= i -> i <= a0 -> i <= a1 -> 0 < a0 -> 0 < a1 -> t <= 1 ->
  (overlap_score Union hybrid t i a0 a1 == 1 <-> i == a0 /\ i == a1))%Q.
Proof.
  intros hybrid t i a0 a1 I I0 I1 A0 A1 T. split.
  - intros H. destruct (score_cases Union hybrid t i a0 a1) as [E|[E _]]; rewrite E in H; [lra|]. cbn [raw_score] in H. assert (K : (i == a0 + a1 - i)%Q). { assert (X := Qmult_div_r i (a0 + a1 - i) ltac:(lra)). rewrite H in X. lra. } lra.
  - intros [E0 E1]. assert (R : (raw_score Union i a0 a1 == 1)%Q). { cbn [raw_score]. rewrite <- E0, <- E1. assert (X : (i + i - i == i)%Q) by ring. rewrite X. apply Qmult_inv_r. lra. } rewrite C57_kept; try lra.
Qed.
Print Assumptions C57_full.
Example C57_case : map (fun m => Qred (overlap_score m false (1 # 5) 3 4 6)) [Union; MinimalArea; P1Area] = [3 # 7; 3 # 4; 1 # 2]%Q /\
  Qred (overlap_score Union true (1 # 2) 1 1 10) = (1 # 10)%Q /\ Qred (overlap_score Union false (1 # 2) 1 1 10) = 0%Q.
Proof. repeat split; reflexivity. Qed.
Theorem C57_p1_refuted : ~ (overlap_score P1Area false 0 3 4 6 == overlap_score P1Area false 0 3 6 4)%Q.
Proof. intros H. vm_compute in H. discriminate. Qed.

(** ** C81: inside in the sense of geometry *)
Theorem C81_triangle : forall pt a b c, ~ on_segment a b pt -> ~ on_segment b c pt -> ~ on_segment c a pt -> inside_triangle a b c pt (winding_number_poly pt [a; b; c]).
Proof. exact winding_triangle. Qed.
Print Assumptions C81_triangle.
(** Any contour is the sum of the triangles made with its edges and any point. *)
Theorem C81_triangles : forall pt o poly, (forall v, In v poly -> ~ on_segment o v pt) ->
  winding_number_poly pt poly = zsum (map (fun e => winding_number_poly pt [o; fst e; snd e]) (edges poly)).
Proof. exact winding_fan. Qed.
Print Assumptions C81_triangles.
Theorem C81_reversed : forall pt poly, (forall e, In e (edges poly) -> ~ on_segment (fst e) (snd e) pt) -> winding_number_poly pt (rev poly) = (- winding_number_poly pt poly)%Z.
Proof. exact winding_rev. Qed.
Print Assumptions C81_reversed.
Example C81_case : winding_number_poly (1, 1)%Q [(0, 0); (4, 0); (0, 4)]%Q = 1%Z /\ winding_number_poly (3, 3)%Q [(0, 0); (4, 0); (0, 4)]%Q = 0%Z /\ winding_number_poly (1, 1)%Q (rev square) = (-1)%Z.
Proof. repeat split; reflexivity. Qed.
Lemma off_vertical : forall (a b p : point), (fst a == fst b)%Q -> ~ (fst p == fst a)%Q -> ~ on_segment a b p.
Proof. intros a b p E N (t & _ & X & _). apply N. rewrite X. rewrite <- E. ring. Qed.
Lemma off_horizontal : forall (a b p : point), (snd a == snd b)%Q -> ~ (snd p == snd a)%Q -> ~ on_segment a b p.
Proof. intros a b p E N (t & _ & _ & X). apply N. rewrite X. rewrite <- E. ring. Qed.
Example C81_case_off : forall e, In e (edges square) -> ~ on_segment (fst e) (snd e) (1, 1)%Q.
Proof.
  intros e [<-|[<-|[<-|[<-|[]]]]]; cbn [fst snd].
  - apply off_horizontal; [reflexivity|discriminate].
  - apply off_vertical; [reflexivity|discriminate].
  - apply off_horizontal; [reflexivity|discriminate].
  - apply off_vertical; [reflexivity|discriminate].
Qed.
(** A point strictly on one side of all the edges is inside; a point separated
    from the vertices by the line of any two points is outside. *)
Theorem C81_one_side : forall poly pt, poly <> [] ->
  ((forall e, In e (edges poly) -> (0 < orient (fst e) (snd e) pt)%Q) -> (1 <= winding_number_poly pt poly)%Z) /\
  ((forall e, In e (edges poly) -> (orient (fst e) (snd e) pt < 0)%Q) -> (winding_number_poly pt poly <= -1)%Z).
Proof.
  intros poly pt NE. split; intros H; [apply winding_left; auto|].
  assert (W : (1 <= winding_number_poly pt (rev poly))%Z).
  { apply winding_left; [intros E; apply (f_equal (@rev _)) in E; rewrite rev_involutive in E; contradiction|]. intros e I. apply (Permutation_in _ (edges_rev poly)) in I. apply in_map_iff in I as ([a b] & <- & I). specialize (H _ I). unfold swap, orient in *. cbn [fst snd] in *. lra. }
  rewrite winding_rev in W; [lia|]. intros [a b] I (t & _ & X & Y). specialize (H _ I). cbn [fst snd] in *. unfold orient in H. rewrite X, Y in H. ring_simplify in H. lra.
Qed.
Print Assumptions C81_one_side.
Theorem C81_separated : forall poly pt c d, (forall v, In v poly -> (0 <= orient c d v)%Q) -> (orient c d pt < 0)%Q -> winding_number_poly pt poly = 0%Z.
Proof. exact winding_other_side. Qed.
Print Assumptions C81_separated.
Example C81_case_side : (forall e, In e (edges square) -> (0 < orient (fst e) (snd e) (1, 3))%Q) /\ (forall v, In v square -> (0 <= orient (8, 0) (0, 8) v)%Q) /\ (orient (8, 0) (0, 8) (7, 2) < 0)%Q.
Proof.
  split; [intros e [<-|[<-|[<-|[<-|[]]]]]; reflexivity|]. split; [intros v [<-|[<-|[<-|[<-|[]]]]]; discriminate|reflexivity].
Qed.
(** On a vertical edge the answer depends on the direction: a contour which turns
    right contains its left and right edges, one which turns left does not. *)
Theorem C81_boundary_refuted : winding_number_poly (0, 2)%Q square = 0%Z /\ winding_number_poly (4, 2)%Q square = 0%Z /\
  winding_number_poly (0, 2)%Q (rev square) = (-1)%Z /\ winding_number_poly (4, 2)%Q (rev square) = (-1)%Z.
Proof. repeat split; reflexivity. Qed.

(** ** C82: close centers *)
Theorem C82_close : forall l0 l1 delta, lex_sorted (close_center l0 l1 delta) /\
  forall i j, In (i, j) (close_center l0 l1 delta) <-> exists a b, nth_error l0 i = Some a /\ nth_error l1 j = Some b /\
    (exists k, Qabs (fst b - fst a + 360 * inject_Z k) <= delta)%Q /\ (Qabs (snd b - snd a) <= delta)%Q.
Proof.
  intros l0 l1 delta. rewrite close_center_eq. destruct (test_pairs_spec (close_code delta) l0 l1) as [A B]. split; [exact A|]. intros i j. rewrite B. split; intros (a & b & E & F & C); exists a, b; (split; [exact E|]; split; [exact F|]); apply close_code_spec in C; exact C.
Qed.
Print Assumptions C82_close.
Example C82_case : close_center [(359, 10); (20, 0)]%Q [(1 # 2, 11); (-1, 30); (21, 1); (-339, -1)]%Q 2 = [(0, 0); (1, 2); (1, 3)].
Proof. reflexivity. Qed.

(** ** C83: meshed particles *)
Theorem C83_mesh : forall fuel cs step out, (0 < step)%Q -> create_meshed_particles fuel cs step = Some out ->
  StronglySorted before_in out /\
  (forall p i, In (p, i) out -> exists c a b, nth_error cs i = Some c /\ inside c p /\ same p (inject_Z a * step, inject_Z b * step)%Q) /\
  (forall i c a b, nth_error cs i = Some c -> inside c (inject_Z a * step, inject_Z b * step)%Q -> exists p, In (p, i) out /\ same p (inject_Z a * step, inject_Z b * step)%Q).
Proof.
  intros fuel cs step out P H. unfold create_meshed_particles in H. destruct (sequence (map (fun c => mesh_contour fuel c step) cs)) as [l|] eqn:L; cbn [bind] in H; [|discriminate]. apply Some_inj in H. subst out.
  destruct (sequence_map_nth _ _ _ L) as [LL N]. assert (BACK : forall i m, nth_error l i = Some m -> exists c, nth_error cs i = Some c /\ mesh_contour fuel c step = Some m).
  { intros i m M. assert (LI : i < length cs) by (apply nth_error_Some_lt in M; lia). destruct (nth_error_lt_Some cs i LI) as [c C]. destruct (N i c C) as (m' & M' & E). exists c. split; [exact C|congruence]. }
  split; [|split].
  - apply numbered_sorted. intros m M. apply In_nth_error in M as (i & M). destruct (BACK i m M) as (c & C & E). destruct (mesh_contour_spec _ _ _ _ P E) as (_ & _ & ST). exact ST.
  - intros p i I. apply In_numbered in I as (_ & m & M & I). rewrite Nat.sub_0_r in M. destruct (BACK i m M) as (c & C & E). destruct (mesh_contour_spec _ _ _ _ P E) as (A & _ & _). destruct (A p I) as ((a & b & S) & IN). exists c, a, b. auto.
  - intros i c a b C IN. destruct (N i c C) as (m & M & E). destruct (mesh_contour_spec _ _ _ _ P E) as (_ & B & _). destruct (B a b IN) as (p & I & S). exists p. split; [|exact S]. apply In_numbered. split; [lia|]. exists m. rewrite Nat.sub_0_r. auto.
Qed.
Print Assumptions C83_mesh.
(** Particles are created for any contours with two different points. *)
Theorem C83_ends : forall cs step, (0 < step)%Q -> (forall c, In c cs -> exists p q, In p c /\ In q c /\ ~ same p q) ->
  exists n, forall fuel, n < fuel -> exists out, create_meshed_particles fuel cs step = Some out.
Proof.
  intros cs step P G. assert (K : exists n, forall fuel, n < fuel -> forall c, In c cs -> exists out, mesh_contour fuel c step = Some out).
  { induction cs as [|c cs IH]; [exists 0; intros fuel F c []|]. destruct IH as [n N]; [intros; apply G; right; auto|]. destruct (mesh_contour_total c step P (G c (or_introl eq_refl))) as [m M]. exists (n + m). intros fuel F c' [<-|I]; [apply M; lia|apply N; auto; lia]. }
  destruct K as [n N]. exists n. intros fuel F. unfold create_meshed_particles. destruct (sequence_map_total (fun c => mesh_contour fuel c step) cs (N fuel F)) as [l L]. rewrite L. cbn [bind]. eexists. reflexivity.
Qed.
Print Assumptions C83_ends.
Example C83_case : option_map (map (fun x => (Qred (fst (fst x)), Qred (snd (fst x)), snd x))) (create_meshed_particles 20 [square; far] 2) = Some [(2, 0, 0%nat); (2, 2, 0%nat); (22, 2, 1%nat)]%Q.
Proof. vm_compute. reflexivity. Qed.

(** ** C84: a contour in another one *)
Theorem C84_contained : forall out inn x0 x1 y0 y1 x0' x1' y0' y1', bbox out = Some (x0, x1, y0, y1) -> bbox inn = Some (x0', x1', y0', y1') -> (x1 - x0 < 180)%Q -> (x1' - x0' < 180)%Q ->
  exists b, poly_contain_poly out inn = Some b /\ (b = true <-> exists k, forall v, In v inn -> inside out (shift k v)).
Proof. exact contain_spec. Qed.
Print Assumptions C84_contained.
Example C84_case : poly_contain_poly east [(0, 2); (1, 2); (1, 3)]%Q = Some true /\ poly_contain_poly east [(0, 2); (1, 2); (5, 3)]%Q = Some false.
Proof. split; reflexivity. Qed.
(** With a contour wider than 180 degrees the vertices are moved to the wrong turn. *)
Theorem C84_wide_refuted : (forall v, In v [(200, 4); (210, 4); (205, 6)]%Q -> inside [(0, 0); (300, 0); (300, 10); (0, 10)]%Q v) /\
  poly_contain_poly [(0, 0); (300, 0); (300, 10); (0, 10)]%Q [(200, 4); (210, 4); (205, 6)]%Q = Some false.
Proof. split; [intros v [<-|[<-|[<-|[]]]]; discriminate|reflexivity]. Qed.
(** Only vertices are looked at: two contours may cross each other. *)
Theorem C84_crossing_refuted : let out := [(0, 0); (10, 0); (10, 10); (5, 1); (0, 10)]%Q in let inn := [(1, 1); (9, 1); (9, 5); (1, 5)]%Q in
  poly_contain_poly out inn = Some true /\ inside inn (5, 3)%Q /\ ~ inside out (5, 3)%Q.
Proof. split; [reflexivity|]. split; [discriminate|]. intros H. apply H. reflexivity. Qed.

(** ** C85: convex flag *)
Theorem C85_turns : forall a b m, exists c, convex ((a :: b :: m) ++ [a]) = Some c /\
  (c = true <-> ((forall i, i < length (a :: b :: m) -> (0 < turn (a :: b :: m) i)%Q) \/ (forall i, i < length (a :: b :: m) -> (turn (a :: b :: m) i <= 0)%Q))).
Proof. exact convex_spec. Qed.
Print Assumptions C85_turns.
Example C85_case : convex (square ++ [(0, 0)]%Q) = Some true /\ convex [(0, 0); (10, 0); (10, 10); (5, 1); (0, 10); (0, 0)]%Q = Some false.
Proof. split; reflexivity. Qed.
(** A star always turns in the same direction and is accepted; three vertices in a
    line are refused or accepted according to the direction. *)
Theorem C85_refuted : convex (pentagram ++ [(0, 3)]%Q) = Some true /\ convex [(0, 0); (2, 0); (4, 0); (4, 4); (0, 4); (0, 0)]%Q = Some false /\ convex (rev [(0, 0); (2, 0); (4, 0); (4, 4); (0, 4); (0, 0)]%Q) = Some true.
Proof. repeat split; reflexivity. Qed.
