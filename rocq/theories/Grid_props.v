(** Properties of cell bounds (C64), finite differences (C59) and pixel paths (C60). *)
From Coq Require Import List Arith ZArith QArith Qround Qabs Bool Lia Lqa.
From Verif Require Import Base Qaux Corr_model Split_model Grid_model Grid_spec Grid_proofs Grid_path.
Import ListNotations.
Local Close Scope Q_scope.
Local Open Scope nat_scope.

(** ** C64: bounds of cells *)

(** The bounds of [n] >= 2 centres are [n + 1] numbers; each one but the last is
    half the next gap below its centre, the last two use the last gap. *)
Theorem C64_values : forall c, 2 <= length c -> exists b, c_to_bounds c = Some b /\ length b = S (length c)
  /\ (forall i, (S i < length c)%nat -> at_ b i == at_ c i - gap c i / 2)%Q
  /\ (at_ b (length c - 1) == at_ c (length c - 1) - gap c (length c - 2) / 2)%Q
  /\ (at_ b (length c) == at_ c (length c - 1) + gap c (length c - 2) / 2)%Q.
Proof. exact c_to_bounds_spec. Qed.
Print Assumptions C64_values.
(** Fewer than two centres raise. *)
Theorem C64_needs_two : forall c, length c < 2 -> c_to_bounds c = None.
Proof. intros [|a [|b c]] L; [reflexivity|reflexivity|cbn in L; lia]. Qed.
Print Assumptions C64_needs_two.
(** Evenly spaced centres: the bounds are the middles, and each centre is the
    middle of its two bounds. *)
Theorem C64_regular : forall c b s, 2 <= length c -> c_to_bounds c = Some b -> regular c s ->
  (forall i, (i <= length c)%nat -> at_ b i == at_ c 0 + (inject_Z (Z.of_nat i) - (1 # 2)) * s)%Q
  /\ (forall i, (i < length c)%nat -> at_ c i == (at_ b i + at_ b (S i)) / 2)%Q.
Proof.
  intros c b s L E R. assert (B := bounds_regular c b s L E R). split; [exact B|]. intros i I.
  rewrite (regular_at c s R i I), !B by lia. rewrite Nat2Z.inj_succ. unfold Z.succ. rewrite inject_Z_plus. change (inject_Z 1) with 1%Q. field.
Qed.
Print Assumptions C64_regular.
Example C64_regular_case : c_to_bounds [10; 12; 14]%Q <> None /\ regular [10; 12; 14]%Q 2
  /\ option_map (map Qred) (c_to_bounds [10; 12; 14]%Q) = Some [9; 11; 13; 15]%Q.
Proof. split; [discriminate|]. split; [|reflexivity]. intros [|[|i]] I; [reflexivity|reflexivity|cbn in I; lia]. Qed.
(** Increasing centres are all above their lower bound. *)
Theorem C64_above_lower : forall c b, 2 <= length c -> c_to_bounds c = Some b -> (forall i, (S i < length c)%nat -> 0 < gap c i)%Q ->
  forall i, i < length c -> (at_ b i < at_ c i)%Q.
Proof. exact bounds_low. Qed.
Print Assumptions C64_above_lower.
(** A centre is below its upper bound exactly when the next gap is less than twice
    its own gap; the last two centres always are. *)
Theorem C64_below_upper : forall c b, 2 <= length c -> c_to_bounds c = Some b -> (forall i, (S i < length c)%nat -> 0 < gap c i)%Q ->
  (forall i, (S (S i) < length c)%nat -> (at_ c i < at_ b (S i) <-> gap c (S i) < 2 * gap c i))%Q
  /\ (at_ c (length c - 2) < at_ b (length c - 1))%Q /\ (at_ c (length c - 1) < at_ b (length c))%Q.
Proof. exact bounds_high. Qed.
Print Assumptions C64_below_upper.
(** Bounds increase exactly when no gap is three times the gap before or more. *)
Theorem C64_increase : forall c b, 2 <= length c -> c_to_bounds c = Some b -> (forall i, (S i < length c)%nat -> 0 < gap c i)%Q ->
  (forall i, (S (S i) < length c)%nat -> (at_ b i < at_ b (S i) <-> gap c (S i) < 3 * gap c i))%Q
  /\ (at_ b (length c - 2) < at_ b (length c - 1))%Q /\ (at_ b (length c - 1) < at_ b (length c))%Q.
Proof. exact bounds_increase. Qed.
Print Assumptions C64_increase.
Example C64_increase_case : (forall i, S i < 4 -> (0 < gap [0; 1; 5 # 2; 3] i)%Q)
  /\ option_map (map Qred) (c_to_bounds [0; 1; 5 # 2; 3]%Q) = Some [- (1 # 2); 1 # 4; 9 # 4; 11 # 4; 13 # 4]%Q.
Proof. split; [intros [|[|[|i]]] I; [reflexivity|reflexivity|reflexivity|cbn in I; lia]|reflexivity]. Qed.
(** Increasing centres whose bounds decrease: the centre 0 is above its upper bound. *)
Theorem C64_refuted : exists c b, (forall i, (S i < length c)%nat -> 0 < gap c i)%Q /\ c_to_bounds c = Some b
  /\ (at_ b 1 < at_ b 0)%Q /\ (at_ b 1 < at_ c 0)%Q.
Proof.
  exists [0; 1; 10]%Q. eexists. split; [|split; [reflexivity|]].
  - intros [|[|i]] I; [reflexivity|reflexivity|cbn in I; lia].
  - split; reflexivity.
Qed.
Print Assumptions C64_refuted.

(** ** C59: finite differences *)

(** Lines of at least four cells always give a value or a mask for each cell. *)
Theorem C59_total : forall x (vertical : bool) hw lines left circ, (if vertical then Some false else is_circular x) = Some circ ->
  length left = 4 -> (forall d line, In (d, line) lines -> 4 <= length line) ->
  exists out, compute_stencil x vertical hw lines left = Some out /\ map (@length (option Q)) out = map (fun dl => length (snd dl)) lines.
Proof.
  intros x vertical hw lines left circ C L H. unfold compute_stencil. rewrite C. cbn [bind].
  destruct (stencil_lines_spec circ hw lines left L H) as (out & E & F). exists out. split; [exact E|].
  clear - F. induction F as [|dl o lines out R F IH]; [reflexivity|]. cbn [map]. f_equal; [apply R|exact IH].
Qed.
Print Assumptions C59_total.

Section Run.
Variables (x : list Q) (vertical : bool) (hw : nat) (lines : list (Q * list (Q * bool))) (left : list Q) (out : list (list (option Q))).
Hypothesis RUN : compute_stencil x vertical hw lines left = Some out.
Hypothesis LEFT : length left = 4.
Hypothesis LONG : forall d line, In (d, line) lines -> 4 <= length line.
Variables (circ : bool).
Hypothesis CIRC : (if vertical then Some false else is_circular x) = Some circ.
Let cell_out (j i : nat) : option (option Q) := let! o := nth_error out j in nth_error o i.
Lemma run_line : forall j d line, nth_error lines j = Some (d, line) -> exists o, nth_error out j = Some o /\ line_result circ hw d line o.
Proof.
  intros j d line J. unfold compute_stencil in RUN. rewrite CIRC in RUN. cbn [bind] in RUN.
  destruct (stencil_lines_spec circ hw lines left LEFT LONG) as (out' & E & F). rewrite E in RUN. injection RUN as ->.
  clear - F J. revert j J. induction F as [|dl o lines out R F IH]; intros [|j] J; try discriminate.
  - injection J as ->. exists o. auto.
  - apply IH. exact J.
Qed.
(** A result is masked exactly where the value is. *)
Theorem C59_masked : forall j d line i h m, nth_error lines j = Some (d, line) -> nth_error line i = Some (h, m) ->
  (cell_out j i = Some None <-> m = true).
Proof.
  intros j d line i h m J I. destruct (run_line j d line J) as (o & E & R). unfold cell_out. rewrite E. cbn [bind]. eapply result_masked; eauto.
Qed.
(** With [r] the largest half width, at most the one asked, up to which cells are
    not masked, the result is the usual centred difference of half width [r]. *)
Theorem C59_centred : forall j d line i r v, nth_error lines j = Some (d, line) -> i < length line -> 1 <= r <= hw -> hw <= 4 ->
  known circ line i r v ->
  r = hw \/ masked_at circ line i (Z.of_nat (S r)) \/ masked_at circ line i (- Z.of_nat (S r)) ->
  exists g, cell_out j i = Some (Some g) /\ (g == d * centred r v)%Q.
Proof.
  intros j d line i r v J I Hr Hw K E. destruct (run_line j d line J) as (o & EO & R). unfold cell_out. rewrite EO. cbn [bind]. eapply result_centred; eauto.
Qed.
(** On a polynomial of degree at most [2 r] it is the derivative. *)
Theorem C59_exact : forall j d line i r p x0 s, nth_error lines j = Some (d, line) -> i < length line -> 1 <= r <= hw -> hw <= 4 ->
  (exists v, known circ line i r v /\ forall k, (v k == value p (x0 + inject_Z k * s))%Q) ->
  r = hw \/ masked_at circ line i (Z.of_nat (S r)) \/ masked_at circ line i (- Z.of_nat (S r)) ->
  degree_le p (2 * r) ->
  exists g, cell_out j i = Some (Some g) /\ (g == d * s * value (derivative p) x0)%Q.
Proof.
  intros j d line i r p x0 s J I Hr Hw (v & K & V) E D. destruct (C59_centred j d line i r v J I Hr Hw K E) as (g & G & EG). exists g. split; [exact G|].
  rewrite EG. rewrite (centred_ext r v _ V), centred_poly by (auto; lia). ring.
Qed.
(** With one masked side: difference with the other side, exact on straight lines. *)
Theorem C59_one_sided : forall j d line i h0 h1 (k : Z), nth_error lines j = Some (d, line) -> nth_error line i = Some (h0, false) ->
  k = 1%Z \/ k = (-1)%Z -> masked_at circ line i (- k) -> neighbour circ line i k = Some (h1, false) ->
  exists g, cell_out j i = Some (Some g) /\ (g == d * inject_Z k * (h1 - h0))%Q
    /\ forall p x0 s, degree_le p 1 -> (h0 == value p x0)%Q -> (h1 == value p (x0 + inject_Z k * s))%Q -> (g == d * s * value (derivative p) x0)%Q.
Proof.
  intros j d line i h0 h1 k J I K M N. destruct (run_line j d line J) as (o & EO & R). unfold cell_out. rewrite EO. cbn [bind].
  destruct (result_one_sided circ hw d line o i h0 h1 R (nth_error_Some_lt _ _ _ I) I) as [A B].
  assert (EX : forall g, (g == d * inject_Z k * (h1 - h0))%Q -> forall p x0 s, degree_le p 1 -> (h0 == value p x0)%Q -> (h1 == value p (x0 + inject_Z k * s))%Q -> (g == d * s * value (derivative p) x0)%Q).
  { intros g G p x0 s D H0 H1. rewrite G, H0, H1. unfold degree_le in D. do 3 (try destruct p as [|? p]); cbn [length] in D; try lia; unfold derivative; cbn [value tl scaled Z.of_nat Pos.of_succ_nat]; destruct K as [-> | ->]; unfold inject_Z; field. }
  destruct K as [-> | ->].
  - eexists. split; [apply A; [exact M|exact N]|]. assert (G : ((h1 - h0) * d == d * inject_Z 1 * (h1 - h0))%Q) by (change (inject_Z 1) with 1%Q; ring). split; [exact G|apply EX; exact G].
  - eexists. split; [apply B; [exact M|exact N]|]. assert (G : ((h0 - h1) * d == d * inject_Z (-1) * (h1 - h0))%Q) by (change (inject_Z (-1)) with (-(1))%Q; ring). split; [exact G|apply EX; exact G].
Qed.
End Run.
Print Assumptions C59_masked.
Print Assumptions C59_centred.
Print Assumptions C59_exact.
Print Assumptions C59_one_sided.
(** On a circular grid each cell has all its neighbours; else the cells at least
    [r] columns away from both ends have them. *)
Theorem C59_neighbours : forall circ line i r, i < length line -> circ = true \/ (r <= i /\ i + r < length line) ->
  forall k, (Z.abs k <= Z.of_nat r)%Z -> neighbour circ line i k <> None.
Proof.
  intros circ line i r I H k K. unfold neighbour. destruct circ.
  - apply nth_error_Some. apply Nat2Z.inj_lt. pose proof (Z.mod_pos_bound (Z.of_nat i + k) (Z.of_nat (length line)) ltac:(lia)). rewrite Z2Nat.id; lia.
  - destruct H as [H|[H1 H2]]; [discriminate|]. destruct (Z.leb_spec 0 (Z.of_nat i + k)); [|lia]. destruct (Z.ltb_spec (Z.of_nat i + k) (Z.of_nat (length line))); [|lia]. cbn [andb]. apply nth_error_Some. lia.
Qed.
Print Assumptions C59_neighbours.
(** A case: squares on a line of ten cells with one masked cell; away
    from it and from the ends the derivative 2 x is found (columns 2, 3, 7). *)
Definition squares : list (Q * bool) := map (fun k => (inject_Z (Z.of_nat k * Z.of_nat k), k =? 5)) (seq 0 10).
Example C59_case : option_map (map (map (option_map Qred))) (compute_stencil [0; 1; 2]%Q false 4 [(1%Q, squares)] [7; 7; 7; 7]%Q)
  = Some [[Some (-3491 # 840); Some (57 # 20); Some 4; Some 6; Some 7; None; Some 13; Some 14; Some (211 # 12); Some (87 # 10)]]%Q
  /\ known false squares 3 1 (fun k => (3 + inject_Z k) * (3 + inject_Z k))%Q /\ masked_at false squares 3 2.
Proof.
  split; [|split].
  - vm_compute. reflexivity.
  - intros k K. assert (k = -1 \/ k = 0 \/ k = 1)%Z as [-> | [-> | ->]] by lia; reflexivity.
  - eexists. reflexivity.
Qed.
(** Near the ends of a line which is not circular the value depends on cells of the
    line before: the second line is the same in both runs. *)
Theorem C59_border_refuted : exists line1 line1' line2 o1 o1' o2 o2',
  stencil_lines false 1 [(1%Q, line1); (1%Q, line2)] [0; 0; 0; 0]%Q = Some [o1; o2]
  /\ stencil_lines false 1 [(1%Q, line1'); (1%Q, line2)] [0; 0; 0; 0]%Q = Some [o1'; o2'] /\ o2 <> o2'.
Proof.
  exists (map (fun q => (q, false)) [0; 0; 0; 0]%Q), (map (fun q => (q, false)) [8; 8; 8; 8]%Q), (map (fun q => (q, false)) [1; 2; 3; 4]%Q).
  do 4 eexists. split; [vm_compute; reflexivity|]. split; [vm_compute; reflexivity|]. discriminate.
Qed.
Print Assumptions C59_border_refuted.
(** When both sides are masked, the masked values are used. *)
Theorem C59_both_masked_refuted : exists line line' v v',
  map snd line = map snd line' /\ (forall i q, nth_error line i = Some (q, false) <-> nth_error line' i = Some (q, false))
  /\ stencil_lines true 4 [(1%Q, line)] [0; 0; 0; 0]%Q = Some [v] /\ stencil_lines true 4 [(1%Q, line')] [0; 0; 0; 0]%Q = Some [v'] /\ v <> v'.
Proof.
  exists [(1, true); (2, false); (3, true); (4, true)]%Q, [(1, true); (2, false); (9, true); (4, true)]%Q.
  do 2 eexists. split; [reflexivity|]. split.
  - intros [|[|[|[|[|i]]]]] q; cbn; split; intros H; try discriminate; exact H.
  - split; [vm_compute; reflexivity|]. split; [vm_compute; reflexivity|]. discriminate.
Qed.
Print Assumptions C59_both_masked_refuted.

(** ** C60: pixel paths *)

(** A path starts at the first pixel, ends at the last one (columns modulo the
    size), each pixel touches the next one and there are as many moves as the
    largest of the two differences, columns being compared the short way round. *)
Theorem C60_path : forall nb x0 y0 x1 y1, (0 < nb)%Z ->
  let p := pixel_path nb x0 y0 x1 y1 in
  nth_error p 0 = Some ((x0 mod nb)%Z, y0) /\ nth_error p (length p - 1) = Some ((x1 mod nb)%Z, y1) /\ connected nb p
  /\ length p = S (Z.to_nat (pixel_delta nb x0 y0 x1 y1)).
Proof.
  intros nb x0 y0 x1 y1 N p. assert (L := path_length nb x0 y0 x1 y1). fold p in L. split; [apply path_first|]. split; [|split; [apply path_connected; exact N|lia]].
  rewrite L. replace (Z.to_nat (pixel_delta nb x0 y0 x1 y1) + 1 - 1) with (Z.to_nat (pixel_delta nb x0 y0 x1 y1)) by lia. apply path_last. exact N.
Qed.
Print Assumptions C60_path.
(** The number of moves is the smallest possible: no connected path is shorter. *)
Theorem C60_shortest : forall nb x0 y0 x1 y1 p, (0 < nb)%Z -> connected nb p ->
  nth_error p 0 = Some ((x0 mod nb)%Z, y0) -> nth_error p (length p - 1) = Some ((x1 mod nb)%Z, y1) ->
  length (pixel_path nb x0 y0 x1 y1) <= length p.
Proof.
  intros nb x0 y0 x1 y1 p N C S0 S1.
  assert (H : forall k q, nth_error p k = Some q -> exists e f, (Z.abs e <= Z.of_nat k /\ Z.abs f <= Z.of_nat k /\ fst q = (x0 + e) mod nb /\ snd q = y0 + f)%Z).
  { induction k as [|k IH]; intros q Q.
    - rewrite S0 in Q. injection Q as <-. exists 0%Z, 0%Z. cbn [fst snd]. rewrite !Z.add_0_r. lia.
    - destruct (nth_error_lt_Some p k) as (q0 & Q0). { apply nth_error_Some_lt in Q. lia. }
      destruct (IH q0 Q0) as (e & f & A & B & X & Y). destruct (C k q0 q Q0 Q) as (e' & A' & X' & Y').
      exists (e + e')%Z, (snd q - y0)%Z. split; [lia|]. split; [lia|]. split; [|lia]. rewrite X', X, Z.add_mod_idemp_l by lia. f_equal. lia. }
  destruct (H _ _ S1) as (e & f & A & B & X & Y). cbn [fst snd] in X, Y.
  assert (L : length p <> 0) by (destruct p; [discriminate|cbn; lia]).
  rewrite path_length. unfold pixel_delta.
  assert (Z.abs (wrap_dx nb (x1 - x0)) <= Z.abs e)%Z; [|lia].
  assert (E : wrap_dx nb (x1 - x0) = wrap_dx nb e).
  { unfold wrap_dx. f_equal. assert (X2 : ((x1 - x0 - e) mod nb = 0)%Z) by (replace (x1 - x0 - e)%Z with (x1 - (x0 + e))%Z by lia; rewrite Zminus_mod, X, Z.sub_diag; apply Z.mod_0_l; lia).
    replace (x1 - x0 + nb / 2)%Z with (e + nb / 2 + (x1 - x0 - e))%Z by lia. rewrite <- Z.add_mod_idemp_r by lia. rewrite X2, Z.add_0_r. reflexivity. }
  rewrite E. destruct (wrap_dx_spec nb e N) as (R & q & Q). pose proof (Z.div_mod nb 2 ltac:(lia)). pose proof (Z.mod_pos_bound nb 2 ltac:(lia)).
  destruct (Z.eq_dec q 0) as [->|NQ]; [lia|]. destruct (Z.le_gt_cases 1 q); nia.
Qed.
Print Assumptions C60_shortest.
(** Each pixel is less than one pixel away from the straight line, on both axes. *)
Theorem C60_straight : forall nb x0 y0 x1 y1 k p, nth_error (pixel_path nb x0 y0 x1 y1) k = Some p ->
  let frac := (inject_Z (Z.of_nat k) / inject_Z (pixel_delta nb x0 y0 x1 y1))%Q in
  exists i, fst p = (i mod nb)%Z
    /\ (Qabs (inject_Z i - (inject_Z x0 + frac * inject_Z (wrap_dx nb (x1 - x0)))) < 1)%Q
    /\ (Qabs (inject_Z (snd p) - (inject_Z y0 + frac * inject_Z (y1 - y0))) < 1)%Q.
Proof.
  intros nb x0 y0 x1 y1 k p P frac. destruct (path_straight nb x0 y0 x1 y1 k p P) as (i & I & A & B). exists i. split; [exact I|]. unfold ideal in *.
  split; [refine (Qle_lt_trans _ _ _ _ A)|refine (Qle_lt_trans _ _ _ _ B)]; apply Qeq_le, Qabs_wd; unfold frac, Qdiv; ring.
Qed.
Print Assumptions C60_straight.
Example C60_case : pixel_path 10 8 0 1 5 = [(8, 0); (8, 1); (9, 2); (9, 3); (0, 4); (1, 5)]%Z.
Proof. vm_compute. reflexivity. Qed.
(** Several paths: the result holds the paths one after the other, path [k] taking
    [moves k + 1] pixels, between the pixels the nearest of the two positions. *)
Theorem C60_many : forall xo yo xs ys nb segs k s, nth_error segs k = Some s ->
  let r := compute_pixel_path xo yo xs ys nb segs in
  length (fst r) = sum_list (map S (snd r)) /\ exists moves, nth_error (snd r) k = Some moves
  /\ slice (fst r) (sum_list (map S (firstn k (snd r)))) (sum_list (map S (firstn k (snd r))) + S moves)
     = pixel_path nb (pixel_x xo xs (fst (fst s))) (pixel_y yo ys (snd (fst s))) (pixel_x xo xs (fst (snd s))) (pixel_y yo ys (snd (snd s))).
Proof.
  intros xo yo xs ys nb segs k s K r. unfold r, compute_pixel_path. cbn [fst snd].
  set (f := on_segment xo yo xs ys (pixel_path nb)). set (g := fun s => Z.to_nat (on_segment xo yo xs ys (pixel_delta nb) s)).
  assert (L : forall s, length (f s) = S (g s)). { intros s'. unfold f, g, on_segment. rewrite path_length. lia. }
  clear r. split.
  - clear K k s. induction segs as [|s segs IH]; [reflexivity|]. cbn [map concat sum_list]. rewrite app_length, IH, L. reflexivity.
  - exists (g s). split; [rewrite nth_error_map, K; reflexivity|]. transitivity (f s); [|apply on_segment_eq]. unfold slice. clearbody f g.
    revert k K. induction segs as [|s' segs IH]; intros [|k] K; try discriminate.
    + injection K as ->. cbn [map firstn concat sum_list skipn]. replace (0 + S (g s) - 0) with (length (f s)) by (rewrite L; lia). rewrite firstn_app, Nat.sub_diag, firstn_all. cbn. apply app_nil_r.
    + cbn [map firstn concat sum_list]. rewrite <- L, skipn_app. replace (length (f s') + sum_list (map S (firstn k (map g segs))) - length (f s')) with (sum_list (map S (firstn k (map g segs)))) by lia.
      rewrite skipn_all2 by lia. cbn [app]. etransitivity; [|exact (IH k K)]. f_equal. lia.
Qed.
Print Assumptions C60_many.
(** A pixel is the nearest one: at most half a step away, modulo 360 degrees. *)
Theorem C60_nearest : forall ori step v, (0 < step)%Q ->
  (Qabs (ori + inject_Z (pixel_y ori step v) * step - v) <= step / 2)%Q
  /\ exists turns, (Qabs (ori + inject_Z (pixel_x ori step v) * step - (v + inject_Z turns * 360)) <= step / 2)%Q.
Proof.
  intros ori step v P.
  assert (H : forall w, (Qabs (inject_Z (qround (w / step)) * step - w) <= step / 2)%Q).
  { intros w. setoid_replace (inject_Z (qround (w / step)) * step - w)%Q with ((inject_Z (qround (w / step)) - w / step) * step)%Q by (field; lra).
    rewrite Qabs_Qmult, (Qabs_pos step) by lra. setoid_replace (step / 2)%Q with ((1 # 2) * step)%Q by field. apply Qmult_le_compat_r; [apply qround_near|lra]. }
  split.
  - setoid_replace (ori + inject_Z (pixel_y ori step v) * step - v)%Q with (inject_Z (qround ((v - ori) / step)) * step - (v - ori))%Q by (unfold pixel_y; ring). apply H.
  - exists (- Qfloor ((v - ori) / 360))%Z. eapply Qle_trans; [|apply (H (Qmod (v - ori) 360))]. apply Qeq_le, Qabs_wd. unfold pixel_x. rewrite inject_Z_opp. unfold Qmod. ring.
Qed.
Print Assumptions C60_nearest.
Example C60_many_case : compute_pixel_path 0 0 1 1 360 [((359, 10), (2, 10)); ((5, 5), (5, 5))]%Q
  = ([(359, 10); (0, 10); (1, 10); (2, 10); (5, 5)]%Z, [3; 0]).
Proof. vm_compute. reflexivity. Qed.
(** A link is kept by the ground test exactly when no pixel of its path is ground. *)
Theorem C60_ground : forall xo yo xs ys nb ground segs m, across_ground xo yo xs ys nb ground segs = Some m ->
  length m = length segs /\ forall k s, nth_error segs k = Some s ->
    (nth_error m k = Some true <->
     forall p, In p (pixel_path nb (pixel_x xo xs (fst (fst s))) (pixel_y yo ys (snd (fst s))) (pixel_x xo xs (fst (snd s))) (pixel_y yo ys (snd (snd s)))) -> ground p = Some false).
Proof.
  intros xo yo xs ys nb ground segs m E. destruct (across_ground_spec _ _ _ _ _ _ _ _ E) as [A B]. split; [exact A|]. intros k s K. specialize (B k s K). rewrite on_segment_eq in B. exact B.
Qed.
Print Assumptions C60_ground.
Example C60_ground_case : across_ground 0 0 1 1 360 (fun p => Some ((fst p =? 1)%Z)) [((359, 10), (2, 10)); ((5, 5), (5, 5))]%Q = Some [false; true].
Proof. vm_compute. reflexivity. Qed.
