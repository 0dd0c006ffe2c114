(** Properties of the search of pixels in contours. *)
From Coq Require Import List Arith ZArith QArith Bool Lia Lqa.
From Verif Require Import Base Qaux Spec Obs_model Grid_model Poly_model Poly_spec Pix_model Pix_spec Pix_proofs Pix_count Pix_stat.
Import ListNotations.
Local Close Scope Q_scope.
Local Open Scope nat_scope.

Definition cells (x0 s : Q) (n : nat) : list Q := map (fun i => (x0 + (inject_Z (Z.of_nat i) + half) * s)%Q) (seq 0 n).
Lemma cells_even : forall x0 s n, (0 < s)%Q -> even_cells x0 s (cells x0 s n).
Proof.
  intros x0 s n P. split; [exact P|]. intros i x X. unfold cells in X. rewrite nth_error_map in X. destruct (nth_error (seq 0 n) i) as [k|] eqn:E; [|discriminate X]. injection X as <-.
  assert (k = i). { apply nth_error_nth with (d := 0) in E as E'. rewrite seq_nth in E'; [lia|]. apply nth_error_Some_lt in E. rewrite seq_length in E. exact E. } subst k. reflexivity.
Qed.
(** Six columns and five rows of one degree. *)
Definition basin : rgrid := {| g_x0 := 0; g_y0 := 0; g_xstep := 1; g_ystep := 1; g_N := 1; g_circular := false; g_x := cells 0 1 6; g_y := cells 0 1 5 |}.
(** Eight columns around the earth. *)
Definition earth : rgrid := {| g_x0 := 0; g_y0 := 0; g_xstep := 45; g_ystep := 1; g_N := 1; g_circular := true; g_x := cells 0 45 8; g_y := cells 0 1 5 |}.
Definition box_contour (a b c d : Q) : list point := [(a, c); (b, c); (b, d); (a, d)].
Lemma basin_good : good_grid basin.
Proof. split; [apply cells_even; reflexivity|]. split; [apply cells_even; reflexivity|]. discriminate. Qed.
Lemma earth_good : good_grid earth /\ one_turn earth.
Proof. split; [split; [apply cells_even; reflexivity|]; split; [apply cells_even; reflexivity|]; discriminate|]. split; reflexivity. Qed.

(** ** C63: the pixels inside a contour *)
Theorem C63_regional : forall g c, good_grid g -> g_circular g = false -> c <> [] -> in_turn g c -> above_margin g c ->
  exists ps, get_pixels_in g c = Some ps /\ exactly g (inside c) ps.
Proof. exact regional. Qed.
Print Assumptions C63_regional.
Example C63_case_regional : good_grid basin /\ in_turn basin (box_contour 1 4 1 3) /\ above_margin basin (box_contour 1 4 1 3) /\
  get_pixels_in basin (box_contour 1 4 1 3) = Some [(1, 1); (1, 2); (2, 1); (2, 2); (3, 1); (3, 2)]%Z.
Proof.
  split; [exact basin_good|]. split; [intros v [<-|[<-|[<-|[<-|[]]]]]; cbn; lra|]. split; [intros v [<-|[<-|[<-|[<-|[]]]]]; reflexivity|vm_compute; reflexivity].
Qed.
Theorem C63_around : forall g c, good_grid g -> one_turn g -> c <> [] -> narrow g c -> meets_turn g c -> above_margin g c ->
  exists ps, get_pixels_in g c = Some ps /\ exactly g (contains c) ps.
Proof. exact around. Qed.
Print Assumptions C63_around.
(** A contour across the seam. *)
Example C63_case_around : good_grid earth /\ one_turn earth /\ narrow earth (box_contour (-60) 60 1 3) /\ meets_turn earth (box_contour (-60) 60 1 3) /\ above_margin earth (box_contour (-60) 60 1 3) /\
  get_pixels_in earth (box_contour (-60) 60 1 3) = Some [(7, 1); (7, 2); (0, 1); (0, 2)]%Z.
Proof.
  split; [apply earth_good|]. split; [apply earth_good|]. split; [split|].
  - intros v w [<-|[<-|[<-|[<-|[]]]]] [<-|[<-|[<-|[<-|[]]]]]; reflexivity.
  - intros v w V [<-|[<-|[<-|[<-|[]]]]]; injection V as <-; cbn; lra.
  - split; [split; [exists (60, 1)%Q|exists (60, 1)%Q]; (split; [right; left; reflexivity|cbn; lra])|]. split; [intros v [<-|[<-|[<-|[<-|[]]]]]; reflexivity|vm_compute; reflexivity].
Qed.
(** The same contour a turn further is the same. *)
Theorem C63_turns : forall g c k ps ps', good_grid g -> one_turn g -> c <> [] -> narrow g c -> meets_turn g c -> above_margin g c ->
  meets_turn g (map (shift k) c) -> get_pixels_in g c = Some ps -> get_pixels_in g (map (shift k) c) = Some ps' ->
  forall q, In q ps <-> In q ps'.
Proof.
  intros g c k ps ps' G O NE NA ME AB ME' E E'.
  assert (NA' : narrow g (map (shift k) c)).
  { destruct NA as [N1 N2]. split.
    - intros v w V W. apply in_map_iff in V as (v' & <- & V). apply in_map_iff in W as (w' & <- & W). pose proof (N1 v' w' V W). cbn [fst shift]. lra.
    - intros v w V W. rewrite nth_error_map in V. destruct (nth_error c 0) as [v'|] eqn:V'; [|discriminate V]. injection V as <-. apply in_map_iff in W as (w' & <- & W). pose proof (N2 v' w' eq_refl W). cbn [fst shift]. lra. }
  assert (AB' : above_margin g (map (shift k) c)) by (intros v V; apply in_map_iff in V as (v' & <- & V); exact (AB v' V)).
  destruct (around g c G O NE NA ME AB) as (p1 & E1 & (l1 & -> & _ & L1)). destruct (around g (map (shift k) c) G O ltac:(destruct c; [contradiction|discriminate]) NA' ME' AB') as (p2 & E2 & (l2 & -> & _ & L2)).
  rewrite E in E1. rewrite E' in E2. injection E1 as ->. injection E2 as ->.
  assert (S : forall a, In a l1 <-> In a l2) by (intros [i j]; rewrite L1, L2; split; intros (p & C & H); exists p; (split; [exact C|]); apply (contains_shift k c p); exact H).
  intros q. rewrite !in_map_iff. split; intros (a & A & I); exists a; (split; [exact A|]); apply S; exact I.
Qed.
Print Assumptions C63_turns.
Example C63_case_turns : get_pixels_in earth (map (shift 1) (box_contour (-60) 60 1 3)) = Some [(7, 1); (7, 2); (0, 1); (0, 2)]%Z.
Proof. vm_compute. reflexivity. Qed.
(** A contour which touches the first row: nothing is found. *)
Theorem C63_south_refuted : good_grid basin /\ in_turn basin (box_contour 1 4 (1 # 4) 3) /\ get_pixels_in basin (box_contour 1 4 (1 # 4) 3) = Some [] /\
  exists p, centre basin 1 2 p /\ inside (box_contour 1 4 (1 # 4) 3) p.
Proof. split; [exact basin_good|]. split; [intros v [<-|[<-|[<-|[<-|[]]]]]; cbn; lra|]. split; [vm_compute; reflexivity|]. eexists (_, _). split; [split; reflexivity|]. intros H. vm_compute in H. discriminate H. Qed.
(** A contour across the western side of a grid which does not wrap: the pixels
    found are on the other side. *)
Theorem C63_west_refuted : get_pixels_in basin (box_contour (-2) 3 1 2) = Some [(3, 1); (4, 1); (5, 1)]%Z /\
  (forall i, In i [0; 1; 2]%Z -> inside (box_contour (-2) 3 1 2) (inject_Z i + half, 1 + half)%Q) /\
  (forall i k, In i [3; 4; 5]%Z -> ~ inside (box_contour (-2) 3 1 2) (shift k (inject_Z i + half, 1 + half)%Q)).
Proof.
  split; [vm_compute; reflexivity|]. split; [intros i [<-|[<-|[<-|[]]]] H; vm_compute in H; discriminate H|].
  intros i k I P. destruct (Poly_mesh.inside_box (box_contour (-2) 3 1 2) _ _ _ _ _ eq_refl P) as [[L H] _]. cbn [fst shift] in *. 
  assert (E : (qmin_from (-2) (map fst [(3, 1); (3, 2); (-2, 2)]) == -2)%Q) by reflexivity. assert (E' : (qmax_from (-2) (map fst [(3, 1); (3, 2); (-2, 2)]) == 3)%Q) by reflexivity. rewrite E in L. rewrite E' in H. unfold half in *.
  assert (K : k = 0%Z). { apply Poly_pairs.no_turn; destruct I as [<-|[<-|[<-|[]]]]; change (inject_Z 3) with 3%Q in *; change (inject_Z 4) with 4%Q in *; change (inject_Z 5) with 5%Q in *; lra. }
  subst k. change (inject_Z 0) with 0%Q in *. destruct I as [<-|[<-|[<-|[]]]]; change (inject_Z 3) with 3%Q in *; change (inject_Z 4) with 4%Q in *; change (inject_Z 5) with 5%Q in *; lra.
Qed.
(** Around the earth, a contour of another turn than the grid which is away from
    the seam, and a contour whose window is the whole grid: nothing is found. *)
Theorem C63_other_turn_refuted : narrow earth (box_contour (-290) (-200) 1 3) /\ get_pixels_in earth (box_contour (-290) (-200) 1 3) = Some [] /\
  exists p, centre earth 2 1 p /\ contains (box_contour (-290) (-200) 1 3) p.
Proof.
  split; [split|].
  - intros v w [<-|[<-|[<-|[<-|[]]]]] [<-|[<-|[<-|[<-|[]]]]]; reflexivity.
  - intros v w V [<-|[<-|[<-|[<-|[]]]]]; injection V as <-; cbn; lra.
  - split; [vm_compute; reflexivity|]. eexists (_, _). split; [split; reflexivity|]. exists (-1)%Z. intros H. vm_compute in H. discriminate H.
Qed.
Theorem C63_wide_refuted : in_turn earth (box_contour 10 230 1 3) /\ get_pixels_in earth (box_contour 10 230 1 3) = Some [] /\ exists p, centre earth 1 1 p /\ inside (box_contour 10 230 1 3) p.
Proof. split; [intros v [<-|[<-|[<-|[<-|[]]]]]; cbn; lra|]. split; [vm_compute; reflexivity|]. eexists (_, _). split; [split; reflexivity|]. intros H. vm_compute in H. discriminate H. Qed.

(** ** C87: count of the eddies over each pixel *)
Theorem C87_count : forall g eddies, searchable g -> (forall e, In e eddies -> good_eddy g e) ->
  exists grid, grid_count g eddies = Some grid /\ same_shape g grid /\
  forall i j p, centre g i j p -> exists n, at2 grid i j (Z.of_nat n) /\ counts (fun e => contains (snd e) p) eddies n.
Proof. exact count_spec. Qed.
Print Assumptions C87_count.
Lemma earth_searchable : searchable earth.
Proof. split; [apply earth_good|]. cbn [g_circular earth]. split; [reflexivity|discriminate]. Qed.
Definition two_eddies : list (Q * list point) := [(0, box_contour (-60) 60 1 3); (370, box_contour 300 400 2 4)]%Q.
Lemma two_good : forall e, In e two_eddies -> good_eddy earth e.
Proof.
  intros e [<-|[<-|[]]]; (split; [|split]).
  - exists (-60, 1)%Q, (60, 1)%Q. split; [left; reflexivity|]. split; [right; left; reflexivity|]. intros [H _]. discriminate H.
  - intros v [<-|[<-|[<-|[<-|[]]]]]; reflexivity.
  - exists 0%Q, 0%Z, 0%Z. split; [reflexivity|]. split; [cbn; lra|]. cbn [g_circular earth snd]. split; [intros v [<-|[<-|[<-|[<-|[]]]]]; split; reflexivity|].
    split; [exists (shift 0 (-60, 1)%Q); split; [left; reflexivity|discriminate]|exists (shift 0 (60, 1)%Q); split; [right; left; reflexivity|discriminate]].
  - exists (300, 2)%Q, (400, 2)%Q. split; [left; reflexivity|]. split; [right; left; reflexivity|]. intros [H _]. discriminate H.
  - intros v [<-|[<-|[<-|[<-|[]]]]]; reflexivity.
  - exists 10%Q, (-1)%Z, (-1)%Z. split; [reflexivity|]. split; [cbn; lra|]. cbn [g_circular earth snd]. split; [intros v [<-|[<-|[<-|[<-|[]]]]]; split; reflexivity|].
    split; [exists (shift (-1) (300, 2)%Q); split; [left; reflexivity|discriminate]|exists (shift (-1) (400, 2)%Q); split; [right; left; reflexivity|discriminate]].
Qed.
Example C87_case : searchable earth /\ (forall e, In e two_eddies -> good_eddy earth e) /\
  grid_count earth two_eddies = Some [[0; 1; 2; 1; 0]; [0; 0; 0; 0; 0]; [0; 0; 0; 0; 0]; [0; 0; 0; 0; 0]; [0; 0; 0; 0; 0]; [0; 0; 0; 0; 0]; [0; 0; 0; 0; 0]; [0; 1; 2; 1; 0]]%Z.
Proof.
  split; [exact earth_searchable|]. split; [exact two_good|vm_compute; reflexivity].
Qed.
(** Regional grid. *)
Example C87_case_regional : searchable basin /\ good_eddy basin (2, box_contour 1 4 1 3)%Q /\ grid_count basin [(2, box_contour 1 4 1 3)]%Q = Some [[0; 0; 0; 0; 0]; [0; 1; 1; 0; 0]; [0; 1; 1; 0; 0]; [0; 1; 1; 0; 0]; [0; 0; 0; 0; 0]; [0; 0; 0; 0; 0]]%Z.
Proof.
  split; [split; [exact basin_good|]|split; [|vm_compute; reflexivity]].
  - cbn [g_circular basin]. intros i x X. destruct i as [|[|[|[|[|[|i]]]]]]; try (injection X as <-; reflexivity). destruct i; discriminate X.
  - split; [exists (1, 1)%Q, (4, 1)%Q; split; [left; reflexivity|]; split; [right; left; reflexivity|]; intros [H _]; discriminate H|]. split; [intros v [<-|[<-|[<-|[<-|[]]]]]; reflexivity|].
    exists 2%Q, 0%Z, 0%Z. split; [reflexivity|]. split; [cbn; lra|]. cbn [g_circular basin snd]. split; intros v [<-|[<-|[<-|[<-|[]]]]]; split; reflexivity || discriminate.
Qed.
(** An eddy which touches the first row is not counted at all. *)
Theorem C87_south_refuted : grid_count basin [(2, box_contour 1 4 (1 # 4) 3)]%Q = Some (repeat (repeat 0%Z 5) 6) /\ exists p, centre basin 1 2 p /\ contains (box_contour 1 4 (1 # 4) 3) p.
Proof. split; [vm_compute; reflexivity|]. eexists (_, _). split; [split; reflexivity|]. exists 0%Z. intros H. vm_compute in H. discriminate H. Qed.

(** ** C88: statistics of a grid in contours *)
Theorem C88_statistics : forall g lowest m grid mask eddies, searchable g -> 2 <= length (g_x g) -> 2 <= length (g_y g) -> same_shape g grid -> same_shape g mask -> (forall e, In e eddies -> good_eddy g e) ->
  exists rs, interp_contours g lowest m grid mask eddies = Some rs /\ length rs = length eddies /\
  forall n e, nth_error eddies n = Some e -> exists r l, nth_error rs n = Some r /\ NoDup l /\ (forall i j, In (i, j) l <-> exists p, centre g i j p /\ contains (snd e) p) /\
  statistic lowest m grid mask l r.
Proof. exact interps_spec. Qed.
Print Assumptions C88_statistics.
Definition heights : list (list Q) := [[1; 2; 3; 4; 5]; [0; 0; 0; 0; 0]; [0; 0; 0; 0; 0]; [0; 0; 0; 0; 0]; [0; 0; 0; 0; 0]; [0; 0; 0; 0; 0]; [0; 0; 0; 0; 0]; [0; 5; 90; 6; 0]]%Q.
Definition land : list (list bool) := repeat (repeat false 5) 7 ++ [[false; false; true; false; false]].
Example C88_case : same_shape earth heights /\ same_shape earth land /\ (forall e, In e two_eddies -> good_eddy earth e) /\
  interp_contours earth (-1000) SCount heights land two_eddies = Some [Some 4; Some 4]%Q /\
  option_map (map (option_map Qred)) (interp_contours earth (-1000) SMean heights land two_eddies) = Some [Some (10 # 3); Some (13 # 3)]%Q /\
  interp_contours earth (-1000) SMin heights land two_eddies = Some [Some 2; Some 3]%Q.
Proof.
  split; [split; [reflexivity|]; intros row I; repeat (destruct I as [<-|I]; [reflexivity|]); destruct I|].
  split; [split; [reflexivity|]; intros row I; repeat (destruct I as [<-|I]; [reflexivity|]); destruct I|]. split; [exact two_good|]. repeat split; vm_compute; reflexivity.
Qed.
(** The largest value can be masked; an eddy without pixel has the lowest value. *)
Theorem C88_masked_refuted : interp_contours earth (-1000) SMax heights land two_eddies = Some [Some 90; Some 90]%Q /\ masked land (7, 2) = true /\ pick heights (7, 2) = 90%Q.
Proof. repeat split; vm_compute; reflexivity. Qed.
Theorem C88_empty_refuted : interp_contours earth (-1000) SMax heights land [(5, box_contour 1 9 1 3)]%Q = Some [Some (-1000)]%Q /\ interp_contours earth (-1000) SMin heights land [(5, box_contour 1 9 1 3)]%Q = Some [Some 1000]%Q.
Proof. split; vm_compute; reflexivity. Qed.
