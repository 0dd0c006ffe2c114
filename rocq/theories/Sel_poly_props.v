(** Properties of the selections by polygons and of the contour of points (C97). *)
From Coq Require Import List Arith ZArith QArith Bool Lia Lqa.
From Verif Require Import Base Qaux Spec Obs_spec Obs_props Poly_model Poly_spec Poly_props PolyIdx_model Sel_model Sel_spec Sel_proofs Sel_poly.
Import ListNotations.
Local Close Scope Q_scope.
Local Open Scope nat_scope.

Lemma firstn_removelast : forall {A} (l : list A) c k, k < length l -> forall x, In x (c :: firstn k l) -> In x (removelast (c :: l)).
Proof.
  induction l as [|a l IH]; intros c k K x I; [cbn in K; lia|]. change (removelast (c :: a :: l)) with (c :: removelast (a :: l)).
  destruct I as [<-|I]; [left; reflexivity|]. right. destruct k as [|k]; [destruct I|]. destruct l as [|b l]; [cbn in K; lia|]. apply (IH a k); [cbn in *; lia|exact I].
Qed.
Lemma removelast_firstn : forall {A} (l : list A) c, l <> [] -> removelast (c :: l) = c :: firstn (length l - 1) l.
Proof.
  induction l as [|a l IH]; intros c NE; [contradiction|]. change (removelast (c :: a :: l)) with (c :: removelast (a :: l)). f_equal.
  destruct l as [|b l]; [reflexivity|]. rewrite IH by discriminate. cbn [length]. replace (S (S (length l)) - 1) with (S (length l)) by lia. cbn [firstn]. replace (S (length l) - 1) with (length l) by lia. reflexivity.
Qed.

(** ** C97: observations in one of several polygons *)

(** The mask holds exactly the points which are in at least one polygon, modulo
    whole turns, provided some point is left to test for the last polygon. *)
Theorem C97_polygons : forall argsort pts polygons, sorts argsort -> polygons <> [] ->
  (forall p, In p pts -> (-90 <= snd p)%Q) -> (forall c, In c polygons -> good_contour c) ->
  (exists p, In p pts /\ forall c, In c (removelast polygons) -> ~ contains c p) ->
  exists m, mask_from_polygons argsort pts polygons = Some m /\ length m = length pts /\
    forall i p, nth_error pts i = Some p -> exists b, nth_error m i = Some b /\ (b = true <-> exists c, In c polygons /\ contains c p).
Proof.
  intros argsort pts polygons SO NE LAT G LEFT. destruct polygons as [|c polygons]; [contradiction|]. unfold mask_from_polygons.
  assert (NP : pts <> []) by (destruct LEFT as (p & I & _); intros ->; destruct I).
  destruct (C55_inside argsort pts [c] SO NP LAT) as (m & E & L & H); [intros c' [<-|[]]; apply G; left; reflexivity|].
  change (@cons (list (Q * Q)) c nil) with (@cons (list point) c nil). rewrite E. cbn [bind].
  destruct (next_spec argsort SO pts LAT polygons [c] m) as [Y _]; [intros c' I; apply G; right; exact I|split; [exact L|exact H]|].
  apply Y. intros k K. destruct LEFT as (p & I & NO). exists p. split; [exact I|]. intros c' I'. apply NO. apply (firstn_removelast polygons c k K). exact I'.
Qed.
Print Assumptions C97_polygons.
Definition square_at (x y : Q) : list (Q * Q) := [(x, y); (x + 2, y); (x + 2, y + 2); (x, y + 2); (x, y)]%Q.
(** Two squares, one across longitude 0: the third point is in none. *)
Example C97_polygons_ex : mask_from_polygons zargsort [(11, 1); (0, 1); (5, 1); (360, 1); (-349, 1)]%Q [square_at 10 0; square_at 359 0] = Some [true; true; false; true; true].
Proof. reflexivity. Qed.
Lemma square_good : forall x y, (-90 <= y)%Q -> good_contour (square_at x y).
Proof.
  intros x y Y. unfold square_at. split; [|split].
  - exists (x, y)%Q, (x + 2, y)%Q. cbn [In]. split; [tauto|]. split; [tauto|]. intros [A _]. cbn in A. lra.
  - intros p q [<-|[<-|[<-|[<-|[<-|[]]]]]] [<-|[<-|[<-|[<-|[<-|[]]]]]]; cbn; lra.
  - intros p [<-|[<-|[<-|[<-|[<-|[]]]]]]; cbn; lra.
Qed.

(** When every point is already in a polygon before the last one, or when there
    is no observation, the call fails. *)
Theorem C97_all_inside_refuted : forall argsort pts c polygons, sorts argsort -> polygons <> [] ->
  (forall p, In p pts -> (-90 <= snd p)%Q) -> (forall c', In c' (c :: polygons) -> good_contour c') ->
  (forall p, In p pts -> exists c', In c' (removelast (c :: polygons)) /\ contains c' p) ->
  mask_from_polygons argsort pts (c :: polygons) = None.
Proof.
  intros argsort pts c polygons SO NE LAT G ALL. unfold mask_from_polygons. destruct pts as [|p0 pts].
  - unfold insidepoly, poly_indexs, group_obs. cbn [map Corr_model.sequence bind]. assert (A : argsort [] = []). { destruct (SO []) as [P _]. apply Permutation.Permutation_sym, Permutation.Permutation_nil in P. exact P. } rewrite A. reflexivity.
  - destruct (C55_inside argsort (p0 :: pts) [c] SO ltac:(discriminate) LAT) as (m & E & L & H); [intros c' [<-|[]]; apply G; left; reflexivity|].
    change (@cons (list (Q * Q)) c nil) with (@cons (list point) c nil). rewrite E. cbn [bind].
    destruct (next_spec argsort SO (p0 :: pts) LAT polygons [c] m) as [_ N]; [intros c' I; apply G; right; exact I|split; [exact L|exact H]|].
    apply N. exists (length polygons - 1). split; [clear - NE; destruct polygons as [|c0 l0]; [contradiction|cbn [length]; apply Nat.sub_lt; [apply le_n_S, Nat.le_0_l|exact Nat.lt_0_1]]|]. intros (p & I & NO). destruct (ALL p I) as (c' & I' & C'). rewrite (removelast_firstn polygons c NE) in I'. exact (NO c' I' C').
Qed.
Print Assumptions C97_all_inside_refuted.
Example C97_all_inside_refuted_ex : mask_from_polygons zargsort [(11, 1); (371, 1 # 2)]%Q [square_at 10 0; square_at 359 0] = None /\ mask_from_polygons zargsort [(11, 1); (371, 1 # 2)]%Q [square_at 10 0] = Some [true; true].
Proof. split; reflexivity. Qed.

(** Each point receives the first contour which contains it, -1 when none does
    or when one of its coordinates is not a number. *)
Theorem C97_contains : forall argsort cs pts, sorts argsort -> (forall c, In c cs -> good_contour c) ->
  (forall x y, In (Some x, Some y) pts -> (-90 <= y)%Q) ->
  exists out, contains_ argsort cs pts = Some out /\ length out = length pts /\
    (forall i x y, nth_error pts i = Some (Some x, Some y) -> exists r, first_containing cs (x, y) r /\ nth_error out i = Some (match r with Some m => Z.of_nat m | None => (-1)%Z end)) /\
    (forall i x y, nth_error pts i = Some (x, y) -> x = None \/ y = None -> nth_error out i = Some (-1)%Z).
Proof.
  intros argsort cs pts SO G LAT. unfold contains_.
  destruct (negb (length pts =? 0) && existsb (fun b => b) (map known pts)) eqn:T.
  - apply andb_true_iff in T as [_ T].
    assert (NE : map value (select (map known pts) pts) <> []).
    { intros E. apply map_eq_nil in E. assert (E' := proj1 (select_nil (map known pts) pts (map_length _ _)) E). clear E. rename E' into E. apply existsb_exists in T as (b & I & B). subst b. apply In_nth_error in I as (i & I). exact (E i I). }
    assert (LAT' : forall p, In p (map value (select (map known pts) pts)) -> (-90 <= snd p)%Q).
    { intros p I. apply in_map_iff in I as (q & <- & I). assert (K : known q = true). { rewrite select_filter in I. apply filter_In in I. tauto. } apply In_sel in I. destruct q as [[x|] [y|]]; try discriminate K. cbn. exact (LAT x y I). }
    destruct (C55_first_contour argsort (map value (select (map known pts) pts)) cs SO NE LAT' G) as (v & E & LV & H).
    change (poly_indexs argsort (map value (select (map known pts) pts)) cs = Some v) in E. rewrite E. cbn [bind].
    destruct (mask_store_spec (fun (q : option Q * option Q) (z : Z) => exists r, first_containing cs (value q) r /\ z = match r with Some m => Z.of_nat m | None => (-1)%Z end) (map known pts) pts (repeat (-1)%Z (length pts)) v) as (out & EO & LO & K).
    + apply map_length.
    + apply repeat_length.
    + rewrite LV. apply map_length.
    + intros j q Q. destruct (H j (value q)) as (r & F & N); [exact (eq_trans (nth_error_map _ _ _) (f_equal (option_map value) Q))|]. eexists. split; [exact N|]. exists r. split; [exact F|reflexivity].
    + exists out. split; [exact EO|]. split; [exact LO|]. split.
      * intros i x y P. destruct (K i _ P) as [K1 _]. rewrite nth_error_map, P in K1. destruct (K1 eq_refl) as (z & Z1 & r & F & ->). exists r. split; [exact F|exact Z1].
      * intros i x y P NN. destruct (K i _ P) as [_ K2]. rewrite nth_error_map, P in K2. rewrite K2; [|destruct NN as [->| ->]; [reflexivity|destruct x; reflexivity]]. rewrite nth_error_repeat_lt. apply nth_error_Some_lt in P. destruct (Nat.ltb_spec i (length pts)); [reflexivity|lia].
  - assert (NK : forall i p, nth_error pts i = Some p -> known p = false).
    { intros i p P. apply andb_false_iff in T as [T|T].
      - apply negb_false_iff, Nat.eqb_eq in T. apply nth_error_Some_lt in P. lia.
      - destruct (known p) eqn:K; [|reflexivity]. exfalso. assert (X : existsb (fun b => b) (map known pts) = true) by (apply existsb_exists; exists true; split; [rewrite <- K; apply in_map, (nth_error_In _ _ P)|reflexivity]). congruence. }
    eexists. split; [reflexivity|]. split; [apply repeat_length|]. split.
    + intros i x y P. discriminate (NK i _ P).
    + intros i x y P _. rewrite nth_error_repeat_lt. apply nth_error_Some_lt in P. destruct (Nat.ltb_spec i (length pts)); [reflexivity|lia].
Qed.
Print Assumptions C97_contains.
Example C97_contains_ex : contains_ zargsort [square_at 10 0; square_at 359 0; square_at 11 0] [(Some (23 # 2), Some 1); (None, Some 1); (Some 0, Some 1); (Some 50, Some 1); (Some (25 # 2), Some 1); (Some 1, None)]%Q = Some [0; -1; 1; -1; 2; -1]%Z.
Proof. reflexivity. Qed.
