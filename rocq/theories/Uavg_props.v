(** C107: contour of greatest speed; C108: contours which hold several eddies. *)
From Coq Require Import List Arith ZArith QArith Qabs Bool Lia Lqa.
From Verif Require Import Base Obs_proofs Uavg_model.
Import ListNotations.
Local Open Scope nat_scope.

(** The next level inwards, and whether there is one. *)
Definition inwards (anticyclonic : bool) : Z := if anticyclonic then 1%Z else (-1)%Z.
Definition level_ok (n : nat) (anticyclonic : bool) (z : Z) : Prop := if anticyclonic then (0 <= z < Z.of_nat n)%Z else (- Z.of_nat n <= z < 0)%Z.

Lemma pyget_pos : forall {A} (l : list A) z, (0 <= z < Z.of_nat (length l))%Z -> pyget l z = nth_error l (Z.to_nat z).
Proof. intros A l z H. unfold pyget, pyidx. destruct (Z.leb_spec 0 z); [|lia]. destruct (Z.ltb_spec z (Z.of_nat (length l))); [|lia]. reflexivity. Qed.
Lemma pyget_neg : forall {A} (l : list A) z, (- Z.of_nat (length l) <= z < 0)%Z -> pyget l z = nth_error l (Z.to_nat (z + Z.of_nat (length l))).
Proof. intros A l z H. unfold pyget, pyidx. destruct (Z.leb_spec 0 z); [lia|]. destruct (Z.leb_spec (- Z.of_nat (length l)) z); [|lia]. reflexivity. Qed.
Lemma iter_nth : forall {A} (levels : list A) (up : bool) s p, level_ok (length levels) up s -> let z := (s + inwards up * (Z.of_nat p + 1))%Z in
  (level_ok (length levels) up z -> nth_error (iter_from levels (s + inwards up) up) p = pyget levels z /\ pyget levels z <> None) /\
  (~ level_ok (length levels) up z -> nth_error (iter_from levels (s + inwards up) up) p = None).
Proof.
  intros A levels up s p OK z. unfold iter_from. destruct up; cbn [level_ok inwards] in *.
  - destruct (Z.ltb_spec (s + 1) 0) as [Q|Q]; [lia|]. rewrite nth_skipn. split.
    + intros H. rewrite pyget_pos by exact H. replace (Z.to_nat z) with (Z.to_nat (s + 1) + p) by lia. split; [reflexivity|]. destruct (nth_error_lt_Some levels (Z.to_nat (s + 1) + p) ltac:(lia)) as [x ->]. discriminate.
    + intros H. apply nth_error_None. lia.
  - destruct (Z.ltb_spec (s + -1) 0) as [Q|Q]; [|lia]. replace (Z.to_nat (Z.min (s + -1 + Z.of_nat (length levels)) (Z.of_nat (length levels) - 1) + 1)) with (Z.to_nat (s + Z.of_nat (length levels))) by lia.
    set (m := Z.to_nat (s + Z.of_nat (length levels))). assert (LM : length (firstn m levels) = m) by (rewrite firstn_length; lia). split.
    + intros H. assert (PM : p < m) by lia. destruct (nth_error_lt_Some (rev (firstn m levels)) p) as [x X]; [rewrite rev_length; lia|]. rewrite X.
      assert (E : nth_error levels (m - S p) = Some x). { rewrite <- (nth_firstn levels m) by lia. rewrite nth_error_nth' with (d := x) by lia. f_equal. pose proof (nth_error_nth (rev (firstn m levels)) p x X) as Y. rewrite rev_nth in Y by lia. rewrite LM in Y. exact Y. }
      rewrite pyget_neg by exact H. replace (Z.to_nat (z + Z.of_nat (length levels))) with (m - S p) by lia. rewrite E. split; [reflexivity|discriminate].
    + intros H. apply nth_error_None. rewrite rev_length. lia.
Qed.

Section Uavg.
Context {level contour : Type}.
Variable nearest : level -> option contour.
Variable inside : contour -> bool.
Variable pixels : contour -> nat.
Variable speed : contour -> option Q.
Notation walk := (walk nearest inside pixels speed).
Notation get_uavg := (get_uavg nearest inside pixels speed).

(** The contours met before the first level which stops the search. *)
Fixpoint met (colls : list level) : list contour :=
  match colls with
  | c :: rest => match nearest c with Some k => if inside k then k :: met rest else [] | None => [] end
  | [] => []
  end.
Lemma met_spec : forall colls, (forall p k, nth_error (met colls) p = Some k -> exists c, nth_error colls p = Some c /\ nearest c = Some k /\ inside k = true) /\
  match nth_error colls (length (met colls)) with None => True | Some c => nearest c = None \/ exists k, nearest c = Some k /\ inside k = false end.
Proof.
  induction colls as [|c colls [IH1 IH2]]; cbn [met].
  - split; [intros [|p] k; discriminate|exact I].
  - destruct (nearest c) as [k|] eqn:E.
    + destruct (inside k) eqn:IK.
      * split; [|exact IH2]. intros [|p] k' H; [cbn in H; apply Some_inj in H; subst; exists c; repeat split; assumption|]. exact (IH1 p k' H).
      * split; [intros [|p] k'; discriminate|]. cbn. right. exists k. split; assumption.
    + split; [intros [|p] k'; discriminate|]. cbn. left. exact E.
Qed.
(** The best contour of the loop, from position [i] on. *)
Definition best_from (pixel_min : nat) (m : option Q) (k : contour) : bool := (pixel_min <? pixels k) && at_least (speed k) m.
Lemma walk_lists : forall pm colls i f, let g := walk pm i colls f in
  speeds g = speeds f ++ map speed (met colls) /\ eddy_contours g = eddy_contours f ++ met colls /\ inner g = last (met colls) (inner f) /\
  i_inner g = match met colls with [] => i_inner f | _ => (i + Z.of_nat (length (met colls)) - 1)%Z end.
Proof.
  intros pm colls. induction colls as [|c colls IH]; intros i f; cbn [Uavg_model.walk met]; cbn zeta.
  - rewrite !app_nil_r. repeat split; reflexivity.
  - destruct (nearest c) as [k|]; [|rewrite !app_nil_r; repeat split; reflexivity]. destruct (inside k); cbn [negb]; [|rewrite !app_nil_r; repeat split; reflexivity].
    match goal with |- context [walk pm (i + 1) colls ?F] => specialize (IH (i + 1)%Z F) end. cbn zeta in IH. cbn [speeds eddy_contours inner i_inner] in IH. destruct IH as (H1 & H2 & H3 & H4). split; [rewrite H1, <- app_assoc; reflexivity|]. split; [rewrite H2, <- app_assoc; reflexivity|]. split.
    + rewrite H3. destruct (met colls) as [|k' l]; [reflexivity|]. assert (G : forall (l : list contour) a d d', last (a :: l) d = last (a :: l) d') by (induction l0 as [|x l0 IHl]; intros a d d'; [reflexivity|]; cbn in *; apply (IHl x)). exact (G l k' k (inner f)).
    + rewrite H4. destruct (met colls); cbn [length]; lia.
Qed.
(** What is known of the best contour after [done] contours. *)
Definition best_of (pm : nat) (ks : list contour) (m : option Q) (s : contour) (i : Z) : Prop :=
  exists p, nth_error ks p = Some s /\ i = (Z.of_nat p - 1)%Z /\ m = speed s /\ (p = 0 \/ pm < pixels s) /\
    (forall k0, nth_error ks 0 = Some k0 -> (speed k0 = None -> p = 0) /\ (speed k0 <> None -> m <> None)) /\
    forall q k v w, nth_error ks q = Some k -> speed k = Some v -> (q = 0 \/ pm < pixels k) -> m = Some w -> (v <= w)%Q /\ (p < q -> (v < w)%Q).
Lemma walk_best : forall pm colls i ks f, best_of pm ks (max_speed f) (selected f) (i_max f) -> i = (Z.of_nat (length ks) - 1)%Z -> ks <> [] ->
  best_of pm (ks ++ met colls) (max_speed (walk pm i colls f)) (selected (walk pm i colls f)) (i_max (walk pm i colls f)).
Proof.
  intros pm colls. induction colls as [|c colls IH]; intros i ks f B EI NE; cbn [Uavg_model.walk met]; cbn zeta.
  - rewrite app_nil_r. exact B.
  - destruct (nearest c) as [k|]; [|rewrite app_nil_r; exact B]. destruct (inside k); cbn [negb]; [|rewrite app_nil_r; exact B].
    replace (ks ++ k :: met colls) with ((ks ++ [k]) ++ met colls) by (rewrite <- app_assoc; reflexivity). apply IH; [|rewrite app_length; cbn; lia|destruct ks; discriminate]. cbn [max_speed selected i_max]. clear IH.
    destruct B as (p & P1 & P2 & P3 & P4 & P5 & P6). pose proof (nth_error_Some_lt _ _ _ P1) as PL.
    assert (K0 : forall k0, nth_error (ks ++ [k]) 0 = Some k0 -> nth_error ks 0 = Some k0) by (intros k0; destruct ks; [congruence|]; intros H; exact H).
    destruct (pm <? pixels k) eqn:EP; cbn [andb].
    + apply Nat.ltb_lt in EP. destruct (at_least (speed k) (max_speed f)) eqn:EA.
      * unfold at_least in EA. destruct (speed k) as [v|] eqn:EV; [|discriminate EA]. destruct (max_speed f) as [m|] eqn:EM; [|discriminate EA]. apply Qle_bool_iff in EA.
        exists (length ks). split; [rewrite nth_error_app2, Nat.sub_diag by lia; reflexivity|]. split; [exact EI|]. split; [symmetry; exact EV|]. split; [right; exact EP|]. split.
        -- intros k0 H. apply K0 in H. destruct (P5 k0 H) as [A1 A2]. split; [|discriminate]. intros N. exfalso. specialize (A1 N). subst p. rewrite P1 in H. apply Some_inj in H. subst k0. congruence.
        -- intros q k' v' w H V HQ W. apply Some_inj in W. subst w. destruct (lt_dec q (length ks)) as [L|L].
           ++ rewrite nth_error_app1 in H by exact L. destruct (P6 q k' v' m H V HQ eq_refl) as [A _]. split; [lra|lia].
           ++ assert (q = length ks) by (apply nth_error_Some_lt in H; rewrite app_length in H; cbn in H; lia). subst q. rewrite nth_error_app2, Nat.sub_diag in H by lia. cbn in H. apply Some_inj in H. subst k'. rewrite EV in V. apply Some_inj in V. subst v'. split; [lra|lia].
      * exists p. split; [rewrite nth_error_app1 by exact PL; exact P1|]. split; [exact P2|]. split; [exact P3|]. split; [exact P4|]. split; [intros k0 H; apply P5; apply K0; exact H|].
        intros q k' v w H V HQ W. destruct (lt_dec q (length ks)) as [L|L]; [rewrite nth_error_app1 in H by exact L; exact (P6 q k' v w H V HQ W)|].
        assert (q = length ks) by (apply nth_error_Some_lt in H; rewrite app_length in H; cbn in H; lia). subst q. rewrite nth_error_app2, Nat.sub_diag in H by lia. cbn in H. apply Some_inj in H. subst k'. rewrite V, W in EA. cbn in EA. destruct (Qlt_le_dec v w) as [Q|Q]; [split; [lra|intros _; exact Q]|]. exfalso. apply Qle_bool_iff in Q. congruence.
    + apply Nat.ltb_ge in EP. exists p. split; [rewrite nth_error_app1 by exact PL; exact P1|]. split; [exact P2|]. split; [exact P3|]. split; [exact P4|]. split; [intros k0 H; apply P5; apply K0; exact H|].
      intros q k' v w H V HQ W. destruct (lt_dec q (length ks)) as [L|L]; [rewrite nth_error_app1 in H by exact L; exact (P6 q k' v w H V HQ W)|].
      assert (q = length ks) by (apply nth_error_Some_lt in H; rewrite app_length in H; cbn in H; lia). subst q. rewrite nth_error_app2, Nat.sub_diag in H by lia. cbn in H. apply Some_inj in H. subst k'. destruct HQ as [HQ|HQ]; [|lia]. destruct ks; [congruence|discriminate HQ].
Qed.

(** From the contour of the eddy the search goes inwards level by level, and stops at the first level without a contour around the center inside the contour of the eddy, or after the last level. *)
Theorem C107_walk : forall levels original anticyclonic level_start pixel_min, level_ok (length levels) anticyclonic level_start ->
  let f := get_uavg levels original anticyclonic level_start pixel_min in
  let at_ p := (level_start + inwards anticyclonic * Z.of_nat p)%Z in
  exists ks, (forall p k, nth_error ks p = Some k -> level_ok (length levels) anticyclonic (at_ (S p)) /\ exists l, pyget levels (at_ (S p)) = Some l /\ nearest l = Some k /\ inside k = true) /\
    (level_ok (length levels) anticyclonic (at_ (S (length ks))) -> exists l, pyget levels (at_ (S (length ks))) = Some l /\ (nearest l = None \/ exists k, nearest l = Some k /\ inside k = false)) /\
    eddy_contours f = original :: ks /\ speeds f = map speed (original :: ks) /\ inner f = last ks original /\ i_inner f = at_ (length ks).
Proof.
  intros levels original anti s pm OK f at_. set (colls := iter_from levels (s + inwards anti) anti). exists (met colls). destruct (met_spec colls) as [M1 M2].
  assert (AT : forall p, at_ (S p) = (s + inwards anti * (Z.of_nat p + 1))%Z) by (intros p; unfold at_; f_equal; f_equal; lia).
  pose proof (walk_lists pm colls 0 (Found (speed original) original original [speed original] (-1) (-1) [original])) as W. cbn zeta in W. cbn [speeds eddy_contours inner i_inner] in W. destruct W as (W1 & W2 & W3 & W4).
  split; [|split; [|split; [|split; [|split]]]].
  - intros p k H. destruct (M1 p k H) as (c & C & N & IK). destruct (iter_nth levels anti s p OK) as [I1 I2]. fold colls in I1, I2. rewrite <- AT in I1, I2. assert (D : level_ok (length levels) anti (at_ (S p)) \/ ~ level_ok (length levels) anti (at_ (S p))) by (unfold level_ok; destruct anti; lia). destruct D as [D|D]; [|rewrite (I2 D) in C; discriminate C].
    split; [exact D|]. exists c. destruct (I1 D) as [Q _]. split; [congruence|]. split; assumption.
  - intros D. rewrite AT in D |- *. destruct (iter_nth levels anti s (length (met colls)) OK) as [I1 _]. fold colls in I1. destruct (I1 D) as [Q1 Q2]. rewrite Q1 in M2. match type of Q2 with ?x <> None => destruct x as [c|] end; [|congruence]. exists c. split; [reflexivity|exact M2].
  - exact W2.
  - exact W1.
  - exact W3.
  - unfold f, Uavg_model.get_uavg. cbn [i_inner]. fold (inwards anti). fold colls. rewrite W4. unfold at_. destruct (met colls) as [|k l]; cbn [length]; destruct anti; cbn [inwards]; lia.
Qed.
(** The contour selected has the greatest speed among the contour of the eddy and the contours met with more pixels than the minimum, the innermost one when several are equal; its level is the one given.  When the speed of the contour of the eddy is not a number, this contour is selected. *)
Theorem C107_selected : forall levels original anticyclonic level_start pixel_min,
  let f := get_uavg levels original anticyclonic level_start pixel_min in
  exists p, nth_error (eddy_contours f) p = Some (selected f) /\ i_max f = (level_start + inwards anticyclonic * Z.of_nat p)%Z /\ max_speed f = speed (selected f) /\
    (p = 0 \/ pixel_min < pixels (selected f)) /\ (speed original = None -> p = 0) /\ (speed original <> None -> max_speed f <> None) /\
    forall q k v w, nth_error (eddy_contours f) q = Some k -> speed k = Some v -> (q = 0 \/ pixel_min < pixels k) -> max_speed f = Some w -> (v <= w)%Q /\ (p < q -> (v < w)%Q).
Proof.
  intros levels original anti s pm f. set (colls := iter_from levels (s + inwards anti) anti).
  pose proof (walk_lists pm colls 0 (Found (speed original) original original [speed original] (-1) (-1) [original])) as W. cbn zeta in W. cbn [speeds eddy_contours inner i_inner] in W. destruct W as (_ & W2 & _).
  assert (B : best_of pm [original] (speed original) original (-1)).
  { exists 0. split; [reflexivity|]. split; [reflexivity|]. split; [reflexivity|]. split; [left; reflexivity|]. split; [intros k0 H; cbn in H; apply Some_inj in H; subst; tauto|]. intros [|q] k v w H V _ E; [|destruct q; discriminate H]. cbn in H. apply Some_inj in H. subst k. rewrite V in E. apply Some_inj in E. subst w. split; [lra|lia]. }
  pose proof (walk_best pm colls 0 [original] (Found (speed original) original original [speed original] (-1) (-1) [original]) B eq_refl ltac:(discriminate)) as (p & P1 & P2 & P3 & P4 & P5 & P6). exists p. assert (EC : eddy_contours f = [original] ++ met colls) by exact W2. rewrite EC.
  split; [exact P1|]. split. { unfold f, Uavg_model.get_uavg. cbn [i_max]. fold (inwards anti). fold colls. rewrite P2. destruct anti; cbn [inwards]; lia. }
  split; [exact P3|]. split; [exact P4|]. destruct (P5 original eq_refl) as [A1 A2]. split; [exact A1|]. split; [exact A2|]. exact P6.
Qed.
End Uavg.
Print Assumptions C107_walk.
Print Assumptions C107_selected.
(** Levels named by their contour: contour 2 stands at level 1; contours 3 to 6 inside, 5 with too few pixels. *)
Definition example_speed (k : nat) : option Q := nth k [None; None; Some (2 # 1); Some (5 # 1); Some (5 # 1); Some (9 # 1); Some (4 # 1); Some (8 # 1)]%Q None.
Example C107_case : let f := get_uavg (fun l : nat => if l =? 7 then None else Some l) (fun _ => true) (fun k => if k =? 5 then 2 else 8) example_speed [0; 2; 3; 4; 5; 6; 7] 2 true 1 3 in
  level_ok 7 true 1 /\ (max_speed f, selected f, inner f, speeds f, i_max f, i_inner f) = (Some (5 # 1)%Q, 4, 6, [Some (2 # 1); Some (5 # 1); Some (5 # 1); Some (9 # 1); Some (4 # 1)]%Q, 3%Z, 5%Z).
Proof. split; [cbn; lia|reflexivity]. Qed.
Example C107_case_cyclonic : let f := get_uavg (fun l : nat => Some l) (fun k => negb (k =? 2)) (fun _ => 8) example_speed [0; 2; 3; 4; 5; 6; 7] 6 false (-2) 3 in
  level_ok 7 false (-2) /\ (max_speed f, selected f, inner f, i_max f, i_inner f) = (Some (9 # 1)%Q, 5, 3, (-3)%Z, (-5)%Z).
Proof. split; [cbn; lia|reflexivity]. Qed.

(** ** C108 *)
Lemma two_of : forall {A} (P : A -> bool) (l : list A), 1 < length (filter P l) <-> exists i j a b, i < j /\ nth_error l i = Some a /\ nth_error l j = Some b /\ P a = true /\ P b = true.
Proof.
  intros A P l. assert (ONE : forall m : list A, 0 < length (filter P m) <-> exists j b, nth_error m j = Some b /\ P b = true).
  { intros m. split.
    - intros H. destruct (filter P m) as [|b r] eqn:E; [cbn in H; lia|]. assert (I : In b (filter P m)) by (rewrite E; left; reflexivity). apply filter_In in I as [I PB]. apply In_nth_error in I as [j J]. exists j, b. split; assumption.
    - intros (j & b & J & PB). assert (I : In b (filter P m)) by (apply filter_In; split; [apply nth_error_In with j; exact J|exact PB]). destruct (filter P m); [destruct I|cbn; lia]. }
  induction l as [|x l IH]; cbn [filter].
  - split; [cbn; lia|]. intros (i & j & a & b & _ & H & _). destruct i; discriminate H.
  - destruct (P x) eqn:PX.
    + cbn [length]. split.
      * intros H. destruct (proj1 (ONE l) ltac:(lia)) as (j & b & J & PB). exists 0, (S j), x, b. split; [lia|]. repeat split; assumption.
      * intros (i & j & a & b & IJ & A1 & B1 & PA & PB). destruct j as [|j]; [lia|]. enough (0 < length (filter P l)) by lia. apply ONE. exists j, b. split; assumption.
    + rewrite IH. split.
      * intros (i & j & a & b & IJ & H). exists (S i), (S j), a, b. split; [lia|exact H].
      * intros (i & j & a & b & IJ & A1 & B1 & PA & PB). destruct i as [|i]; [cbn in A1; apply Some_inj in A1; subst; congruence|]. destruct j as [|j]; [lia|]. exists i, j, a, b. split; [lia|]. repeat split; assumption.
Qed.
(** Two eddies with this height, to 1e-8, have their center in the contour. *)
Definition several {contour} (holds : contour -> nat -> bool) (heights : list Q) (height : Q) (k : contour) : Prop :=
  exists e e' h h', e < e' /\ nth_error heights e = Some h /\ nth_error heights e' = Some h' /\ (Qabs (h - height) <= 1 # 100000000)%Q /\ (Qabs (h' - height) <= 1 # 100000000)%Q /\ holds k e = true /\ holds k e' = true.
Lemma count_several : forall {contour} (holds : contour -> nat -> bool) heights height k, (1 <? count_in holds heights height k) = true <-> several holds heights height k.
Proof.
  intros contour holds heights height k. rewrite Nat.ltb_lt. unfold count_in. rewrite two_of.
  assert (N : forall i (p : nat * Q), nth_error (combine (seq 0 (length heights)) heights) i = Some p <-> fst p = i /\ nth_error heights i = Some (snd p)).
  { intros i p. assert (G : forall (l : list Q) a i p, nth_error (combine (seq a (length l)) l) i = Some p <-> fst p = a + i /\ nth_error l i = Some (snd p)).
    { clear. induction l as [|x l IH]; intros a i [e h]; cbn [length seq combine]; [split; [destruct i; discriminate|intros [_ H]; destruct i; discriminate H]|]. destruct i as [|i]; cbn [nth_error fst snd].
      - split; [intros H; apply Some_inj in H; injection H as -> ->; split; [lia|reflexivity]|intros [-> H]; apply Some_inj in H; subst; f_equal; f_equal; lia].
      - rewrite IH. cbn [fst snd]. split; intros [H1 H2]; (split; [lia|exact H2]). }
    apply (G heights 0). }
  split.
  - intros (i & j & a & b & IJ & A1 & B1 & PA & PB). apply N in A1 as [A0 A1]. apply N in B1 as [B0 B1]. apply andb_true_iff in PA as [PA1 PA2]. apply andb_true_iff in PB as [PB1 PB2]. apply Qle_bool_iff in PA1, PB1. exists i, j, (snd a), (snd b). rewrite A0 in PA2. rewrite B0 in PB2. repeat split; assumption.
  - intros (e & e' & h & h' & L & H & H' & D & D' & K & K'). exists e, e', (e, h), (e', h'). split; [exact L|]. split; [apply N; split; [reflexivity|exact H]|]. split; [apply N; split; [reflexivity|exact H']|]. cbn [fst snd]. apply Qle_bool_iff in D, D'. rewrite D, D', K, K'. split; reflexivity.
Qed.
Lemma label_spec : forall {contour} (used : contour -> bool) holds heights cvalues cor levels j, (forall p, p < length levels -> pyget cvalues (j + Z.of_nat p + cor) <> None) ->
  exists flags, label_levels used holds heights cvalues cor j levels = Some flags /\ length flags = length levels /\
    forall p paths, nth_error levels p = Some paths -> exists h fl, pyget cvalues (j + Z.of_nat p + cor) = Some h /\ nth_error flags p = Some fl /\ fl = map (fun k => negb (used k) && (1 <? count_in holds heights h k)) paths.
Proof.
  intros contour used holds heights cvalues cor levels. induction levels as [|paths levels IH]; intros j B.
  - exists []. split; [reflexivity|]. split; [reflexivity|]. intros [|p] ?; discriminate.
  - cbn [label_levels]. assert (B0 := B 0 ltac:(cbn; lia)). replace (j + Z.of_nat 0 + cor)%Z with (j + cor)%Z in B0 by lia. destruct (pyget cvalues (j + cor)) as [h|] eqn:EH; [|congruence]. cbn [bind].
    destruct (IH (j + 1)%Z) as (flags & E & L & N). { intros p P. replace (j + 1 + Z.of_nat p + cor)%Z with (j + Z.of_nat (S p) + cor)%Z by lia. apply B. cbn. lia. }
    rewrite E. cbn [bind]. eexists. split; [reflexivity|]. split; [cbn; lia|]. intros [|p] ps P.
    + cbn in P. apply Some_inj in P. subst ps. exists h. eexists. split; [rewrite <- EH; f_equal; lia|]. split; reflexivity.
    + destruct (N p ps P) as (h' & fl & H1 & H2 & H3). exists h', fl. split; [rewrite <- H1; f_equal; lia|]. split; assumption.
Qed.
Lemma flag_iff : forall {contour} (used : contour -> bool) holds heights h paths i k fl, fl = map (fun k => negb (used k) && (1 <? count_in holds heights h k)) paths -> nth_error paths i = Some k ->
  (nth_error fl i = Some true <-> used k = false /\ several holds heights h k).
Proof.
  intros contour used holds heights h paths i k fl -> K. rewrite nth_error_map, K. cbn [option_map]. rewrite <- count_several. destruct (used k); destruct (1 <? count_in holds heights h k); cbn; split; intros Q; try discriminate; try tauto; destruct Q; discriminate.
Qed.
(** Anticyclones: on each level but the last, the contours marked are the unused ones which hold the centers of several eddies of the next level. *)
Theorem C108_anticyclonic : forall {contour} (used : contour -> bool) holds heights cvalues levels, length cvalues = length levels -> exists flags,
  label_contours used true holds heights cvalues levels = Some flags /\ length flags = length levels - 1 /\
  forall p paths h i k, p + 1 < length levels -> nth_error levels p = Some paths -> nth_error cvalues (p + 1) = Some h -> nth_error paths i = Some k ->
    exists fl, nth_error flags p = Some fl /\ length fl = length paths /\ (nth_error fl i = Some true <-> used k = false /\ several holds heights h k).
Proof.
  intros contour used holds heights cvalues levels L. unfold label_contours. assert (RL : length (removelast levels) = length levels - 1 /\ forall p, p + 1 < length levels -> nth_error (removelast levels) p = nth_error levels p).
  { clear L. destruct levels as [|x levels]; [split; [reflexivity|cbn; lia]|]. destruct (@exists_last _ (x :: levels) ltac:(discriminate)) as (l & a & E). rewrite E. rewrite removelast_app by discriminate. cbn [removelast]. rewrite app_nil_r, app_length. cbn [length]. split; [lia|]. intros p P. rewrite nth_error_app1 by lia. reflexivity. }
  destruct RL as [RL1 RL2]. destruct (label_spec used holds heights cvalues 1 (removelast levels) 0) as (flags & E & LF & N).
  { intros p P. rewrite pyget_pos by lia. destruct (nth_error_lt_Some cvalues (Z.to_nat (0 + Z.of_nat p + 1)) ltac:(lia)) as [x X]. rewrite X. discriminate. }
  exists flags. split; [exact E|]. split; [lia|]. intros p paths h i k P PA H K. rewrite <- (RL2 p P) in PA. destruct (N p paths PA) as (h' & fl & H1 & H2 & H3). rewrite pyget_pos in H1 by lia. replace (Z.to_nat (0 + Z.of_nat p + 1)) with (p + 1) in H1 by lia. rewrite H in H1. apply Some_inj in H1. subst h'. exists fl. split; [exact H2|]. split; [rewrite H3; apply map_length|]. exact (flag_iff used holds heights h paths i k fl H3 K).
Qed.
Print Assumptions C108_anticyclonic.
(** Cyclones: on each level but the first the height compared is not the one of the next level (number p - 1) but the one before it, and for level 1 the one of the last level. *)
Theorem C108_cyclonic : forall {contour} (used : contour -> bool) holds heights cvalues levels, length cvalues = length levels -> exists flags,
  label_contours used false holds heights cvalues levels = Some flags /\ length flags = length levels - 1 /\
  forall p paths h i k, 0 < p < length levels -> nth_error levels p = Some paths -> nth_error cvalues (if p =? 1 then length levels - 1 else p - 2) = Some h -> nth_error paths i = Some k ->
    exists fl, nth_error flags (p - 1) = Some fl /\ length fl = length paths /\ (nth_error fl i = Some true <-> used k = false /\ several holds heights h k).
Proof.
  intros contour used holds heights cvalues levels L. unfold label_contours. assert (RL : length (tl levels) = length levels - 1 /\ forall p, nth_error (tl levels) p = nth_error levels (S p)) by (destruct levels; [split; [reflexivity|intros [|p]; reflexivity]|split; [cbn; lia|reflexivity]]).
  destruct RL as [RL1 RL2]. destruct (label_spec used holds heights cvalues (-1) (tl levels) 0) as (flags & E & LF & N).
  { intros [|p] P; [rewrite pyget_neg by lia; destruct (nth_error_lt_Some cvalues (Z.to_nat (0 + Z.of_nat 0 + -1 + Z.of_nat (length cvalues))) ltac:(lia)) as [x X]; rewrite X; discriminate|]. rewrite pyget_pos by lia. destruct (nth_error_lt_Some cvalues (Z.to_nat (0 + Z.of_nat (S p) + -1)) ltac:(lia)) as [x X]. rewrite X. discriminate. }
  exists flags. split; [exact E|]. split; [lia|]. intros p paths h i k P PA H K. destruct p as [|p]; [lia|]. replace (S p - 1) with p by lia. rewrite <- (RL2 p) in PA. destruct (N p paths PA) as (h' & fl & H1 & H2 & H3).
  assert (h' = h). { destruct p as [|p]; cbn [Nat.eqb] in H; [rewrite pyget_neg in H1 by lia; replace (Z.to_nat (0 + Z.of_nat 0 + -1 + Z.of_nat (length cvalues))) with (length levels - 1) in H1 by lia|rewrite pyget_pos in H1 by lia; replace (Z.to_nat (0 + Z.of_nat (S p) + -1)) with (S (S p) - 2) in H1 by lia]; rewrite H in H1; apply Some_inj in H1; congruence. }
  subst h'. exists fl. split; [exact H2|]. split; [rewrite H3; apply map_length|]. exact (flag_iff used holds heights h paths i k fl H3 K).
Qed.
Print Assumptions C108_cyclonic.
(** Three levels with one contour each, two eddies inside at level 1 (height -2): the contour of level 2 holds both and is marked for anticyclones one level lower, never for cyclones. *)
Theorem C108_cyclonic_refuted : exists (heights cvalues : list Q) levels, length cvalues = length levels /\ several (fun (_ : nat) _ => true) heights (-2 # 1)%Q 7 /\ nth_error cvalues 1 = Some (-2 # 1)%Q /\ nth_error levels 2 = Some [7] /\
  label_contours (fun _ => false) false (fun (_ : nat) _ => true) heights cvalues levels = Some [[false]; [false]].
Proof.
  exists [(-2 # 1)%Q; (-2 # 1)%Q], [(-3 # 1)%Q; (-2 # 1)%Q; (-1 # 1)%Q], [[5]; [6]; [7]]. split; [reflexivity|]. split; [|repeat split]. exists 0, 1, (-2 # 1)%Q, (-2 # 1)%Q. split; [lia|]. repeat (split; [first [reflexivity|vm_compute; discriminate]|]). reflexivity.
Qed.
Print Assumptions C108_cyclonic_refuted.
Example C108_case : label_contours (fun k => k =? 9) true (fun k e => e <? k) [(-2 # 1)%Q; (-2 # 1)%Q; (-1 # 1)%Q; (-1 # 1)%Q] [(-3 # 1)%Q; (-2 # 1)%Q; (-1 # 1)%Q] [[1; 2; 9]; [3; 4]; [7]] = Some [[false; true; false]; [false; true]].
Proof. vm_compute. reflexivity. Qed.
