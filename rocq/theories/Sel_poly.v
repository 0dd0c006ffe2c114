(** Proofs on the selections by polygons and the contours of points. *)
From Coq Require Import List Arith ZArith QArith Bool Lia.
From Verif Require Import Base Qaux Spec Obs_spec Poly_model Poly_spec Poly_props PolyIdx_model Sel_model Sel_spec Sel_proofs.
Import ListNotations.
Local Close Scope Q_scope.
Local Open Scope nat_scope.

Lemma mask_store_spec : forall {A B} (R : A -> B -> Prop) (m : list bool) (pts : list A) (l vs : list B), length m = length pts -> length l = length pts ->
  length vs = length (select m pts) -> (forall j p, nth_error (select m pts) j = Some p -> exists b, nth_error vs j = Some b /\ R p b) ->
  exists out, mask_store m l vs = Some out /\ length out = length pts /\
    forall i p, nth_error pts i = Some p -> (nth_error m i = Some true -> exists b, nth_error out i = Some b /\ R p b) /\ (nth_error m i = Some false -> nth_error out i = nth_error l i).
Proof.
  intros A B R. induction m as [|b m IH]; intros [|p pts] [|a l] vs L1 L2 L3 H; cbn in L1, L2; try discriminate.
  - destruct vs; [|discriminate L3]. exists []. split; [reflexivity|]. split; [reflexivity|]. intros [|i] q Q; discriminate Q.
  - destruct b; cbn [select] in L3, H; cbn [mask_store].
    + destruct vs as [|v vs]; [discriminate L3|]. destruct (IH pts l vs) as (out & E & LO & K); [lia|lia|cbn in L3; lia| |].
      { intros j q Q. exact (H (S j) q Q). }
      rewrite E. cbn [bind]. exists (v :: out). split; [reflexivity|]. split; [cbn; lia|]. intros [|i] q Q; cbn in Q |- *.
      * injection Q as <-. split; [|discriminate]. intros _. exists v. split; [reflexivity|]. destruct (H 0 p eq_refl) as (b & Eb & Rb). cbn in Eb. injection Eb as <-. exact Rb.
      * exact (K i q Q).
    + destruct (IH pts l vs) as (out & E & LO & K); [lia|lia|exact L3|exact H|]. rewrite E. cbn [bind]. exists (a :: out). split; [reflexivity|]. split; [cbn; lia|].
      intros [|i] q Q; cbn in Q |- *; [split; [discriminate|reflexivity]|exact (K i q Q)].
Qed.

Lemma In_sel : forall {A} (m : list bool) (l : list A) p, In p (select m l) -> In p l.
Proof. induction m as [|[] m IH]; intros [|a l] p H; cbn in *; try tauto; [destruct H as [<-|H]; [left; reflexivity|right; apply IH, H]|right; apply IH, H]. Qed.

Lemma select_nil : forall {A} (m : list bool) (l : list A), length m = length l -> (select m l = [] <-> forall i, nth_error m i <> Some true).
Proof.
  induction m as [|[] m IH]; intros [|a l] L; cbn in L; try discriminate L; cbn.
  - split; [intros _ [|i]; discriminate|reflexivity].
  - split; [discriminate|]. intros H. exfalso. exact (H 0 eq_refl).
  - rewrite (IH l) by lia. split; [intros H [|i]; [discriminate|apply H]|intros H i; exact (H (S i))].
Qed.

(** [m] says which points are in one of the polygons [done]. *)
Definition marks (done : list (list (Q * Q))) (pts : list (Q * Q)) (m : list bool) : Prop :=
  length m = length pts /\ forall i p, nth_error pts i = Some p -> exists b, nth_error m i = Some b /\ (b = true <-> exists c, In c done /\ contains c p).

Section Polygons.
Variable argsort : list Z -> list nat.
Hypothesis SO : sorts argsort.
Variable pts : list (Q * Q).
Hypothesis LAT : forall p, In p pts -> (-90 <= snd p)%Q.

(** Some point is in none of the polygons [done]. *)
Definition some_left (done : list (list (Q * Q))) : Prop := exists p, In p pts /\ forall c, In c done -> ~ contains c p.

Lemma next_step : forall done (c : list (Q * Q)) m, good_contour c -> marks done pts m ->
  (some_left done -> exists v m', insidepoly argsort (select (map negb m) pts) (@cons (list (Q * Q)) c nil) = Some v /\ mask_store (map negb m) m v = Some m' /\ marks (done ++ [c]) pts m') /\
  (~ some_left done -> insidepoly argsort (select (map negb m) pts) (@cons (list (Q * Q)) c nil) = None).
Proof.
  intros done c m G [L M]. split.
  - intros (p & I & NO). assert (NE : select (map negb m) pts <> []).
    { intros E. assert (E' := proj1 (select_nil (map negb m) pts ltac:(rewrite map_length; exact L)) E). apply In_nth_error in I as (i & N). destruct (M i p N) as (b & B & K). apply (E' i). rewrite nth_error_map, B. cbn. destruct b; [|reflexivity]. exfalso. destruct (proj1 K eq_refl) as (c' & I' & C'). exact (NO c' I' C'). }
    destruct (C55_inside argsort (select (map negb m) pts) [c] SO NE) as (v & E & LV & H).
    { intros q Q. apply LAT. exact (In_sel _ _ _ Q). }
    { intros c' [<-|[]]. exact G. }
    destruct (mask_store_spec (fun (q : Q * Q) (b : bool) => b = true <-> contains c q) (map negb m) pts m v) as (m' & EM & LM & K); [rewrite map_length; exact L|exact L|exact LV| |].
    { intros j q Q. destruct (H j q Q) as (b & B & X). exists b. split; [exact B|]. rewrite X. split; [intros (c' & [<-|[]] & C); exact C|intros C; exists c; split; [left; reflexivity|exact C]]. }
    exists v, m'. split; [exact E|]. split; [exact EM|]. split; [exact LM|]. intros i q Q. destruct (K i q Q) as [K1 K2]. rewrite nth_error_map in K1, K2. destruct (M i q Q) as (b & B & X). rewrite B in K1, K2. cbn [option_map] in K1, K2. destruct b; cbn [negb] in K1, K2.
    + exists true. split; [exact (K2 eq_refl)|]. split; [intros _|reflexivity]. destruct (proj1 X eq_refl) as (c' & I' & C'). exists c'. split; [apply in_or_app; left; exact I'|exact C'].
    + destruct (K1 eq_refl) as (b' & B' & X'). exists b'. split; [exact B'|]. rewrite X'. split.
      * intros C. exists c. split; [apply in_or_app; right; left; reflexivity|exact C].
      * intros (c' & I' & C'). apply in_app_or in I' as [I'|[<-|[]]]; [|exact C']. assert (F : false = true) by (apply X; exists c'; split; assumption). discriminate F.
  - intros NS. assert (E : select (map negb m) pts = []).
    { apply select_nil; [rewrite map_length; exact L|]. intros i N. rewrite nth_error_map in N. destruct (nth_error m i) as [b|] eqn:B; [|discriminate N]. cbn in N. destruct b; [discriminate N|].
      assert (LI : i < length pts) by (rewrite <- L; exact (nth_error_Some_lt _ _ _ B)). destruct (nth_error_lt_Some pts i LI) as [p P]. destruct (M i p P) as (b & B' & K). assert (b = false) by congruence. subst b.
      apply NS. exists p. split; [exact (nth_error_In _ _ P)|]. intros c' I' C'. assert (F : false = true) by (apply K; exists c'; split; assumption). discriminate F. }
    rewrite E. unfold insidepoly, poly_indexs, group_obs. cbn [map Corr_model.sequence bind].
    assert (A : argsort [] = []). { destruct (SO []) as [P _]. apply Permutation.Permutation_sym, Permutation.Permutation_nil in P. exact P. }
    rewrite A. reflexivity.
Qed.

Lemma next_spec : forall (polygons : list (list (Q * Q))) done m, (forall c, In c polygons -> good_contour c) -> marks done pts m ->
  ((forall k, k < length polygons -> some_left (done ++ firstn k polygons)) -> exists out, mask_next argsort pts polygons m = Some out /\ marks (done ++ polygons) pts out) /\
  ((exists k, k < length polygons /\ ~ some_left (done ++ firstn k polygons)) -> mask_next argsort pts polygons m = None).
Proof.
  induction polygons as [|c polygons IH]; intros done m G M.
  - split; [|intros (k & K & _); cbn in K; lia]. intros _. exists m. rewrite app_nil_r. split; [reflexivity|exact M].
  - assert (G' : forall c', In c' polygons -> good_contour c') by (intros c' I; apply G; right; exact I).
    destruct (next_step done c m (G c (or_introl eq_refl)) M) as [Y N]. split.
    + intros H. assert (SL : some_left done). { specialize (H 0). cbn [firstn length] in H. rewrite app_nil_r in H. apply H. lia. }
      destruct (Y SL) as (v & m' & E & EM & M'). cbn [mask_next]. rewrite E. cbn [bind]. rewrite EM. cbn [bind]. destruct (IH (done ++ [c]) m' G' M') as [IY _]. replace (done ++ c :: polygons) with ((done ++ [c]) ++ polygons) by (rewrite <- app_assoc; reflexivity).
      apply IY. intros k K. specialize (H (S k)). cbn [firstn length] in H. rewrite <- app_assoc. apply H. lia.
    + intros (k & K & NS). cbn [mask_next]. destruct k as [|k].
      * cbn [firstn] in NS. rewrite app_nil_r in NS. rewrite (N NS). reflexivity.
      * destruct (insidepoly argsort (select (map negb m) pts) (@cons (list (Q * Q)) c nil)) as [v|] eqn:E; [|reflexivity]. cbn [bind].
        destruct (mask_store (map negb m) m v) as [m'|] eqn:EM; [|reflexivity]. cbn [bind].
        assert (SL : some_left done).
        { destruct (select (map negb m) pts) as [|q r] eqn:S0.
          - exfalso. unfold insidepoly, poly_indexs, group_obs in E. cbn [map Corr_model.sequence bind] in E. assert (A : argsort [] = []). { destruct (SO []) as [P _]. apply Permutation.Permutation_sym, Permutation.Permutation_nil in P. exact P. } rewrite A in E. discriminate E.
          - destruct M as [L M]. assert (L2 : length (map negb m) = length pts) by (rewrite map_length; exact L).
            assert (EX : ~ forall i, nth_error (map negb m) i <> Some true). { intros X. apply (proj2 (select_nil (map negb m) pts L2)) in X. rewrite S0 in X. discriminate X. }
            destruct (existsb negb m) eqn:EB.
            + apply existsb_exists in EB as (b & I & B). apply In_nth_error in I as (i & I). destruct b; [discriminate B|]. assert (LI : i < length pts) by (rewrite <- L; exact (nth_error_Some_lt _ _ _ I)). destruct (nth_error_lt_Some pts i LI) as [p P]. destruct (M i p P) as (b & B' & KK). assert (b = false) by congruence. subst b.
              exists p. split; [exact (nth_error_In _ _ P)|]. intros c' I' C'. assert (F : false = true) by (apply KK; exists c'; split; assumption). discriminate F.
            + exfalso. apply EX. intros i X. rewrite nth_error_map in X. destruct (nth_error m i) as [b|] eqn:B; [|discriminate X]. cbn in X. destruct b; [discriminate X|]. assert (T : existsb negb m = true) by (apply existsb_exists; exists false; split; [exact (nth_error_In _ _ B)|reflexivity]). congruence. }
        destruct (Y SL) as (v' & m'' & E' & EM' & M'). assert (v' = v) by congruence. subst v'. assert (m'' = m') by congruence. subst m''.
        destruct (IH (done ++ [c]) m' G' M') as [_ IN]. apply IN. exists k. split; [cbn in K; lia|]. cbn [firstn] in NS. rewrite <- app_assoc. exact NS.
Qed.
End Polygons.
