(** The contours kept and the search of the nearest one. *)
From Coq Require Import List Arith ZArith QArith Qabs Lia Lqa Bool.
From Verif Require Import Base Qaux Poly_model Poly_pairs Ctr_model Ctr_spec Ctr_proofs.
Import ListNotations.
Local Close Scope Q_scope.
Local Open Scope nat_scope.

(** ** The contours kept *)
Lemma ends_total : forall p, p <> [] -> exists a z, nth_error p 0 = Some a /\ last_of p = Some z.
Proof.
  intros p H. destruct p as [|a p]; [contradiction|]. exists a. unfold last_of. destruct (nth_error (a :: p) (length (a :: p) - 1)) eqn:E; [eexists; split; reflexivity|].
  apply nth_error_None in E. cbn [length] in E. lia.
Qed.
Lemma ends_unique : forall p d e, ends p d -> ends p e -> (d == e)%Q.
Proof.
  intros p d e (a & z & A & Z & D) (a' & z' & A' & Z' & D'). rewrite A in A'. rewrite Z in Z'. apply Some_inj in A', Z'. subst a' z'. rewrite D, D'. reflexivity.
Qed.
Lemma tidied_unique : forall p q q', p <> [] -> tidied p q -> tidied p q' -> q = q'.
Proof.
  intros p q q' NE (L & S1 & d & D & E) (L' & S1' & d' & D' & E').
  assert (DD : (d == d')%Q) by exact (ends_unique _ _ _ D D').
  assert (B1 : Qle_bool d ((1 # 100) * (1 # 100)) = Qle_bool d' ((1 # 100) * (1 # 100))).
  { apply eq_true_iff_eq. rewrite !Qle_bool_iff. rewrite DD. reflexivity. }
  assert (B2 : Qeq_bool d 0 = Qeq_bool d' 0). { apply eq_true_iff_eq. rewrite !Qeq_bool_iff. rewrite DD. reflexivity. }
  rewrite <- B1, <- B2 in E'. apply nth_error_ext. intros j. destruct (lt_eq_lt_dec j (length p - 1)) as [[H|H]|H].
  - rewrite S1, S1' by exact H. reflexivity.
  - subst j. rewrite E, E'. reflexivity.
  - rewrite (proj2 (nth_error_None q j)), (proj2 (nth_error_None q' j)) by lia. reflexivity.
Qed.
Lemma bbox_flat : forall q x0 x1 y0 y1, bbox q = Some (x0, x1, y0, y1) ->
  (Qlt_bool (Qabs (x0 - x1)) (DELTA_PREC * 100) || Qlt_bool (Qabs (y0 - y1)) (DELTA_PREC * 100) = true <-> flat q).
Proof.
  intros q x0 x1 y0 y1 B. destruct (bbox_spec _ _ _ _ _ B) as (I & (a & Ia & Ea) & (b & Ib & Eb) & (c & Ic & Ec) & (d & Id & Ed)).
  assert (K : (DELTA_PREC * 100 == 1 # 100000000)%Q) by reflexivity. rewrite orb_true_iff, !Qlt_bool_iff. unfold flat. rewrite K. split.
  - intros [H|H]; [left|right]; intros v w V W; apply Qabs_Qlt_condition in H; apply Qabs_Qlt_condition; destruct (I v V) as [V1 V2], (I w W) as [W1 W2]; split; lra.
  - intros [H|H]; [left; rewrite <- Ea, <- Eb; apply H; assumption|right; rewrite <- Ec, <- Ed; apply H; assumption].
Qed.

Lemma keep_path_spec : forall ku p, exists r, keep_path ku p = Some r /\
  match r with None => refused ku p | Some (q, b) => ~ refused ku p /\ tidied p q /\ bbox q = Some b /\ q <> [] end.
Proof.
  intros ku p. unfold keep_path. destruct (Nat.ltb_spec (length p) 4) as [L|L].
  { exists None. split; [reflexivity|]. left. exact L. }
  assert (NE : p <> []) by (intros ->; cbn in L; lia).
  destruct (ends_total p NE) as (a & z & A & Z). rewrite A, Z. cbn [bind]. cbv zeta.
  set (d2 := ((fst a - fst z) * (fst a - fst z) + (snd a - snd z) * (snd a - snd z))%Q).
  assert (D : ends p d2). { exists a, z. split; [exact A|]. split; [exact Z|]. reflexivity. }
  destruct (Qlt_bool (DELTA_SUP * DELTA_SUP) d2 && negb ku) eqn:O.
  { exists None. split; [reflexivity|]. right. left. apply andb_true_iff in O as [O1 O2]. apply negb_true_iff in O2. split; [exact O2|]. exists d2. split; [exact D|]. apply Qlt_bool_iff. exact O1. }
  assert (Q1 : exists q, (if negb (Qeq_bool d2 0) && Qle_bool d2 (DELTA_SUP * DELTA_SUP) then store p (length p - 1) a else Some p) = Some q /\ tidied p q).
  { change (DELTA_SUP * DELTA_SUP)%Q with ((1 # 100) * (1 # 100))%Q. destruct (Qeq_bool d2 0) eqn:Z0; cbn [negb andb].
    - exists p. split; [reflexivity|]. split; [reflexivity|]. split; [intros; reflexivity|]. exists d2. split; [exact D|]. rewrite Z0. destruct (Qle_bool _ _); reflexivity.
    - destruct (Qle_bool d2 ((1 # 100) * (1 # 100))) eqn:C.
      + unfold store. rewrite (proj2 (Nat.ltb_lt _ _)) by lia. eexists. split; [reflexivity|]. split; [apply length_upd|]. split.
        * intros j J. apply nth_error_upd_neq. apply not_eq_sym, Nat.lt_neq. exact J.
        * exists d2. split; [exact D|]. rewrite C, Z0. transitivity (Some a); [|symmetry; exact A]. apply nth_error_upd_eq. apply Nat.sub_lt; [eapply Nat.le_trans; [|exact L]; lia|lia].
      + exists p. split; [reflexivity|]. split; [reflexivity|]. split; [intros; reflexivity|]. exists d2. split; [exact D|]. rewrite C. reflexivity. }
  destruct Q1 as (q & -> & T). cbn [bind]. assert (NQ : q <> []). { destruct T as (TL & _). intros ->. change (0 = @length point p) in TL. lia. }
  destruct (bbox_total q NQ) as ([[[x0 x1] y0] y1] & B). rewrite B. cbn [bind]. cbv zeta.
  pose proof (bbox_flat q x0 x1 y0 y1 B) as FL. destruct (_ || _) eqn:FB.
  - exists None. split; [reflexivity|]. right. right. exists q. split; [exact T|]. apply FL. reflexivity.
  - exists (Some (q, (x0, x1, y0, y1))). split; [reflexivity|]. split; [|split; [exact T|split; [exact B|exact NQ]]].
    intros [R|[(R1 & d & R2 & R3)|(q' & R1 & R2)]].
    + exact (Nat.lt_irrefl _ (Nat.lt_le_trans _ _ _ R L)).
    + rewrite (ends_unique _ _ _ R2 D) in R3. apply andb_false_iff in O as [O|O]; [|rewrite R1 in O; discriminate O]. rewrite (proj2 (Qlt_bool_iff _ _)) in O; [discriminate O|exact R3].
    + rewrite (tidied_unique p q' q NE R1 T) in R2. apply FL in R2. discriminate R2.
Qed.
Lemma keep_paths_spec : forall ku ps, exists cs, keep_paths ku ps = Some cs /\ keeps ku ps (map fst cs) /\ (forall c, In c cs -> bbox (fst c) = Some (snd c) /\ fst c <> []).
Proof.
  induction ps as [|p ps (cs & E & K & B)]; cbn [keep_paths].
  - exists []. split; [reflexivity|]. split; [constructor|]. intros c [].
  - destruct (keep_path_spec ku p) as (r & R & H). rewrite R, E. cbn [bind]. destruct r as [[q b]|].
    + exists ((q, b) :: cs). split; [reflexivity|]. destruct H as (H1 & H2 & H3 & H4). split; [cbn [map fst]; apply keeps_cons; assumption|]. intros c [<-|I]; [split; assumption|apply B; exact I].
    + exists cs. split; [reflexivity|]. split; [apply keeps_drop; assumption|]. exact B.
Qed.
Lemma keep_levels_spec : forall ku ls, exists ks, keep_levels ku ls = Some ks /\ Forall2 (fun ps cs => keeps ku ps (map fst cs)) ls ks /\
  (forall cs c, In cs ks -> In c cs -> bbox (fst c) = Some (snd c) /\ fst c <> []).
Proof.
  induction ls as [|ps ls (ks & E & K & B)]; cbn [keep_levels].
  - exists []. split; [reflexivity|]. split; [constructor|]. intros cs c [].
  - destruct (keep_paths_spec ku ps) as (cs & R & K1 & B1). rewrite R, E. cbn [bind]. exists (cs :: ks). split; [reflexivity|]. split; [constructor; assumption|].
    intros cs' c [<-|I] J; [apply B1; exact J|apply (B cs'); assumption].
Qed.

(** ** The search on the tables is a search on the contours *)
Definition gap_code (x_ y : Q) (v : point) : Q :=
  (let d := (fst v - x_)%Q in let d_x := if Qlt_bool 180 (Qabs d) then (Qmod (d + 180) 360 - 180)%Q else d in d_x * d_x + (snd v - y) * (snd v - y))%Q.
Fixpoint pts (x_ y : Q) (c : nat) (vs : list point) (best : Q * nat) : Q * nat :=
  match vs with [] => best | v :: vs' => pts x_ y c vs' (if Qlt_bool (gap_code x_ y v) (fst best) then (gap_code x_ y v, c) else best) end.
Definition out_box (x y : Q) (c : kept) : bool :=
  let x_ := (Qmod (x - kx0 c) 360 + kx0 c)%Q in Qlt_bool y (ky0 c) || Qlt_bool (ky1 c) y || Qlt_bool x_ (kx0 c) || Qlt_bool (kx1 c) x_.
Fixpoint ctrs (x y : Q) (g : nat) (cs : list kept) (found : bool) (best : Q * nat) : bool * (Q * nat) :=
  match cs with
  | [] => (found, best)
  | c :: cs' => if out_box x y c then ctrs x y (S g) cs' found best else ctrs x y (S g) cs' true (pts (Qmod (x - kx0 c) 360 + kx0 c) y g (fst c) best)
  end.

Definition tables_of (ls : list (list kept)) : tables :=
  {| t_x := flat_map (fun c => map fst (fst c)) (concat ls); t_y := flat_map (fun c => map snd (fst c)) (concat ls);
     t_level_index := excl_sums 0 (map (@length _) ls); t_nb_contour := map (@length _) ls;
     t_nb_pt := map (fun c => length (fst c)) (concat ls); t_contour_index := excl_sums 0 (map (fun c => length (fst c)) (concat ls));
     t_x_min := map kx0 (concat ls); t_x_max := map kx1 (concat ls); t_y_min := map ky0 (concat ls); t_y_max := map ky1 (concat ls) |}.

Lemma scan_points_pure : forall ls g c x_ y best vs j pre, nth_error (concat ls) g = Some c -> fst c = pre ++ vs -> j = length pre ->
  scan_points (tables_of ls) (seq (sum_list (firstn g (map (fun c : kept => length (fst c)) (concat ls))) + j) (length vs)) x_ y g best = Some (pts x_ y g vs best).
Proof.
  intros ls g c x_ y best vs. revert best. induction vs as [|v vs IH]; intros best j pre G C J; [reflexivity|]. cbn [length seq scan_points pts].
  assert (V : nth_error (fst c) j = Some v). { rewrite C, J. rewrite nth_error_app2 by lia. rewrite Nat.sub_diag. reflexivity. }
  set (k := sum_list (firstn g (map (fun c : kept => length (fst c)) (concat ls))) + j).
  assert (X : nth_error (t_x (tables_of ls)) k = Some (fst v)) by exact (nth_flat fst _ g c j v G V).
  assert (Y : nth_error (t_y (tables_of ls)) k = Some (snd v)) by exact (nth_flat snd _ g c j v G V).
  rewrite X, Y. cbn [bind]. cbv zeta. unfold k.
  change ((if Qlt_bool 180 (Qabs (fst v - x_)) then Qmod (fst v - x_ + 180) 360 - 180 else fst v - x_) * (if Qlt_bool 180 (Qabs (fst v - x_)) then Qmod (fst v - x_ + 180) 360 - 180 else fst v - x_) + (snd v - y) * (snd v - y))%Q with (gap_code x_ y v).
  rewrite <- Nat.add_succ_r. apply (IH _ (S j) (pre ++ [v])); [exact G|rewrite <- app_assoc; exact C|rewrite app_length; cbn; lia].
Qed.
Lemma scan_contours_pure : forall ls x y cs g found best, (forall i c, nth_error cs i = Some c -> nth_error (concat ls) (g + i) = Some c) ->
  scan_contours (tables_of ls) (seq g (length cs)) x y found best = Some (ctrs x y g cs found best).
Proof.
  intros ls x y. induction cs as [|c cs IH]; intros g found best H; [reflexivity|]. cbn [length seq scan_contours ctrs].
  assert (G : nth_error (concat ls) g = Some c). { rewrite <- (Nat.add_0_r g). apply H. reflexivity. }
  cbn [t_x_min t_x_max t_y_min t_y_max tables_of]. rewrite !nth_error_map, G. cbn [option_map bind]. cbv zeta.
  fold (out_box x y c). assert (T : forall i c', nth_error cs i = Some c' -> nth_error (concat ls) (S g + i) = Some c'). { intros i c' I. rewrite Nat.add_succ_comm. apply H. exact I. }
  destruct (out_box x y c) eqn:O.
  - apply IH. exact T.
  - cbn [t_contour_index t_nb_pt tables_of]. rewrite nth_error_excl_sums, nth_error_map, G.
    2:{ rewrite map_length. apply nth_error_Some. rewrite G. discriminate. }
    cbn [option_map bind Nat.add].
    pose proof (scan_points_pure ls g c (Qmod (x - kx0 c) 360 + kx0 c) y best (fst c) 0 [] G eq_refl eq_refl) as SP. rewrite Nat.add_0_r in SP. unfold kx0 in *. rewrite SP. cbn [bind]. apply IH. exact T.
Qed.

Lemma nearest_pure : forall ls level cs x y, nth_error ls level = Some cs -> (forall c, In c cs -> fst c <> []) ->
  nearest_path (tables_of ls) level x y = Some
    match cs with
    | [] => None
    | c :: _ => match fst c with [] => None | v :: _ =>
        let g := sum_list (firstn level (map (@length _) ls)) in
        let r := ctrs x y g cs false (((fst v - x) * (fst v - x) + (snd v - y) * (snd v - y))%Q, g) in
        if fst r then Some (snd (snd r) - g) else None end
    end.
Proof.
  intros ls level cs x y L NE. unfold nearest_path. cbn [t_nb_contour t_level_index t_contour_index tables_of]. rewrite nth_error_map, L. cbn [option_map bind].
  destruct cs as [|c cs]; [reflexivity|]. cbn [length Nat.eqb]. assert (LL : level < length ls). { apply nth_error_Some. rewrite L. discriminate. }
  rewrite nth_error_excl_sums by (rewrite map_length; exact LL). cbn [bind Nat.add]. cbv zeta.
  set (g := sum_list (firstn level (map (@length _) ls))).
  assert (G : forall i c', nth_error (c :: cs) i = Some c' -> nth_error (concat ls) (g + i) = Some c'). { intros i c' I. apply (nth_concat _ _ level (c :: cs)); assumption. }
  pose proof (G 0 c eq_refl) as G0. rewrite Nat.add_0_r in G0.
  rewrite nth_error_excl_sums. 2:{ rewrite map_length. apply nth_error_Some. rewrite G0. discriminate. }
  cbn [bind Nat.add]. destruct (fst c) as [|v vs] eqn:FC. { exfalso. apply (NE c); [left; reflexivity|exact FC]. }
  assert (V : nth_error (fst c) 0 = Some v) by (rewrite FC; reflexivity).
  set (k := sum_list (firstn g (map (fun c : kept => length (fst c)) (concat ls)))).
  assert (X : nth_error (t_x (tables_of ls)) (k + 0) = Some (fst v)) by exact (nth_flat fst _ g c 0 v G0 V).
  assert (Y : nth_error (t_y (tables_of ls)) (k + 0) = Some (snd v)) by exact (nth_flat snd _ g c 0 v G0 V).
  rewrite Nat.add_0_r in X, Y. rewrite X, Y. cbn [bind].
  pose proof (scan_contours_pure ls x y (c :: cs) g false (((fst v - x) * (fst v - x) + (snd v - y) * (snd v - y))%Q, g) G) as SC. cbn [length] in SC. rewrite SC. cbn [bind]. reflexivity.
Qed.

(** ** The pure search *)
Lemma pts_spec : forall x_ y c vs best d r, pts x_ y c vs best = (d, r) ->
  ((d, r) = best /\ (forall v, In v vs -> (d <= gap_code x_ y v)%Q)) \/
  (r = c /\ (d < fst best)%Q /\ (exists v, In v vs /\ d = gap_code x_ y v) /\ (forall v, In v vs -> (d <= gap_code x_ y v)%Q)).
Proof.
  intros x_ y c. induction vs as [|v vs IH]; intros best d r H; cbn [pts] in H.
  - left. split; [symmetry; exact H|]. intros v [].
  - destruct (Qlt_bool (gap_code x_ y v) (fst best)) eqn:Q1.
    + apply Qlt_bool_iff in Q1. right. destruct (IH _ _ _ H) as [[E F]|(E & F & (w & W & X) & Z)].
      * injection E as -> ->. split; [reflexivity|]. split; [exact Q1|]. split; [exists v; split; [left; reflexivity|reflexivity]|]. intros w [<-|W]; [apply Qle_refl|apply F; exact W].
      * cbn [fst] in F. split; [exact E|]. split; [lra|]. split; [exists w; split; [right; exact W|exact X]|]. intros u [<-|U]; [lra|apply Z; exact U].
    + apply Qlt_bool_false in Q1. destruct (IH _ _ _ H) as [[E F]|(E & F & (w & W & X) & Z)].
      * left. split; [exact E|]. intros w [<-|W]; [|apply F; exact W]. rewrite <- E in Q1. exact Q1.
      * right. split; [exact E|]. split; [exact F|]. split; [exists w; split; [right; exact W|exact X]|]. intros u [<-|U]; [lra|apply Z; exact U].
Qed.
Definition gap_of (x y : Q) (c : kept) (v : point) : Q := gap_code (Qmod (x - kx0 c) 360 + kx0 c) y v.
Lemma ctrs_spec : forall x y cs g found best fd d r, ctrs x y g cs found best = (fd, (d, r)) ->
  (fd = true <-> found = true \/ exists c, In c cs /\ out_box x y c = false) /\
  (((d, r) = best /\ (forall c v, In c cs -> out_box x y c = false -> In v (fst c) -> (d <= gap_of x y c v)%Q)) \/
   (exists i c v, r = g + i /\ nth_error cs i = Some c /\ out_box x y c = false /\ In v (fst c) /\ d = gap_of x y c v /\ (d < fst best)%Q /\
     (forall j c' v', nth_error cs j = Some c' -> out_box x y c' = false -> In v' (fst c') -> (d <= gap_of x y c' v')%Q /\ (j < i -> (d < gap_of x y c' v')%Q)))).
Proof.
  intros x y. induction cs as [|c cs IH]; intros g found best fd d r H; cbn [ctrs] in H.
  - injection H as -> E. split. { split; [intros ->; left; reflexivity|]. intros [E'|(c & [] & _)]. exact E'. } left. split; [symmetry; exact E|]. intros c v [].
  - destruct (out_box x y c) eqn:O.
    + destruct (IH _ _ _ _ _ _ H) as [F R]. split.
      * rewrite F. split; (intros [E|(c' & I & N)]; [left; exact E|right]); exists c'; [split; [right; exact I|exact N]|].
        destruct I as [<-|I]; [rewrite O in N; discriminate N|]. split; assumption.
      * destruct R as [[E R]|(i & c' & v & E & I & N & V & D & L & R)].
        -- left. split; [exact E|]. intros c' v [<-|I] N V; [rewrite O in N; discriminate N|]. apply (R c' v); assumption.
        -- right. exists (S i), c', v. split; [lia|]. split; [exact I|]. split; [exact N|]. split; [exact V|]. split; [exact D|]. split; [exact L|].
           intros [|j] c2 v2 J N2 V2; [apply Some_inj in J; subst c2; rewrite O in N2; discriminate N2|]. destruct (R j c2 v2 J N2 V2) as [R1 R2]. split; [exact R1|]. intros K. apply R2. lia.
    + destruct (pts (Qmod (x - kx0 c) 360 + kx0 c) y g (fst c) best) as [d1 r1] eqn:P. apply pts_spec in P. destruct (IH _ _ _ _ _ _ H) as [F R]. split.
      { split; [intros _; right; exists c; split; [left; reflexivity|exact O]|]. intros _. apply F. left. reflexivity. }
      destruct R as [[E R]|(i & c' & v & E & I & N & V & D & L & R)].
      * injection E as -> ->. destruct P as [[E P]|(E & L & (v & V & X) & P)].
        -- left. split; [exact E|]. intros c' v [<-|I] N V; [apply P; exact V|]. apply (R c' v); assumption.
        -- right. exists 0, c, v. split; [lia|]. split; [reflexivity|]. split; [exact O|]. split; [exact V|]. split; [exact X|]. split; [exact L|].
           intros [|j] c2 v2 J N2 V2; (split; [|intros; lia]); [apply Some_inj in J; subst c2; apply P; exact V2|]. apply (R c2 v2); [exact (nth_error_In cs j J)|exact N2|exact V2].
      * cbn [fst] in L. right. exists (S i), c', v. split; [lia|]. split; [exact I|]. split; [exact N|]. split; [exact V|]. split; [exact D|].
        assert (L1 : (d1 <= fst best)%Q). { destruct P as [[E' _]|(_ & L' & _)]; [rewrite <- E'; apply Qle_refl|lra]. }
        split; [lra|]. intros [|j] c2 v2 J N2 V2.
        -- apply Some_inj in J. subst c2. assert (PL : (d1 <= gap_of x y c v2)%Q). { destruct P as [[_ P]|(_ & _ & _ & P)]; apply P; exact V2. } split; [lra|intros _; lra].
        -- destruct (R j c2 v2 J N2 V2) as [R1 R2]. split; [exact R1|]. intros K. apply R2. lia.
Qed.

(** ** Boxes and distances *)
Lemma out_box_spec : forall x y p b, bbox p = Some b -> (out_box x y (p, b) = false <-> box_holds x y p).
Proof.
  intros x y p [[[x0 x1] y0] y1] B. destruct (bbox_spec _ _ _ _ _ B) as (I & (a & Ia & Ea) & (a1 & Ib & Eb) & (c & Ic & Ec) & (d & Id & Ed)).
  unfold out_box, kx0, kx1, ky0, ky1. cbn [fst snd]. cbv zeta. destruct (Qmod_range (x - x0) 360) as [M1 M2]; [reflexivity|].
  assert (MC : Qcong 360 (Qmod (x - x0) 360 + x0) x).
  { pose proof (Qcong_add _ _ _ x0 (Qmod_cong (x - x0) 360)) as C. destruct C as [k C]. exists k. rewrite <- C. ring. }
  set (m := Qmod (x - x0) 360) in *. clearbody m. rewrite !orb_false_iff, !Qlt_bool_false. split.
  - intros [[[H1 H2] H3] H4]. exists (m + x0)%Q, a, a1, c, d. split; [exact MC|]. split; [exact Ia|]. split; [exact Ib|]. split; [exact Ic|]. split; [exact Id|]. rewrite Ea, Eb, Ec, Ed. split; split; assumption.
  - intros (x' & u & v & w & z & C & Iu & Iv & Iw & Iz & [H1 H2] & [H3 H4]). destruct (I u Iu) as [[U _] _], (I v Iv) as [[_ V] _], (I w Iw) as [_ [W _]], (I z Iz) as [_ [_ Z]].
    split; [split; [split|]|]; [lra|lra|lra|].
    assert (K : (m + x0 <= x')%Q); [|lra]. destruct MC as [k K1], C as [l K2].
    assert (E : (m + x0 - x' == 360 * inject_Z (k - l))%Q). { unfold Zminus. rewrite inject_Z_plus, inject_Z_opp. lra. }
    destruct (Z_lt_le_dec 0 (k - l)) as [G|G].
    + assert (1 <= inject_Z (k - l))%Q by (change 1%Q with (inject_Z 1); rewrite <- Zle_Qle; lia). lra.
    + assert (inject_Z (k - l) <= 0)%Q by (change 0%Q with (inject_Z 0); rewrite <- Zle_Qle; exact G). lra.
Qed.
Lemma gap2_unique : forall x y v d e, gap2 x y v d -> gap2 x y v e -> (d == e)%Q.
Proof.
  intros x y v d e (a & [k A] & [A1 A2] & D) (b & [l B] & [B1 B2] & E). rewrite D, E. assert (K : (a - b == 360 * inject_Z (k - l))%Q). { unfold Zminus. rewrite inject_Z_plus, inject_Z_opp. lra. }
  assert (R : (k - l = 0 \/ k - l = 1 \/ k - l = -1)%Z).
  { assert (U : (inject_Z (k - l) <= 1)%Q) by lra. assert (L : (-(1) <= inject_Z (k - l))%Q) by lra.
    change 1%Q with (inject_Z 1) in U. change (-(1))%Q with (inject_Z (-1)) in L. rewrite <- Zle_Qle in U, L. lia. }
  destruct R as [R|[R|R]]; rewrite R in K.
  - assert (a == b)%Q by (change (inject_Z 0) with 0%Q in K; lra). rewrite H. reflexivity.
  - change (inject_Z 1) with 1%Q in K. assert (a == 180)%Q by lra. assert (b == -(180))%Q by lra. rewrite H, H0. ring.
  - change (inject_Z (-1)) with (-(1))%Q in K. assert (a == -(180))%Q by lra. assert (b == 180)%Q by lra. rewrite H, H0. ring.
Qed.
Lemma gap_of_spec : forall x y c v, gap2 x y v (gap_of x y c v).
Proof.
  intros x y c v. unfold gap_of, gap_code. cbv zeta.
  assert (MC : Qcong 360 (Qmod (x - kx0 c) 360 + kx0 c) x).
  { pose proof (Qcong_add _ _ _ (kx0 c) (Qmod_cong (x - kx0 c) 360)) as C. destruct C as [k C]. exists k. rewrite <- C. ring. }
  set (m := (Qmod (x - kx0 c) 360 + kx0 c)%Q) in *. clearbody m.
  assert (DC : Qcong 360 (fst v - m) (fst v - x)). { destruct MC as [k K]. exists (- k)%Z. rewrite inject_Z_opp. lra. }
  destruct (Qlt_bool 180 (Qabs (fst v - m))) eqn:Q1.
  - exists (Qmod (fst v - m + 180) 360 - 180)%Q. split; [|split; [|reflexivity]].
    + apply Qcong_trans with (fst v - m)%Q; [|exact DC]. destruct (Qmod_cong (fst v - m + 180) 360) as [k K]. exists k. rewrite <- K. ring.
    + destruct (Qmod_range (fst v - m + 180) 360) as [M1 M2]; [reflexivity|]. split; lra.
  - exists (fst v - m)%Q. split; [exact DC|]. split; [|reflexivity]. apply Qlt_bool_false in Q1. apply Qabs_Qle_condition in Q1. exact Q1.
Qed.
Lemma gap2_straight : forall x y v d, gap2 x y v d -> (d <= (fst v - x) * (fst v - x) + (snd v - y) * (snd v - y))%Q.
Proof.
  intros x y v d (e & [k K] & [E1 E2] & D). rewrite D.
  assert (R : (e * e <= (fst v - x) * (fst v - x))%Q); [|lra]. set (u := (fst v - x)%Q) in *. clearbody u.
  destruct (Z.eq_dec k 0) as [->|NK]. { change (inject_Z 0) with 0%Q in K. assert (e == u)%Q by lra. rewrite H. apply Qle_refl. }
  destruct (Z_lt_le_dec 0 k) as [G|G].
  - assert (1 <= inject_Z k)%Q by (change 1%Q with (inject_Z 1); rewrite <- Zle_Qle; lia). nra.
  - assert (inject_Z k <= -(1))%Q by (change (-(1))%Q with (inject_Z (-1)); rewrite <- Zle_Qle; lia). nra.
Qed.

(** ** The nearest contour of a level *)
Lemma nearest_spec : forall ls level cs x y, nth_error ls level = Some cs -> (forall c, In c cs -> bbox (fst c) = Some (snd c) /\ fst c <> []) ->
  exists r, nearest_path (tables_of ls) level x y = Some r /\
  match r with
  | None => forall p, In p (map fst cs) -> ~ box_holds x y p
  | Some i => (exists p, In p (map fst cs) /\ box_holds x y p) /\
      exists p0 v0 d0, nth_error (map fst cs) 0 = Some p0 /\ nth_error p0 0 = Some v0 /\ (d0 == (fst v0 - x) * (fst v0 - x) + (snd v0 - y) * (snd v0 - y))%Q /\
      ((i = 0 /\ forall p v d, In p (map fst cs) -> box_holds x y p -> In v p -> gap2 x y v d -> (d0 <= d)%Q) \/
       (exists d, nearest_of x y (map fst cs) i d /\ (d < d0)%Q))
  end.
Proof.
  intros ls level cs x y L W. rewrite (nearest_pure ls level cs x y L) by (intros c I; apply W; exact I). eexists. split; [reflexivity|].
  destruct cs as [|c0 cs0] eqn:EC; [intros p []|]. rewrite <- EC in *. assert (I0 : In c0 cs) by (rewrite EC; left; reflexivity).
  destruct (fst c0) as [|v0 vs0] eqn:E0. { exfalso. apply (proj2 (W c0 I0)). exact E0. }
  cbv zeta. set (g := sum_list (firstn level (map (@length kept) ls))). set (d0 := ((fst v0 - x) * (fst v0 - x) + (snd v0 - y) * (snd v0 - y))%Q).
  destruct (ctrs x y g cs false (d0, g)) as [fd [d r]] eqn:C. apply ctrs_spec in C as [F R]. cbn [fst snd].
  assert (OB : forall c, In c cs -> (out_box x y c = false <-> box_holds x y (fst c))).
  { intros [p b] I. apply out_box_spec. apply (proj1 (W _ I)). }
  assert (HH : (exists p, In p (map fst cs) /\ box_holds x y p) <-> (exists c, In c cs /\ out_box x y c = false)).
  { split; [intros (p & I & B); apply in_map_iff in I as (c & <- & I); exists c; split; [exact I|apply OB; assumption]|].
    intros (c & I & O). exists (fst c). split; [apply in_map; exact I|apply OB; assumption]. }
  destruct fd.
  - assert (FT : exists p, In p (map fst cs) /\ box_holds x y p). { apply HH. destruct (proj1 F eq_refl) as [E|E]; [discriminate E|exact E]. }
    split; [exact FT|]. exists (fst c0), v0, d0. split; [rewrite EC; reflexivity|]. split; [rewrite E0; reflexivity|]. split; [reflexivity|].
    destruct R as [[E R]|(i & c & v & E & I & N & V & D & LT & R)].
    + left. injection E as -> ->. split; [apply Nat.sub_diag|]. intros p v e I B V G. apply in_map_iff in I as (c & <- & I).
      rewrite (gap2_unique _ _ _ _ _ G (gap_of_spec x y c v)). apply R; [exact I|apply OB; assumption|exact V].
    + right. exists d. split; [|exact LT]. rewrite E, Nat.add_comm, Nat.add_sub. split.
      * exists (fst c), v. split; [rewrite nth_error_map, I; reflexivity|]. split; [apply OB; [apply nth_error_In in I; exact I|exact N]|]. split; [exact V|]. rewrite D. apply gap_of_spec.
      * intros j p w e J B Iw G. rewrite nth_error_map in J. destruct (nth_error cs j) as [c'|] eqn:J'; [|discriminate J]. cbn [option_map] in J. apply Some_inj in J. subst p.
        pose proof (nth_error_In _ _ J') as IC. destruct (R j c' w J' (proj2 (OB c' IC) B) Iw) as [R1 R2]. rewrite (gap2_unique _ _ _ _ _ G (gap_of_spec x y c' w)). split; assumption.
  - intros p I B. assert (X : false = true); [|discriminate X]. apply F. right. apply HH. exists p. split; assumption.
Qed.
