(** Lemmas on meshed particles, on contours inside contours and on convexity. *)
From Coq Require Import List Arith ZArith QArith Qabs Qround Bool Lia Lqa Sorting.Sorted.
From Verif Require Import Base Corr_model Obs_model Qaux TrackObs_more Poly_model Poly_spec Poly_wind Poly_area Poly_pairs.
Import ListNotations.
Local Close Scope Q_scope.
Local Open Scope nat_scope.

(** ** Mesh *)
Lemma qn_S : forall j, (qn (S j) == qn j + 1)%Q.
Proof. intros. unfold qn. rewrite Nat2Z.inj_succ. unfold Z.succ. rewrite inject_Z_plus. reflexivity. Qed.
Lemma qn_pos : forall j, (0 <= qn j)%Q.
Proof. intros. unfold qn. change 0%Q with (inject_Z 0). rewrite <- Zle_Qle. lia. Qed.
Lemma inside_comp : forall poly p q, same p q -> inside poly p -> inside poly q.
Proof. intros poly p q S I. unfold inside in *. rewrite <- (winding_comp p q poly S). exact I. Qed.
Lemma inside_bool : forall poly p, negb (winding_number_poly p poly =? 0)%Z = true <-> inside poly p.
Proof. intros. unfold inside. rewrite negb_true_iff, Z.eqb_neq. reflexivity. Qed.

Lemma mesh_column_spec : forall fuel v x y ymax step out, (0 < step)%Q -> mesh_column fuel v x y ymax step = Some out ->
  (forall p, In p out -> fst p = x /\ (exists j, snd p == y + qn j * step)%Q /\ inside v p) /\
  (forall j, (y + qn j * step <= ymax)%Q -> inside v (x, y + qn j * step)%Q -> exists p, In p out /\ same p (x, y + qn j * step)%Q) /\
  StronglySorted before out.
Proof.
  induction fuel as [|fuel IH]; intros v x y ymax step out P H; cbn [mesh_column] in H; [discriminate|].
  destruct (Qle_bool_iff' y ymax) as [L|L].
  - destruct (mesh_column fuel v x (y + step) ymax step) as [rest|] eqn:E; cbn [bind] in H; [|discriminate]. destruct (IH _ _ _ _ _ _ P E) as (A & B & C). clear IH E.
    assert (A' : forall p, In p rest -> fst p = x /\ (exists j, snd p == y + qn (S j) * step)%Q /\ inside v p).
    { intros p I. destruct (A p I) as (A1 & (j & A2) & A3). split; [exact A1|]. split; [|exact A3]. exists j. rewrite A2, qn_S. ring. }
    assert (B' : forall j, (y + qn (S j) * step <= ymax)%Q -> inside v (x, y + qn (S j) * step)%Q -> exists p, In p rest /\ same p (x, y + qn (S j) * step)%Q).
    { intros j L1 I1. assert (E : (y + qn (S j) * step == y + step + qn j * step)%Q) by (rewrite qn_S; ring). destruct (B j) as (p & Ip & Sp); [lra| |].
      - apply (inside_comp v (x, y + qn (S j) * step)%Q); [split; [reflexivity|exact E]|exact I1].
      - exists p. split; [exact Ip|]. destruct Sp as [S1 S2]. split; [exact S1|]. rewrite S2. cbn [snd]. lra. }
    assert (Z : (y + qn 0 * step == y)%Q) by (unfold qn; cbn; ring).
    destruct (negb (winding_number_poly (x, y) v =? 0)%Z) eqn:W; apply Some_inj in H; subst out.
    + apply inside_bool in W. split; [|split].
      * intros p [<-|I]; [split; [reflexivity|]; split; [exists 0; cbn [snd]; lra|exact W]|]. destruct (A' p I) as (A1 & (j & A2) & A3). split; [exact A1|]. split; [exists (S j); exact A2|exact A3].
      * intros [|j] L1 I1; [exists (x, y); split; [left; auto|split; [reflexivity|cbn [snd]; lra]]|]. destruct (B' j L1 I1) as (p & Ip & Sp). exists p. split; [right; auto|exact Sp].
      * constructor; [exact C|]. apply Forall_forall. intros p I. destruct (A' p I) as (A1 & (j & A2) & _). right. cbn [fst snd]. rewrite A1, A2. split; [reflexivity|]. pose proof (qn_pos j). rewrite qn_S. nra.
    + split; [|split; [|exact C]].
      * intros p I. destruct (A' p I) as (A1 & (j & A2) & A3). split; [exact A1|]. split; [exists (S j); exact A2|exact A3].
      * intros [|j] L1 I1; [|apply B'; auto]. exfalso. apply (inside_comp v _ (x, y)) in I1; [|split; [reflexivity|exact Z]]. apply inside_bool in I1. congruence.
  - injection H as <-. split; [intros p []|]. split; [|constructor]. intros j L1. exfalso. apply L. pose proof (qn_pos j). nra.
Qed.
Lemma sorted_app : forall (a b : list point), StronglySorted before a -> StronglySorted before b -> (forall p q, In p a -> In q b -> before p q) -> StronglySorted before (a ++ b).
Proof.
  induction a as [|x a IH]; intros b SA SB H; [exact SB|]. inversion SA; subst. cbn [app]. constructor.
  - apply IH; auto. intros p q I J. apply H; auto. right; auto.
  - apply Forall_forall. intros q I. apply in_app_iff in I as [I|I]; [rewrite Forall_forall in *; auto|apply H; auto; left; auto].
Qed.
Lemma mesh_rows_spec : forall fuel v x y xmax ymax step out, (0 < step)%Q -> mesh_rows fuel v x y xmax ymax step = Some out ->
  (forall p, In p out -> (exists i, fst p == x + qn i * step)%Q /\ (exists j, snd p == y + qn j * step)%Q /\ inside v p) /\
  (forall i j, (x + qn i * step <= xmax)%Q -> (y + qn j * step <= ymax)%Q -> inside v (x + qn i * step, y + qn j * step)%Q -> exists p, In p out /\ same p (x + qn i * step, y + qn j * step)%Q) /\
  StronglySorted before out.
Proof.
  induction fuel as [|fuel IH]; intros v x y xmax ymax step out P H; cbn [mesh_rows] in H; [discriminate|].
  destruct (Qle_bool_iff' x xmax) as [L|L].
  - destruct (mesh_column (S fuel) v x y ymax step) as [col|] eqn:EC; cbn [bind] in H; [|discriminate].
    destruct (mesh_rows fuel v (x + step) y xmax ymax step) as [rest|] eqn:E; cbn [bind] in H; [|discriminate]. apply Some_inj in H. subst out. destruct (IH _ _ _ _ _ _ _ P E) as (A & B & C). clear IH E.
    destruct (mesh_column_spec _ _ _ _ _ _ _ P EC) as (A0 & B0 & C0).
    assert (A' : forall p, In p rest -> exists i, (fst p == x + qn (S i) * step)%Q).
    { intros p I. destruct (A p I) as ((i & A1) & _). exists i. rewrite A1, qn_S. ring. }
    split; [|split].
    + intros p I. apply in_app_iff in I as [I|I].
      * destruct (A0 p I) as (A1 & A2 & A3). split; [exists 0; rewrite A1; unfold qn; cbn; ring|auto].
      * destruct (A p I) as (_ & A2 & A3). destruct (A' p I) as (i & A1). split; [exists (S i); exact A1|auto].
    + intros [|i] j L1 L2 I.
      * assert (E : same (x + qn 0 * step, y + qn j * step)%Q (x, y + qn j * step)%Q) by (split; [unfold qn; cbn; ring|reflexivity]).
        destruct (B0 j L2) as (p & Ip & S1 & S2); [eapply inside_comp; eauto|]. exists p. split; [apply in_or_app; auto|]. split; [rewrite S1; symmetry; apply E|exact S2].
      * assert (E : same (x + qn (S i) * step, y + qn j * step)%Q (x + step + qn i * step, y + qn j * step)%Q) by (split; [cbn [fst]; rewrite qn_S; ring|reflexivity]).
        destruct (B i j) as (p & Ip & S1 & S2); [destruct E as [E _]; cbn [fst] in E; lra|exact L2|eapply inside_comp; eauto|]. exists p. split; [apply in_or_app; auto|]. split; [rewrite S1; symmetry; apply E|exact S2].
    + apply sorted_app; auto. intros p q I J. left. destruct (A0 p I) as (A1 & _). destruct (A' q J) as (i & A2). rewrite A1, A2, qn_S. pose proof (qn_pos i). nra.
  - injection H as <-. split; [intros p []|]. split; [|constructor]. intros i j L1. exfalso. apply L. pose proof (qn_pos i). nra.
Qed.
Lemma lattice_start : forall x step, (0 < step)%Q -> exists m : Z, (x - Qmod x step == inject_Z m * step)%Q /\ (inject_Z m * step <= x)%Q.
Proof.
  intros x step P. exists (Qfloor (x / step)). unfold Qmod. split; [ring|]. destruct (Qfloor_bounds (x / step)) as [H _]. apply (Qmult_le_compat_r _ _ step) in H; [|lra].
  setoid_replace (x / step * step)%Q with x in H by (field; lra). exact H.
Qed.
Lemma inside_box : forall poly p x0 x1 y0 y1, bbox poly = Some (x0, x1, y0, y1) -> inside poly p -> (x0 <= fst p <= x1 /\ y0 <= snd p <= y1)%Q.
Proof.
  intros poly p x0 x1 y0 y1 B I. destruct (bbox_spec _ _ _ _ _ B) as (R & _). 
  assert (H : ~ outside_box poly p) by (intros O; apply I, winding_outside, O).
  split; split; apply Qnot_lt_le; intros X; apply H.
  - left. intros v V. destruct (R v V). lra.
  - right. left. intros v V. destruct (R v V). lra.
  - right. right. left. intros v V. destruct (R v V). lra.
  - right. right. right. intros v V. destruct (R v V). lra.
Qed.
Lemma inside_reduce : forall poly l p, reduce_size poly = Some l -> (inside l p <-> inside poly p).
Proof. intros. unfold inside. rewrite (winding_reduce p poly l); [reflexivity|auto]. Qed.
Lemma mesh_contour_spec : forall fuel poly step out, (0 < step)%Q -> mesh_contour fuel poly step = Some out ->
  (forall p, In p out -> (exists a b, same p (inject_Z a * step, inject_Z b * step)%Q) /\ inside poly p) /\
  (forall a b, inside poly (inject_Z a * step, inject_Z b * step)%Q -> exists p, In p out /\ same p (inject_Z a * step, inject_Z b * step)%Q) /\
  StronglySorted before out.
Proof.
  intros fuel poly step out P H. unfold mesh_contour in H. destruct (reduce_size poly) as [l|] eqn:R; cbn [bind] in H; [|discriminate]. destruct (bbox poly) as [[[[x0 x1] y0] y1]|] eqn:B; cbn [bind] in H; [|discriminate].
  destruct (mesh_rows_spec _ _ _ _ _ _ _ _ P H) as (A1 & A2 & A3). clear H. destruct (lattice_start x0 step P) as (m & M1 & M2). destruct (lattice_start y0 step P) as (n & N1 & N2).
  split; [|split; [|exact A3]].
  - intros p I. destruct (A1 p I) as ((i & I1) & (j & J1) & IN). split; [|apply (inside_reduce poly l p R); exact IN]. exists (m + Z.of_nat i)%Z, (n + Z.of_nat j)%Z. split; cbn [fst snd]; rewrite inject_Z_plus; [rewrite I1, M1|rewrite J1, N1]; unfold qn; ring.
  - intros a b IN. pose proof (inside_box _ _ _ _ _ _ B IN) as ((X1 & X2) & (Y1 & Y2)). cbn [fst snd] in *.
    assert (LM : (m <= a)%Z). { rewrite Zle_Qle. apply Qmult_lt_0_le_reg_r with step; [exact P|lra]. }
    assert (LN : (n <= b)%Z). { rewrite Zle_Qle. apply Qmult_lt_0_le_reg_r with step; [exact P|lra]. }
    assert (EX : (x0 - Qmod x0 step + qn (Z.to_nat (a - m)) * step == inject_Z a * step)%Q) by (rewrite M1; unfold qn; rewrite Z2Nat.id by lia; rewrite inject_Z_minus; ring).
    assert (EY : (y0 - Qmod y0 step + qn (Z.to_nat (b - n)) * step == inject_Z b * step)%Q) by (rewrite N1; unfold qn; rewrite Z2Nat.id by lia; rewrite inject_Z_minus; ring).
    destruct (A2 (Z.to_nat (a - m)) (Z.to_nat (b - n))) as (p & Ip & S1 & S2); [lra|lra| |].
    + apply (inside_reduce poly l _ R). eapply inside_comp; [|exact IN]. split; cbn [fst snd]; symmetry; assumption.
    + exists p. split; [exact Ip|]. split; cbn [fst snd] in *; lra.
Qed.
(** Enough fuel. *)
Lemma mesh_column_total : forall n v x y ymax step, (0 < step)%Q -> (ymax < y + qn n * step)%Q -> forall fuel, n < fuel -> exists out, mesh_column fuel v x y ymax step = Some out.
Proof.
  induction n as [|n IH]; intros v x y ymax step P L fuel F; (destruct fuel as [|fuel]; [lia|]); cbn [mesh_column]; (destruct (Qle_bool_iff' y ymax); [|eexists; reflexivity]).
  - exfalso. assert (qn 0 * step == 0)%Q by (unfold qn; cbn; ring). lra.
  - destruct (IH v x (y + step)%Q ymax step P) with (fuel := fuel) as [out ->]; [rewrite qn_S in L; lra|lia|]. cbn [bind]. destruct (negb _); eexists; reflexivity.
Qed.
Lemma mesh_rows_total : forall n m v x y xmax ymax step, (0 < step)%Q -> (xmax < x + qn n * step)%Q -> (ymax < y + qn m * step)%Q -> forall fuel, n + m < fuel -> exists out, mesh_rows fuel v x y xmax ymax step = Some out.
Proof.
  induction n as [|n IH]; intros m v x y xmax ymax step P L L' fuel F; (destruct fuel as [|fuel]; [lia|]); cbn [mesh_rows]; (destruct (Qle_bool_iff' x xmax); [|eexists; reflexivity]).
  - exfalso. assert (qn 0 * step == 0)%Q by (unfold qn; cbn; ring). lra.
  - destruct (mesh_column_total m v x y ymax step P L' (S fuel)) as [col ->]; [lia|]. cbn [bind]. destruct (IH m v (x + step)%Q y xmax ymax step P) with (fuel := fuel) as [out ->]; [rewrite qn_S in L; lra|exact L'|lia|]. eexists. reflexivity.
Qed.
Lemma enough_steps : forall x xmax step, (0 < step)%Q -> exists n, (xmax < x + qn n * step)%Q.
Proof.
  intros x xmax step P. exists (Z.to_nat (Z.max 0 (Qfloor ((xmax - x) / step) + 1))). destruct (Qfloor_bounds ((xmax - x) / step)) as [_ H].
  assert (E : ((xmax - x) / step * step == xmax - x)%Q) by (field; lra). unfold qn. rewrite Z2Nat.id by lia.
  assert (G : (inject_Z (Qfloor ((xmax - x) / step)) + 1 <= inject_Z (Z.max 0 (Qfloor ((xmax - x) / step) + 1)))%Q) by (change 1%Q with (inject_Z 1); rewrite <- inject_Z_plus, <- Zle_Qle; lia).
  set (f := inject_Z (Z.max 0 (Qfloor ((xmax - x) / step) + 1))) in *. set (g := inject_Z (Qfloor ((xmax - x) / step))) in *. clearbody f g. nra.
Qed.
Lemma mesh_contour_total : forall poly step, (0 < step)%Q -> (exists p q, In p poly /\ In q poly /\ ~ same p q) -> exists n, forall fuel, n < fuel -> exists out, mesh_contour fuel poly step = Some out.
Proof.
  intros poly step P (p & q & Ip & Iq & D). unfold mesh_contour. destruct poly as [|first r]; [destruct Ip|].
  pose proof (reduce_size_spec first r) as R. destruct (reduce_size (first :: r)) as [l|] eqn:E.
  - destruct (bbox_total (first :: r)) as [[[[x0 x1] y0] y1] B]; [discriminate|]. rewrite B. cbn [bind].
    destruct (enough_steps (x0 - Qmod x0 step) x1 step P) as [n N]. destruct (enough_steps (y0 - Qmod y0 step) y1 step P) as [m M].
    exists (n + m). intros fuel F. apply (mesh_rows_total n m); auto.
  - exfalso. apply D. assert (A : forall v, In v (first :: r) -> same v first) by (intros v [<-|I]; [apply same_refl|auto]). destruct (A p Ip) as [P1 P2], (A q Iq) as [Q1 Q2]. split; lra.
Qed.
Lemma In_numbered : forall {T} (l : list (list T)) k p i, In (p, i) (concat (map (fun a : nat * list T => map (fun x => (x, fst a)) (snd a)) (combine (seq k (length l)) l))) <-> k <= i /\ exists c, nth_error l (i - k) = Some c /\ In p c.
Proof.
  induction l as [|c l IH]; intros k p i; cbn [length seq combine map concat fst snd].
  - split; [intros []|]. intros (_ & c & N & _). destruct (i - k); discriminate.
  - rewrite in_app_iff, IH, in_map_iff. split.
    + intros [(x & E & I)|(L & c' & N & I)]; [injection E as -> ->; split; [lia|]; exists c; rewrite Nat.sub_diag; auto|]. split; [lia|]. exists c'. replace (i - k) with (S (i - S k)) by lia. auto.
    + intros (L & c' & N & I). destruct (Nat.eq_dec i k) as [->|D]; [left; rewrite Nat.sub_diag in N; cbn in N; injection N as ->; exists p; auto|]. right. split; [lia|]. exists c'. replace (i - k) with (S (i - S k)) in N by lia. auto.
Qed.
Lemma numbered_sorted : forall (l : list (list point)) k, (forall c, In c l -> StronglySorted before c) -> StronglySorted before_in (concat (map (fun a : nat * list point => map (fun x => (x, fst a)) (snd a)) (combine (seq k (length l)) l))).
Proof.
  induction l as [|c l IH]; intros k H; [constructor|]. cbn [length seq combine map concat fst snd].
  assert (A : forall (a b : list (point * nat)), StronglySorted before_in a -> StronglySorted before_in b -> (forall p q, In p a -> In q b -> before_in p q) -> StronglySorted before_in (a ++ b)).
  { induction a as [|x a IHa]; intros b SA SB G; [exact SB|]. inversion SA; subst. cbn [app]. constructor; [apply IHa; auto; intros; apply G; auto; right; auto|]. apply Forall_forall. intros q I. apply in_app_iff in I as [I|I]; [rewrite Forall_forall in *; auto|apply G; auto; left; auto]. }
  apply A.
  - specialize (H c (or_introl eq_refl)). induction H as [|x c H1 IH1 H2]; [constructor|]. cbn [map]. constructor; auto. apply Forall_forall. intros q I. apply in_map_iff in I as (y & <- & I). right. cbn [fst snd]. split; [reflexivity|]. rewrite Forall_forall in H2. auto.
  - apply IH. intros; apply H; right; auto.
  - intros p [q j] I J. apply in_map_iff in I as (x & <- & I). apply In_numbered in J as (J & _). left. cbn [snd]. lia.
Qed.
Lemma sequence_map_nth : forall {A B} (f : A -> option B) l r, sequence (map f l) = Some r -> length r = length l /\ forall i a, nth_error l i = Some a -> exists b, nth_error r i = Some b /\ f a = Some b.
Proof.
  intros A B f l r E. destruct (sequence_nth _ _ E) as [L N]. rewrite map_length in L. split; [exact L|]. intros i a I. specialize (N i). rewrite (map_nth_error f _ _ I) in N. destruct (nth_error r i) as [b|]; [|discriminate]. injection N as ->. exists b. auto.
Qed.
Lemma sequence_map_total : forall {A B} (f : A -> option B) l, (forall a, In a l -> exists b, f a = Some b) -> exists r, sequence (map f l) = Some r.
Proof.
  induction l as [|a l IH]; intros H; [exists []; reflexivity|]. destruct (H a (or_introl eq_refl)) as [b E]. destruct IH as [r R]; [intros; apply H; right; auto|]. exists (b :: r). cbn [map sequence]. rewrite E. cbn [bind]. rewrite R. reflexivity.
Qed.

(** ** Contour in a contour *)
Lemma contain_spec : forall out inn x0 x1 y0 y1 x0' x1' y0' y1', bbox out = Some (x0, x1, y0, y1) -> bbox inn = Some (x0', x1', y0', y1') -> (x1 - x0 < 180)%Q -> (x1' - x0' < 180)%Q ->
  exists b, poly_contain_poly out inn = Some b /\ (b = true <-> exists k, forall v, In v inn -> inside out (shift k v)).
Proof.
  intros out inn x0 x1 y0 y1 x0' x1' y0' y1' BO BI WO WI. destruct (bbox_spec _ _ _ _ _ BO) as (RO & _). destruct (bbox_spec _ _ _ _ _ BI) as (RI & _).
  destruct out as [|[xr yr] ro]; [discriminate|]. destruct inn as [|[xa ya] ri]; [discriminate|]. unfold poly_contain_poly. eexists. split; [reflexivity|].
  destruct (RO _ (or_introl eq_refl)) as [PO _]. cbn [fst] in PO. pose proof (RI _ (or_introl eq_refl)) as [PI _]. cbn [fst] in PI.
  cbv zeta. rewrite forallb_forall. destruct (Qlt_bool_iff' 180 (Qabs (xa - xr))) as [R|R].
  - split.
    + intros H. assert (T : forall v, In v ((xa, ya) :: ri) -> exists k, inside ((xr, yr) :: ro) (shift k v) /\ (x0 <= fst v + 360 * inject_Z k <= x1)%Q).
      { intros v I. specialize (H v I). apply inside_bool in H. destruct (Qmod_turn (fst v - xr + 180)) as (k & K & _). exists k.
        assert (S : same ((Qmod (fst v - xr + 180) 360 + xr - 180)%Q, snd v) (shift k v)) by (split; [cbn [fst shift]; rewrite K; ring|reflexivity]).
        pose proof (inside_comp _ _ _ S H) as H'. split; [exact H'|]. pose proof (inside_box _ _ _ _ _ _ BO H') as [B _]. exact B. }
      destruct (T _ (or_introl eq_refl)) as (k & K1 & K2). cbn [fst] in K2. exists k. intros v I. destruct (T v I) as (j & J1 & J2). destruct (RI v I) as [RV _].
      assert (E : (j - k = 0)%Z) by (apply no_turn; rewrite inject_Z_minus; lra). assert (E' : j = k) by lia. subst j. exact J1.
    + intros (k & K) v I. apply inside_bool. specialize (K v I). pose proof (inside_box _ _ _ _ _ _ BO K) as [B _]. cbn [fst shift] in B. destruct (Qmod_turn (fst v - xr + 180)) as (j & J & J1 & J2).
      assert (E : (j - k = 0)%Z) by (apply no_turn; rewrite inject_Z_minus; lra). assert (E' : j = k) by lia. subst j. eapply inside_comp; [|exact K]. split; [cbn [fst shift]; rewrite J; ring|reflexivity].
  - apply Qnot_lt_le, Qabs_Qle_condition in R. split.
    + intros H. exists 0%Z. intros v I. specialize (H v I). apply inside_bool in H. eapply inside_comp; [|exact H]. split; [cbn [fst shift]; change (inject_Z 0) with 0%Q; ring|reflexivity].
    + intros (k & K) v I. apply inside_bool. assert (E : k = 0%Z). { pose proof (inside_box _ _ _ _ _ _ BO (K _ (or_introl eq_refl))) as [B _]. cbn [fst shift] in B. apply no_turn; lra. } subst k. eapply inside_comp; [|exact (K v I)]. split; [cbn [fst shift]; change (inject_Z 0) with 0%Q; ring|reflexivity].
Qed.

(** ** Turns *)
Lemma convex_loop_spec : forall rest ref p1 p2, convex_loop ref p1 p2 rest = true <-> forall i, i < length rest -> is_left (nth i (p1 :: p2 :: rest) (0, 0)%Q) (nth i (p2 :: rest) (0, 0)%Q) (nth i rest (0, 0)%Q) = ref.
Proof.
  induction rest as [|p rest IH]; intros ref p1 p2; cbn [convex_loop length]; [split; [intros; lia|auto]|].
  destruct (Bool.eqb ref (is_left p1 p2 p)) eqn:E.
  - apply Bool.eqb_prop in E. rewrite IH. split.
    + intros H [|i] L; [cbn; auto|]. exact (H i ltac:(lia)).
    + intros H i L. exact (H (S i) ltac:(lia)).
  - split; [discriminate|]. intros H. specialize (H 0 ltac:(lia)). cbn in H. apply Bool.eqb_false_iff in E. congruence.
Qed.
Lemma mod_wrap : forall i n, n <= i < 2 * n -> i mod n = i - n.
Proof. intros i n H. symmetry. apply (Nat.mod_unique i n 1); lia. Qed.
Lemma convex_spec : forall a b m, exists c, convex ((a :: b :: m) ++ [a]) = Some c /\
  (c = true <-> ((forall i, i < length (a :: b :: m) -> (0 < turn (a :: b :: m) i)%Q) \/ (forall i, i < length (a :: b :: m) -> (turn (a :: b :: m) i <= 0)%Q))).
Proof.
  intros a b m. set (l := a :: b :: m). set (n := length l). assert (N2 : 2 <= n) by (unfold n, l; cbn; lia).
  set (o := (0, 0)%Q). unfold convex.
  assert (LP : length (l ++ [a]) = n + 1) by (rewrite app_length; reflexivity).
  assert (G1 : pyget (l ++ [a]) (-1) = Some a).
  { unfold pyget, pyidx. rewrite LP. change (0 <=? -1)%Z with false. cbv iota. replace (- Z.of_nat (n + 1) <=? -1)%Z with true by (symmetry; apply Z.leb_le; lia). replace (Z.to_nat (-1 + Z.of_nat (n + 1))) with (length l) by (fold n; lia). cbn [bind]. apply nth_middle. }
  assert (G2 : pyget (l ++ [a]) (-2) = Some (nth (n - 1) l o)).
  { unfold pyget, pyidx. rewrite LP. change (0 <=? -2)%Z with false. cbv iota. replace (- Z.of_nat (n + 1) <=? -2)%Z with true by (symmetry; apply Z.leb_le; lia). replace (Z.to_nat (-2 + Z.of_nat (n + 1))) with (n - 1) by lia. cbn [bind]. rewrite nth_error_app1 by (fold n; lia). apply nth_error_nth'. fold n. lia. }
  assert (G3 : pyget (l ++ [a]) 1 = Some b) by exact (pyget_of_nat (l ++ [a]) 1).
  rewrite G1, G2, G3. cbn [bind]. eexists. split; [reflexivity|].
  change (skipn 2 (l ++ [a])) with (m ++ [a]). rewrite convex_loop_spec.
  assert (LM : length (m ++ [a]) = n - 1) by (rewrite app_length; unfold n, l; cbn; lia). rewrite LM.
  assert (NP : forall i, i <= n -> nth i (l ++ [a]) o = nth (i mod n) l o).
  { intros i L. destruct (Nat.eq_dec i n) as [->|D]; [rewrite Nat.mod_same by lia; rewrite app_nth2 by (fold n; lia); fold n; rewrite Nat.sub_diag; reflexivity|]. rewrite Nat.mod_small by lia. apply app_nth1. fold n. lia. }
  assert (T : forall i, i < n - 1 -> is_left (nth i (a :: b :: m ++ [a]) o) (nth i (b :: m ++ [a]) o) (nth i (m ++ [a]) o) = Qlt_bool 0 (turn l i)).
  { intros i L. unfold turn. fold n o. rewrite is_left_orient. change (nth i (a :: b :: m ++ [a]) o) with (nth i (l ++ [a]) o). change (nth i (b :: m ++ [a]) o) with (nth (S i) (l ++ [a]) o). change (nth i (m ++ [a]) o) with (nth (S (S i)) (l ++ [a]) o).
    rewrite (NP i), (NP (S i)), (NP (S (S i))) by lia. rewrite (Nat.mod_small i n) by lia. replace (i + 1) with (S i) by lia. replace (i + 2) with (S (S i)) by lia. reflexivity. }
  assert (T0 : is_left (nth (n - 1) l o) a b = Qlt_bool 0 (turn l (n - 1))).
  { unfold turn. fold n o. rewrite is_left_orient. rewrite (mod_wrap (n - 1 + 1) n), (mod_wrap (n - 1 + 2) n) by lia. replace (n - 1 + 1 - n) with 0 by lia. replace (n - 1 + 2 - n) with 1 by lia. reflexivity. }
  rewrite T0. split.
  - intros H. destruct (Qlt_bool 0 (turn l (n - 1))) eqn:E; [left|right]; intros i L; (destruct (Nat.eq_dec i (n - 1)) as [->|D]; [|assert (L' : i < n - 1) by lia; specialize (H i L'); fold o in H; rewrite (T i L') in H]); try (apply Qlt_bool_iff; assumption); apply Qlt_bool_false; assumption.
  - intros H i L. fold o. rewrite (T i L). destruct H as [H|H].
    + rewrite (proj2 (Qlt_bool_iff _ _) (H i ltac:(lia))). symmetry. apply Qlt_bool_iff. apply H. lia.
    + rewrite (proj2 (Qlt_bool_false _ _) (H i ltac:(lia))). symmetry. apply Qlt_bool_false. apply H. lia.
Qed.
