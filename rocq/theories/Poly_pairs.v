(** Lemmas on the pairs of contours. *)
From Coq Require Import List Arith ZArith QArith Qabs Qround Bool Lia Lqa.
From Verif Require Import Base Corr_model Obs_model Solver_proofs Obs_align Qaux Net_links Poly_model Poly_spec Poly_wind.
Import ListNotations.
Local Close Scope Q_scope.
Local Open Scope nat_scope.

(** ** Nested loops *)
Section Rows.
  Context {T : Type}.
  Variable f : nat -> T -> list (nat * nat).
  Definition rows (k : nat) (l : list T) : list (nat * nat) := concat (map (fun x => f (fst x) (snd x)) (combine (seq k (length l)) l)).
  Lemma rows_In : forall l k p, In p (rows k l) <-> exists i a, nth_error l i = Some a /\ In p (f (k + i) a).
  Proof.
    induction l as [|x l IH]; intros k p; unfold rows; cbn [length seq combine map concat fst snd].
    - split; [intros []|]. intros (i & a & N & _). destruct i; discriminate.
    - rewrite in_app_iff. fold (rows (S k) l). rewrite IH. split.
      + intros [H|(i & a & N & H)]; [exists 0, x; rewrite Nat.add_0_r; auto|]. exists (S i), a. split; [exact N|]. replace (k + S i) with (S k + i) by lia. exact H.
      + intros ([|i] & a & N & H); [left; cbn in N; injection N as <-; rewrite Nat.add_0_r in H; auto|right; exists i, a; split; [exact N|]; replace (S k + i) with (k + S i) by lia; exact H].
  Qed.
  Lemma rows_lex : (forall i a, lex_sorted (f i a)) -> (forall i a p, In p (f i a) -> fst p = i) -> forall l k, lex_sorted (rows k l).
  Proof.
    intros S F. induction l as [|x l IH]; intros k; [constructor|]. unfold rows. cbn [length seq combine map concat fst snd]. fold (rows (Datatypes.S k) l). apply lex_sorted_app; auto.
    intros p q P Q. apply F in P. apply rows_In in Q as (i & a & _ & Q). apply F in Q. left. lia.
  Qed.
  Lemma cols_lex : forall i0, (forall j a p, In p (f j a) -> p = (i0, j)) -> (forall j a, lex_sorted (f j a)) -> forall l k, lex_sorted (rows k l).
  Proof.
    intros i0 F S. induction l as [|x l IH]; intros k; [constructor|]. unfold rows. cbn [length seq combine map concat fst snd]. fold (rows (Datatypes.S k) l). apply lex_sorted_app; auto.
    intros p q P Q. apply F in P. apply rows_In in Q as (i & a & _ & Q). apply F in Q. subst. right. cbn. lia.
  Qed.
End Rows.
Lemma lex_one : forall p, lex_sorted [p]. Proof. intros. constructor; [intros b []|constructor]. Qed.
Definition test_pairs {A B : Type} (t : A -> B -> bool) (l0 : list A) (l1 : list B) : list (nat * nat) :=
  rows (fun i a => rows (fun j b => if t a b then [(i, j)] else []) 0 l1) 0 l0.
Lemma test_pairs_spec : forall {A B} (t : A -> B -> bool) l0 l1, lex_sorted (test_pairs t l0 l1) /\
  forall i j, In (i, j) (test_pairs t l0 l1) <-> exists a b, nth_error l0 i = Some a /\ nth_error l1 j = Some b /\ t a b = true.
Proof.
  intros A B t l0 l1. split.
  - apply rows_lex.
    + intros i a. apply (cols_lex _ i); [intros j b p|intros j b]; destruct (t a b); [intros [<-|[]]; auto|intros []|apply lex_one|constructor].
    + intros i a p H. apply rows_In in H as (j & b & _ & H). destruct (t a b); [|destruct H]. destruct H as [<-|[]]. reflexivity.
  - intros i j. unfold test_pairs. rewrite rows_In. split.
    + intros (i' & a & N & H). rewrite rows_In in H. destruct H as (j' & b & M & H). cbn [Nat.add] in H. destruct (t a b) eqn:E; [|destruct H]. destruct H as [H|[]]. injection H as -> ->. exists a, b. auto.
    + intros (a & b & N & M & H). exists i, a. split; [exact N|]. rewrite rows_In. exists j, b. split; [exact M|]. cbn [Nat.add]. rewrite H. left. reflexivity.
Qed.

(** ** Boxes *)
Lemma bbox_spec : forall poly x0 x1 y0 y1, bbox poly = Some (x0, x1, y0, y1) ->
  (forall v, In v poly -> (x0 <= fst v <= x1 /\ y0 <= snd v <= y1)%Q) /\
  (exists v, In v poly /\ fst v = x0) /\ (exists v, In v poly /\ fst v = x1) /\ (exists v, In v poly /\ snd v = y0) /\ (exists v, In v poly /\ snd v = y1).
Proof.
  intros [|[x y] r] x0 x1 y0 y1 H; [discriminate|]. unfold bbox in H. injection H as <- <- <- <-.
  destruct (qmin_from_spec (map fst r) x) as [A1 A2]. destruct (qmax_from_spec (map fst r) x) as [B1 B2]. destruct (qmin_from_spec (map snd r) y) as [C1 C2]. destruct (qmax_from_spec (map snd r) y) as [D1 D2].
  change (x :: map fst r) with (map fst ((x, y) :: r)) in *. change (y :: map snd r) with (map snd ((x, y) :: r)) in *.
  split.
  - intros v I. pose proof (in_map fst _ _ I) as I1. pose proof (in_map snd _ _ I) as I2. auto.
  - apply in_map_iff in A1 as (v1 & E1 & I1), B1 as (v2 & E2 & I2), C1 as (v3 & E3 & I3), D1 as (v4 & E4 & I4).
    split; [exists v1; auto|]. split; [exists v2; auto|]. split; [exists v3; auto|exists v4; auto].
Qed.
Lemma bbox_total : forall poly, poly <> [] -> exists b, bbox poly = Some b.
Proof. intros [|[x y] r] H; [contradiction|]. eexists. reflexivity. Qed.

Lemma inject_Z_minus : forall a b, (inject_Z (a - b) == inject_Z a - inject_Z b)%Q.
Proof. intros. unfold Z.sub. rewrite inject_Z_plus, inject_Z_opp. reflexivity. Qed.
(** A turn is decided by an interval of length 360. *)
Lemma no_turn : forall k, (-360 < 360 * inject_Z k -> 360 * inject_Z k < 360 -> k = 0%Z)%Q.
Proof. intros k A B. assert (inject_Z (-1) < inject_Z k)%Q by (change (inject_Z (-1)) with (-1)%Q; lra). assert (inject_Z k < inject_Z 1)%Q by (change (inject_Z 1) with 1%Q; lra). rewrite <- Zlt_Qlt in *. lia. Qed.
Lemma pos_turn : forall k, k <> 0%Z -> (360 <= 360 * inject_Z k \/ 360 * inject_Z k <= -360)%Q.
Proof.
  intros k H. destruct (Z.lt_ge_cases k 0); [right|left].
  - assert (inject_Z k <= inject_Z (-1))%Q by (rewrite <- Zle_Qle; lia). change (inject_Z (-1)) with (-1)%Q in *. lra.
  - assert (inject_Z 1 <= inject_Z k)%Q by (rewrite <- Zle_Qle; lia). change (inject_Z 1) with 1%Q in *. lra.
Qed.
Lemma Qmod_turn : forall x, exists k, (Qmod x 360 == x + 360 * inject_Z k)%Q /\ (0 <= Qmod x 360 < 360)%Q.
Proof. intros x. destruct (Qmod_cong x 360) as [k K]. exists k. split; [lra|]. apply Qmod_range. reflexivity. Qed.

(** The boxes meet on the sphere: some turns bring one on the other. *)
Lemma boxes_meet_spec : forall x0 x0' y0 y0' x1 x1' y1 y1', (x0 <= x0' -> x1 <= x1' -> (x0' - x0) + (x1' - x1) < 180 ->
  (boxes_meet_code (x0, x0', y0, y0') (x1, x1', y1, y1') = true <-> boxes_meet (x0, x0', y0, y0') (x1, x1', y1, y1')))%Q.
Proof.
  intros x0 x0' y0 y0' x1 x1' y1 y1' W0 W1 W. unfold boxes_meet_code, boxes_meet.
  destruct (Qlt_bool_iff' y0' y1) as [H|H]; cbn [orb]; [split; [discriminate|intros (_ & A & B); lra]|].
  destruct (Qlt_bool_iff' y1' y0) as [H'|H']; cbn [orb]; [split; [discriminate|intros (_ & A & B); lra]|].
  cbv zeta. destruct (Qlt_bool_iff' 180 (Qabs (x0 - x1))) as [R|R].
  - destruct (Qmod_turn (x1 - (x0 - 180))) as (k & K & K1 & K2). destruct (Qmod_turn (x1' - (x0 - 180))) as (k' & K' & K1' & K2').
    set (m := Qmod (x1 - (x0 - 180)) 360) in *. set (m' := Qmod (x1' - (x0 - 180)) 360) in *. clearbody m m'. clear R.
    assert (D : k' = k \/ (m' == m + (x1' - x1) - 360)%Q).
    { assert (A : (inject_Z k' < inject_Z (k + 1))%Q) by (rewrite inject_Z_plus; change (inject_Z 1) with 1%Q; lra).
      assert (B : (inject_Z (k - 2) < inject_Z k')%Q) by (rewrite inject_Z_minus; change (inject_Z 2) with 2%Q; lra).
      rewrite <- Zlt_Qlt in A, B. destruct (Z.eq_dec k' k) as [|N]; [left; auto|right]. assert (E : k' = (k - 1)%Z) by lia. rewrite E, inject_Z_minus in K'. change (inject_Z 1) with 1%Q in K'. lra. }
    destruct (Qlt_bool_iff' x0' (m + (x0 - 180))) as [H1|H1]; cbn [orb].
    + split; [discriminate|]. intros ((j & J1 & J2) & _). exfalso. destruct (Z.eq_dec j k) as [->|N]; [lra|].
      destruct (pos_turn (j - k)) as [P|P]; [lia| |]; rewrite inject_Z_minus in P; lra.
    + destruct (Qlt_bool_iff' (m' + (x0 - 180)) x0) as [H2|H2].
      * split; [discriminate|]. intros ((j & J1 & J2) & _). exfalso. destruct (Z.eq_dec j k) as [->|N].
        { destruct D as [->|D]; lra. }
        destruct (pos_turn (j - k)) as [P|P]; [lia| |]; rewrite inject_Z_minus in P; lra.
      * split; [intros _|reflexivity]. split; [|lra]. destruct D as [->|D]; [exists k; lra|exfalso; lra].
  - assert (R' : (-180 <= x0 - x1 <= 180)%Q) by (apply Qnot_lt_le, Qabs_Qle_condition in R; lra). clear R.
    destruct (Qlt_bool_iff' x0' x1) as [H1|H1]; cbn [orb].
    + split; [discriminate|]. intros ((j & J1 & J2) & _). exfalso. destruct (Z.eq_dec j 0) as [->|N]; [change (inject_Z 0) with 0%Q in *; lra|]. destruct (pos_turn j N) as [P|P]; lra.
    + destruct (Qlt_bool_iff' x1' x0) as [H2|H2].
      * split; [discriminate|]. intros ((j & J1 & J2) & _). exfalso. destruct (Z.eq_dec j 0) as [->|N]; [change (inject_Z 0) with 0%Q in *; lra|]. destruct (pos_turn j N) as [P|P]; lra.
      * split; [intros _|reflexivity]. split; [|lra]. exists 0%Z. change (inject_Z 0) with 0%Q. lra.
Qed.

Lemma sequence_nth : forall {T} (l : list (option T)) r, sequence l = Some r -> length r = length l /\ forall i, nth_error l i = match nth_error r i with Some a => Some (Some a) | None => None end.
Proof.
  induction l as [|[a|] l IH]; intros r H; cbn [sequence] in H; try discriminate.
  - injection H as <-. split; auto. intros [|i]; reflexivity.
  - destruct (sequence l) as [r'|] eqn:E; cbn [bind] in H; [|discriminate]. injection H as <-. destruct (IH _ eq_refl) as [L N]. split; [cbn; lia|]. intros [|i]; [reflexivity|]. exact (N i).
Qed.
Lemma bbox_intersection_eq : forall l0 l1 b0 b1, sequence (map bbox l0) = Some b0 -> sequence (map bbox l1) = Some b1 -> bbox_intersection l0 l1 = Some (test_pairs boxes_meet_code b0 b1).
Proof.
  intros l0 l1 b0 b1 E0 E1. unfold bbox_intersection. rewrite E0, E1. cbn [bind]. f_equal. unfold test_pairs, rows. f_equal. apply map_ext. intros [i a]. cbn [fst snd].
  generalize 0. induction b1 as [|b b1 IH] in l1, E1 |- *; intros k; [reflexivity|].
  assert (IH' : forall k, map fst (filter (fun b => boxes_meet_code a (snd b)) (map (fun b => (i, fst b, snd b)) (combine (seq k (length b1)) b1))) = concat (map (fun x => if boxes_meet_code a (snd x) then [(i, fst x)] else []) (combine (seq k (length b1)) b1))).
  { clear. induction b1 as [|b b1 IH]; intros k; [reflexivity|]. cbn [length seq combine map filter fst snd concat]. destruct (boxes_meet_code a b); cbn [map app fst]; rewrite IH; reflexivity. }
  clear IH. cbn [length seq combine map filter fst snd concat]. destruct (boxes_meet_code a b); cbn [map app fst]; rewrite IH'; reflexivity.
Qed.

(** ** Change of turn of a contour *)
Lemma get_wrap_spec : forall p0 p1 b0 b1, bbox p0 = Some b0 -> bbox p1 = Some b1 ->
  let '(x0, x0', _, _) := b0 in let '(x1, x1', _, _) := b1 in
  ((x0' - x0) + (x1' - x1) < 180)%Q -> boxes_meet b0 b1 ->
  exists k l, get_wrap_vertice p0 p1 = Some l /\ Forall2 same l (map (shift k) p1) /\ (x0 <= x1' + 360 * inject_Z k)%Q /\ (x1 + 360 * inject_Z k <= x0')%Q.
Proof.
  intros p0 p1 [[[x0 x0'] y0] y0'] [[[x1 x1'] y1] y1'] B0 B1 W ((k & K1 & K2) & _).
  destruct (bbox_spec _ _ _ _ _ B0) as (R0 & _). destruct (bbox_spec _ _ _ _ _ B1) as (R1 & _).
  destruct p0 as [|[a0 c0] q0]; [discriminate|]. destruct p1 as [|[a1 c1] q1]; [discriminate|]. unfold get_wrap_vertice.
  destruct (R0 _ (or_introl eq_refl)) as [P0 _]. cbn [fst] in P0.
  assert (N : forall v, In v ((a1, c1) :: q1) -> (-180 < fst v + 360 * inject_Z k - a0 < 180)%Q) by (intros v I; destruct (R1 _ I) as [P1 _]; lra).
  destruct (Qlt_bool_iff' 180 (Qabs (a0 - a1))) as [R|R].
  - exists k. eexists. split; [reflexivity|]. split; [|auto]. enough (G : forall l : list point, (forall v, In v l -> (-180 < fst v + 360 * inject_Z k - a0 < 180)%Q) -> Forall2 same (map (fun p : point => ((Qmod (fst p - (a0 - 180)) 360 + (a0 - 180))%Q, snd p)) l) (map (shift k) l)) by (exact (G _ N)).
    clear. induction l as [|v l IH]; intros N; [constructor|]. cbn [map]. constructor; [|apply IH; intros; apply N; right; auto].
    split; [|reflexivity]. cbn [fst shift]. specialize (N v (or_introl eq_refl)). destruct (Qmod_turn (fst v - (a0 - 180))) as (j & J & J1 & J2). rewrite J. assert (E : (j - k = 0)%Z) by (apply no_turn; rewrite inject_Z_minus; lra). assert (E' : j = k) by lia. subst j. ring.
  - exists k, ((a1, c1) :: q1). split; [reflexivity|]. split; [|auto]. apply Qnot_lt_le, Qabs_Qle_condition in R.
    assert (E : k = 0%Z). { specialize (N _ (or_introl eq_refl)). cbn [fst] in N. apply no_turn; lra. } subst k.
    enough (G : forall l : list point, Forall2 same l (map (shift 0) l)) by apply G. induction l as [|v l IH]; constructor; auto. split; [cbn [shift fst]; change (inject_Z 0) with 0%Q; ring|reflexivity].
Qed.

(** ** Close centres *)
Definition close_code (delta : Q) (a b : point) : bool :=
  let d_x := (fst b - fst a)%Q in
  let d_x := if Qlt_bool 180 (Qabs d_x) then (Qmod (d_x + 180) 360 - 180)%Q else d_x in
  if Qlt_bool delta (Qabs d_x) then false else if Qlt_bool delta (Qabs (snd b - snd a)) then false else true.
Lemma close_center_eq : forall l0 l1 delta, close_center l0 l1 delta = test_pairs (close_code delta) l0 l1.
Proof.
  intros l0 l1 delta. unfold close_center, test_pairs, rows. f_equal. apply map_ext. intros [i [x0 y0]]. cbn [fst snd]. f_equal. apply map_ext. intros [j [x1 y1]]. unfold close_code. cbn [fst snd].
  destruct (Qlt_bool delta _); [reflexivity|]. destruct (Qlt_bool delta _); reflexivity.
Qed.
Lemma close_code_spec : forall delta a b, close_code delta a b = true <-> (exists k, Qabs (fst b - fst a + 360 * inject_Z k) <= delta)%Q /\ (Qabs (snd b - snd a) <= delta)%Q.
Proof.
  intros delta a b. unfold close_code. set (d := (fst b - fst a)%Q). set (y := (snd b - snd a)%Q). clearbody d y. cbv zeta.
  assert (H : exists k, ((if Qlt_bool 180 (Qabs d) then Qmod (d + 180) 360 - 180 else d) == d + 360 * inject_Z k)%Q /\ (-180 <= (if Qlt_bool 180 (Qabs d) then Qmod (d + 180) 360 - 180 else d) <= 180)%Q).
  { destruct (Qlt_bool_iff' 180 (Qabs d)) as [R|R].
    - destruct (Qmod_turn (d + 180)) as (k & K & K1 & K2). exists k. split; lra.
    - exists 0%Z. apply Qnot_lt_le, Qabs_Qle_condition in R. change (inject_Z 0) with 0%Q. split; lra. }
  destruct H as (k & K & R). set (e := (if Qlt_bool 180 (Qabs d) then Qmod (d + 180) 360 - 180 else d)%Q) in *. clearbody e.
  destruct (Qlt_bool_iff' delta (Qabs e)) as [A|A].
  - split; [discriminate|]. intros ((j & J) & _). exfalso. apply Qabs_Qle_condition in J. enough (Qabs e <= delta)%Q by lra. apply Qabs_Qle_condition.
    destruct (Z.eq_dec j k) as [->|N]; [lra|]. destruct (pos_turn (j - k)) as [P|P]; [lia| |]; rewrite inject_Z_minus in P; lra.
  - destruct (Qlt_bool_iff' delta (Qabs y)) as [B|B]; (split; [try discriminate; intros _|intros (_ & J); try (exfalso; lra); reflexivity]). split; [exists k; rewrite <- K|]; lra.
Qed.

(** ** Score *)
Lemma Qle_div : forall a b c, (0 < b -> a <= c * b -> a / b <= c)%Q.
Proof. intros a b c B H. apply Qle_shift_div_r; auto. Qed.
Lemma Qdiv_le : forall a b c, (0 < b -> c * b <= a -> c <= a / b)%Q.
Proof. intros a b c B H. apply Qle_shift_div_l; auto. Qed.
Lemma raw_range : forall mode i a0 a1, (0 <= i -> i <= a0 -> i <= a1 -> 0 < a0 -> 0 < a1 -> 0 <= raw_score mode i a0 a1 <= 1)%Q.
Proof.
  intros mode i a0 a1 I I0 I1 A0 A1. destruct mode; cbn [raw_score].
  - split; [apply Qdiv_le; lra|apply Qle_div; lra].
  - destruct (Qle_bool_iff' a0 a1); (split; [apply Qdiv_le; lra|apply Qle_div; lra]).
  - split; [apply Qdiv_le; lra|apply Qle_div; lra].
Qed.
