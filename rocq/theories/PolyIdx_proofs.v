(** Lemmas on the contour of each particle. *)
From Coq Require Import List Arith ZArith QArith Qabs Qround Bool Lia Lqa Permutation.
From Verif Require Import Base Spec Corr_model Generic_model Generic_proofs Obs_model Obs_spec Qaux Poly_model Poly_spec Poly_wind Poly_pairs Poly_mesh PolyIdx_model.
Import ListNotations.
Local Close Scope Q_scope.
Local Open Scope nat_scope.

Lemma In_zrange : forall a b t, In t (zrange a b) <-> (a <= t < b)%Z.
Proof.
  intros a b t. unfold zrange. rewrite in_map_iff. split.
  - intros (k & <- & I). apply in_seq in I. lia.
  - intros H. exists (Z.to_nat (t - a)). split; [lia|]. apply in_seq. lia.
Qed.

(** [marked visited test c before after]: the free particles visited and accepted
    receive [c], the others keep their value. *)
Definition marked (pts : list point) (visited : nat -> Prop) (test : point -> bool) (c : Z) (before after : list Z) : Prop :=
  length after = length before /\
  forall i v p, nth_error before i = Some v -> nth_error pts i = Some p ->
    (v = (-1)%Z -> visited i -> test p = true -> nth_error after i = Some c) /\
    ((v <> (-1)%Z \/ ~ visited i \/ test p = false) -> nth_error after i = Some v).
Lemma marked_trans : forall pts v1 v2 test c a b d, c <> (-1)%Z -> length a = length pts -> (forall i, v1 i \/ ~ v1 i) -> marked pts v1 test c a b -> marked pts v2 test c b d -> marked pts (fun i => v1 i \/ v2 i) test c a d.
Proof.
  intros pts v1 v2 test c a b d C LP DEC [L1 M1] [L2 M2]. split; [congruence|]. intros i v p N P. destruct (M1 i v p N P) as [A B]. split.
  - intros E V T. destruct (DEC i) as [V1|NV1].
    + specialize (A E V1 T). destruct (M2 i c p A P) as [_ D]. apply D. auto.
    + destruct V as [V|V]; [contradiction|]. assert (K : nth_error b i = Some v) by (apply B; auto). destruct (M2 i v p K P) as [D _]. auto.
  - intros H. assert (K : nth_error b i = Some v) by (apply B; tauto). destruct (M2 i v p K P) as [_ D]. apply D. tauto.
Qed.
Lemma marked_ext : forall pts v1 v2 test c a b, (forall i, v1 i <-> v2 i) -> marked pts v1 test c a b -> marked pts v2 test c a b.
Proof. intros pts v1 v2 test c a b H [L M]. split; [auto|]. intros i v p N P. destruct (M i v p N P) as [A B]. split; [intros; apply A; auto; apply H; auto|]. intros [X|[X|X]]; apply B; auto. right; left. intros Y. apply X, H, Y. Qed.
Lemma marked_none : forall pts test c a, marked pts (fun _ => False) test c a a.
Proof. intros. split; [auto|]. intros i v p N P. split; [intros _ []|auto]. Qed.

Lemma try_points_spec : forall pts order test c js indexs, c <> (-1)%Z -> length indexs = length pts -> (forall j i, nth_error order j = Some i -> i < length pts) -> (forall j, In j js -> j < length order) ->
  exists out, try_points pts order test c js indexs = Some out /\ marked pts (fun i => exists j, In j js /\ nth_error order j = Some i) test c indexs out.
Proof.
  intros pts order test c js. induction js as [|j js IH]; intros indexs C L O J; cbn [try_points].
  - exists indexs. split; [reflexivity|]. apply (marked_ext pts (fun _ => False)); [intros i; split; [intros []|intros (j & [] & _)]|apply marked_none].
  - destruct (nth_error_lt_Some order j) as [i I]; [apply J; left; auto|]. rewrite I. cbn [bind]. pose proof (O j i I) as LI.
    destruct (nth_error_lt_Some indexs i) as [cur CU]; [lia|]. destruct (nth_error_lt_Some pts i LI) as [p P]. rewrite CU, P. cbn [bind].
    assert (H : exists ix, (if negb (cur =? -1)%Z then Some indexs else if test p then store indexs i c else Some indexs) = Some ix /\ marked pts (fun k => k = i) test c indexs ix).
    { destruct (Z.eqb_spec cur (-1)) as [E|E]; cbn [negb].
      - destruct (test p) eqn:T.
        + unfold store. replace (i <? length indexs) with true by (symmetry; apply Nat.ltb_lt; lia). eexists. split; [reflexivity|]. split; [apply length_upd|]. intros k v q N Q. destruct (Nat.eq_dec k i) as [->|D].
          * split; [intros _ _ _; apply nth_error_upd_eq; lia|]. intros [X|[X|X]]; [congruence|contradiction|congruence].
          * split; [intros _ X; contradiction|]. intros _. rewrite nth_error_upd_neq by auto. exact N.
        + eexists. split; [reflexivity|]. split; [auto|]. intros k v q N Q. split; [intros _ -> T'; congruence|auto].
      - eexists. split; [reflexivity|]. split; [auto|]. intros k v q N Q. split; [intros X -> _; congruence|auto]. }
    destruct H as (ix & -> & M). cbn [bind]. destruct (IH ix C) as (out & E & M'); [rewrite (proj1 M); auto|auto|intros; apply J; right; auto|]. exists out. split; [exact E|].
    eapply marked_ext; [|apply (marked_trans pts (fun k => k = i) _ test c indexs ix out C L (fun k => Nat.eq_decidable k i) M M')].
    intros k. split; [intros [->|(j' & J' & K)]; [exists j; split; [left; auto|auto]|exists j'; split; [right; auto|auto]]|].
    intros (j' & [<-|J'] & K); [left; congruence|right; exists j'; auto].
Qed.

Lemma visited_dec : forall (order : list nat) js i, (exists j, In j js /\ nth_error order j = Some i) \/ ~ (exists j, In j js /\ nth_error order j = Some i).
Proof.
  intros order js i. induction js as [|j js [IH|IH]]; [right; intros (j & [] & _)|left; destruct IH as (j' & I & E); exists j'; split; [right; auto|auto]|].
  destruct (nth_error order j) as [k|] eqn:N; [destruct (Nat.eq_dec k i) as [->|D]|].
  - left. exists j. split; [left; auto|auto].
  - right. intros (j' & [<-|I] & E); [congruence|apply IH; exists j'; auto].
  - right. intros (j' & [<-|I] & E); [congruence|apply IH; exists j'; auto].
Qed.

Section Boxes.
  Variables (pts : list point) (order : list nat) (keys sorted : list Z) (start last : list nat) (i_first : Z).
  Hypothesis PERM : Permutation order (seq 0 (length pts)).
  Hypothesis KEYS : length keys = length pts.
  Hypothesis GATH : gather keys order = Some sorted.
  Hypothesis LAST : length last = length start.
  Hypothesis RANGE : forall v, In v sorted -> (i_first <= v < i_first + Z.of_nat (length start))%Z.
  Hypothesis TILE : forall k a b, nth_error start k = Some a -> nth_error last k = Some b -> a <= b /\ forall j, a <= j < b <-> nth_error sorted j = Some (i_first + Z.of_nat k)%Z.

  Lemma order_lt : forall j i, nth_error order j = Some i -> i < length pts.
  Proof. intros j i H. apply nth_error_In in H. apply (Permutation_in _ PERM), in_seq in H. lia. Qed.
  Lemma order_len : length order = length pts.
  Proof. rewrite (Permutation_length PERM), seq_length. reflexivity. Qed.
  Lemma sorted_key : forall j i, nth_error order j = Some i -> nth_error sorted j = nth_error keys i.
  Proof. intros j i H. apply gather_Some in GATH as [_ G]. destruct (G j i H) as (a & A1 & A2). congruence. Qed.
  Lemma sorted_len : length sorted = length pts.
  Proof. apply gather_Some in GATH as [G _]. rewrite G. apply order_len. Qed.

  Lemma try_boxes_spec : forall test c boxes indexs, c <> (-1)%Z -> length indexs = length pts ->
    exists out, try_boxes pts order start last i_first test c boxes indexs = Some out /\ marked pts (fun i => exists k, In k boxes /\ nth_error keys i = Some k) test c indexs out.
  Proof.
    intros test c boxes. induction boxes as [|k boxes IH]; intros indexs C L; cbn [try_boxes].
    - exists indexs. split; [reflexivity|]. apply (marked_ext pts (fun _ => False)); [intros i; split; [intros []|intros (k & [] & _)]|apply marked_none].
    - assert (H : exists ix, (if (k - i_first <? 0)%Z || (Z.of_nat (length last) <=? k - i_first)%Z then Some indexs
         else let! a := nth_error start (Z.to_nat (k - i_first)) in let! b := nth_error last (Z.to_nat (k - i_first)) in
              try_points pts order test c (seq a (b - a)) indexs) = Some ix /\ marked pts (fun i => nth_error keys i = Some k) test c indexs ix).
      { destruct (Z.ltb_spec (k - i_first) 0) as [X|X]; [|destruct (Z.leb_spec (Z.of_nat (length last)) (k - i_first)) as [Y|Y]]; cbn [orb].
        1, 2: exists indexs; split; [reflexivity|]; split; [auto|]; intros i v p N P; split; [|auto]; intros _ K; exfalso;
          assert (I : In k sorted) by (assert (LI : i < length pts) by (apply nth_error_Some_lt in P; auto); assert (IO : In i order) by (apply (Permutation_in _ (Permutation_sym PERM)), in_seq; lia); apply In_nth_error in IO as (j & J); apply (nth_error_In sorted j); rewrite (sorted_key j i J); exact K);
          apply RANGE in I; lia.
        destruct (nth_error_lt_Some start (Z.to_nat (k - i_first))) as [a A]; [lia|]. destruct (nth_error_lt_Some last (Z.to_nat (k - i_first))) as [b B]; [lia|]. rewrite A, B. cbn [bind].
        destruct (TILE _ _ _ A B) as (LE & T). replace (i_first + Z.of_nat (Z.to_nat (k - i_first)))%Z with k in T by lia.
        assert (BO : forall j, In j (seq a (b - a)) -> j < length order). { intros j J. apply in_seq in J. assert (J' : nth_error sorted j = Some k) by (apply T; lia). apply nth_error_Some_lt in J'. rewrite sorted_len in J'. rewrite order_len. exact J'. }
        destruct (try_points_spec pts order test c (seq a (b - a)) indexs C L order_lt BO) as (out & E & M). exists out. split; [exact E|]. eapply marked_ext; [|exact M]. intros i. split.
        - intros (j & J & K). apply in_seq in J. rewrite <- (sorted_key j i K). apply T. lia.
        - intros K. assert (LI : i < length pts) by (apply nth_error_Some_lt in K; lia). assert (IO : In i order) by (apply (Permutation_in _ (Permutation_sym PERM)), in_seq; lia). apply In_nth_error in IO as (j & J). exists j. split; [|exact J]. apply in_seq. assert (a <= j < b) by (apply T; rewrite (sorted_key j i J); exact K). lia. }
      destruct H as (ix & E & M). cbn [bind]. change (try_boxes pts order start last i_first test c (k :: boxes) indexs) with (let! ix := (if (k - i_first <? 0)%Z || (Z.of_nat (length last) <=? k - i_first)%Z then Some indexs
         else let! a := nth_error start (Z.to_nat (k - i_first)) in let! b := nth_error last (Z.to_nat (k - i_first)) in
              try_points pts order test c (seq a (b - a)) indexs) in try_boxes pts order start last i_first test c boxes ix). cbv zeta. rewrite E. cbn [bind].
      destruct (IH ix C) as (out & E' & M'); [rewrite (proj1 M); auto|]. exists out. split; [exact E'|].
      assert (DK : forall i, nth_error keys i = Some k \/ ~ nth_error keys i = Some k) by (intros i; destruct (nth_error keys i) as [k'|]; [|right; discriminate]; destruct (Z.eq_dec k' k) as [->|D]; [left; auto|right; congruence]).
      eapply marked_ext; [|exact (marked_trans pts _ _ test c indexs ix out C L DK M M')].
      intros i. split; [intros [K|(k' & I & K)]; [exists k; split; [left; auto|auto]|exists k'; split; [right; auto|auto]]|]. intros (k' & [<-|I] & K); [left; auto|right; exists k'; auto].
  Qed.
End Boxes.

(** The box of an accepted particle is one of the boxes of the contour. *)
Lemma floor_mod : forall x, Qfloor (Qmod x 360) = (Qfloor x mod 360)%Z.
Proof.
  intros x. destruct (Qmod_turn x) as (k & K & K1 & K2). assert (E : Qfloor (Qmod x 360) = (Qfloor x + 360 * k)%Z).
  { rewrite (Qfloor_comp _ _ K). replace (360 * inject_Z k)%Q with (inject_Z 360 * inject_Z k)%Q by reflexivity. rewrite <- inject_Z_mult.
    destruct (Qfloor_bounds x) as [A B]. destruct (Qfloor_bounds (x + inject_Z (360 * k))) as [C D].
    assert (E1 : (inject_Z (Qfloor (x + inject_Z (360 * k))) < inject_Z (Qfloor x + 360 * k + 1))%Q) by (rewrite !inject_Z_plus; change (inject_Z 1) with 1%Q; lra).
    assert (E2 : (inject_Z (Qfloor x + 360 * k) < inject_Z (Qfloor (x + inject_Z (360 * k)) + 1))%Q) by (rewrite !inject_Z_plus; change (inject_Z 1) with 1%Q; lra).
    rewrite <- Zlt_Qlt in E1, E2. lia. }
  rewrite E. apply (Z.mod_unique _ _ (- k)); [|lia]. left. rewrite <- E. destruct (Qfloor_bounds (Qmod x 360)) as [A B]. set (f := Qfloor (Qmod x 360)) in *. clearbody f.
  assert (E1 : (inject_Z f < inject_Z 360)%Q) by (change (inject_Z 360) with 360%Q; lra). assert (E2 : (inject_Z (-1) < inject_Z f)%Q) by (change (inject_Z (-1)) with (-1)%Q; lra). rewrite <- Zlt_Qlt in E1, E2. lia.
Qed.
Lemma Qfloor_mono : forall x y, (x <= y)%Q -> (Qfloor x <= Qfloor y)%Z.
Proof. intros. apply Qfloor_resp_le. auto. Qed.
Lemma boxes_of_spec : forall x0 x1 y0 y1, (x0 <= x1)%Q -> (y0 <= y1)%Q -> (x1 - x0 < 359)%Q -> (0 <= y0 + 90)%Q ->
  exists boxes, boxes_of (x0, x1, y0, y1) = Some boxes /\
  forall p t key, (x0 <= fst p + 360 * inject_Z t <= x1)%Q -> (y0 <= snd p <= y1)%Q -> box_index p = Some key -> In key boxes.
Proof.
  intros x0 x1 y0 y1 X Y W S. unfold boxes_of, box_indexes. rewrite (proj2 (Qle_bool_iff 0 (y0 + 90)) S), (proj2 (Qle_bool_iff 0 (y1 + 90))) by lra. cbn [bind]. eexists. split; [reflexivity|].
  intros p t key PX PY K. unfold box_index, box_indexes in K. destruct (Qle_bool 0 (snd p + 90)); cbn [bind] in K; [|discriminate]. apply Some_inj in K. subst key.
  rewrite !floor_mod. set (a := Qfloor x0) in *. set (b := Qfloor x1) in *.
  assert (F : exists f, (a <= f <= b)%Z /\ (Qfloor (fst p) mod 360 = f mod 360)%Z).
  { exists (Qfloor (fst p + 360 * inject_Z t)). split; [split; apply Qfloor_mono; lra|]. rewrite <- !floor_mod. apply Qfloor_comp. destruct (Qmod_turn (fst p)) as (k & K & K1 & K2). destruct (Qmod_turn (fst p + 360 * inject_Z t)) as (j & J & J1 & J2).
    assert (E : (j + t - k = 0)%Z) by (apply no_turn; rewrite inject_Z_minus, inject_Z_plus; lra). assert (E' : k = (j + t)%Z) by lia. rewrite J, K, E', inject_Z_plus. ring. }
  destruct F as (f & F1 & F2). rewrite F2.
  assert (AB : (b - a < 360)%Z). { destruct (Qfloor_bounds x0) as [_ A2]. destruct (Qfloor_bounds x1) as [B1 _]. fold a in A2. fold b in B1. assert (E : (inject_Z b < inject_Z (a + 360))%Q) by (rewrite inject_Z_plus; change (inject_Z 360) with 360%Q; lra). rewrite <- Zlt_Qlt in E. lia. }
  apply in_concat. exists (map (fun i_y => (f mod 360 + nb_x * i_y)%Z) (zrange (Qfloor (y0 + 90)) (Qfloor (y1 + 90) + 1))). split.
  - apply in_map_iff. exists (a mod 360 + (f - a))%Z. split.
    + apply map_ext. intros iy. unfold nb_x. f_equal. pose proof (Z.div_mod a 360 ltac:(lia)). replace (a mod 360 + (f - a))%Z with (f + (- (a / 360)) * 360)%Z by lia. apply Z.mod_add. lia.
    + apply In_zrange. unfold nb_x. pose proof (Z.div_mod a 360 ltac:(lia)). pose proof (Z.div_mod b 360 ltac:(lia)). pose proof (Z.mod_pos_bound a 360 ltac:(lia)). pose proof (Z.mod_pos_bound b 360 ltac:(lia)).
      destruct (Z.ltb_spec (b mod 360) (a mod 360)); split; nia.
  - apply in_map_iff. exists (Qfloor (snd p + 90)). split; [reflexivity|]. apply In_zrange. assert (Qfloor (y0 + 90) <= Qfloor (snd p + 90))%Z by (apply Qfloor_mono; lra). assert (Qfloor (snd p + 90) <= Qfloor (y1 + 90))%Z by (apply Qfloor_mono; lra). lia.
Qed.

(** The tests are the containment. *)
Lemma in_contour_spec : forall c v x0 x1 y0 y1 p, reduce_size c = Some v -> bbox v = Some (x0, x1, y0, y1) -> (x1 - x0 < 180)%Q ->
  (in_contour (x0, x1, y0, y1) v p = true <-> contains c p) /\
  (in_contour (x0, x1, y0, y1) v p = true -> exists t, (x0 <= fst p + 360 * inject_Z t <= x1)%Q /\ (y0 <= snd p <= y1)%Q).
Proof.
  intros c v x0 x1 y0 y1 p R B W. unfold in_contour. destruct (Qmod_turn (fst p - x0 + 180)) as (k & K & K1 & K2).
  set (m := (Qmod (fst p - x0 + 180) 360 + x0 - 180)%Q). assert (E : (m == fst p + 360 * inject_Z k)%Q) by (unfold m; lra). assert (M : (x0 - 180 <= m < x0 + 180)%Q) by (unfold m; lra). clearbody m. clear K K1 K2.
  assert (S : same (m, snd p) (shift k p)) by (split; [exact E|reflexivity]).
  assert (C : contains c p -> inside v (m, snd p)).
  { intros (j & J). apply (inside_reduce c v _ R) in J. pose proof (inside_box _ _ _ _ _ _ B J) as [BX _]. cbn [fst shift] in BX. assert (Z : (j - k = 0)%Z) by (apply no_turn; rewrite inject_Z_minus; lra). assert (Z' : j = k) by lia. subst j. eapply inside_comp; [|exact J]. destruct S as [S1 S2]. split; symmetry; assumption. }
  assert (BI : contains c p -> (x0 <= m <= x1 /\ y0 <= snd p <= y1)%Q) by (intros H; exact (inside_box _ _ _ _ _ _ B (C H))).
  destruct (Qlt_bool_iff' y1 (snd p)) as [H1|H1]; [split; [split; [discriminate|intros H; apply BI in H; lra]|discriminate]|].
  destruct (Qlt_bool_iff' (snd p) y0) as [H2|H2]; [split; [split; [discriminate|intros H; apply BI in H; lra]|discriminate]|].
  cbv zeta. destruct (Qlt_bool_iff' x1 m) as [H3|H3]; [split; [split; [discriminate|intros H; apply BI in H; lra]|discriminate]|].
  destruct (Qlt_bool_iff' m x0) as [H4|H4]; [split; [split; [discriminate|intros H; apply BI in H; lra]|discriminate]|].
  split; [|intros _; exists k; lra]. rewrite inside_bool. split; [|exact C]. intros H. exists k. apply (inside_reduce c v _ R). eapply inside_comp; [exact S|exact H].
Qed.

(** First contour which contains a particle, among those not yet tested. *)

Lemma reduce_good : forall c, good_contour c -> exists v x0 x1 y0 y1, reduce_size c = Some v /\ bbox v = Some (x0, x1, y0, y1) /\ (x0 <= x1)%Q /\ (y0 <= y1)%Q /\ (x1 - x0 < 180)%Q /\ (0 <= y0 + 90)%Q.
Proof.
  intros c ((p & q & Ip & Iq & D) & W & Y). destruct c as [|first r]; [destruct Ip|]. pose proof (reduce_size_spec first r) as R. destruct (reduce_size (first :: r)) as [v|].
  - destruct R as (k & rest & A & _ & C & _ & _). assert (NV : v <> []) by (rewrite C; destruct (Nat.max 3 k) eqn:M; [lia|discriminate]).
    destruct (bbox_total v NV) as [[[[x0 x1] y0] y1] B]. exists v, x0, x1, y0, y1. split; [reflexivity|]. split; [exact B|].
    destruct (bbox_spec _ _ _ _ _ B) as (RB & (v1 & I1 & E1) & (v2 & I2 & E2) & (v3 & I3 & E3) & _).
    assert (SUB : forall u, In u v -> In u (first :: r)) by (intros u U; rewrite A; apply in_or_app; auto).
    destruct (RB _ I1) as ((? & ?) & ? & ?). split; [lra|]. split; [lra|]. specialize (W v2 v1 (SUB _ I2) (SUB _ I1)). specialize (Y v3 (SUB _ I3)). rewrite E1, E2 in W. rewrite E3 in Y. split; lra.
  - exfalso. apply D. assert (A : forall v, In v (first :: r) -> same v first) by (intros v [<-|I]; [apply same_refl|auto]). destruct (A p Ip) as [P1 P2], (A q Iq) as [Q1 Q2]. split; lra.
Qed.
Lemma contains_dec : forall c p, good_contour c -> contains c p \/ ~ contains c p.
Proof.
  intros c p G. destruct (reduce_good c G) as (v & x0 & x1 & y0 & y1 & R & B & _ & _ & W & _). destruct (in_contour_spec c v x0 x1 y0 y1 p R B W) as [H _]. destruct (in_contour (x0, x1, y0, y1) v p); [left; apply H; auto|right; intros C; apply H in C; discriminate].
Qed.

Section Contours.
  Variables (pts : list point) (order : list nat) (keys sorted : list Z) (start last : list nat) (i_first : Z).
  Hypothesis PERM : Permutation order (seq 0 (length pts)).
  Hypothesis KEYS : length keys = length pts.
  Hypothesis KEY : forall i p, nth_error pts i = Some p -> exists k, nth_error keys i = Some k /\ box_index p = Some k.
  Hypothesis GATH : gather keys order = Some sorted.
  Hypothesis LAST : length last = length start.
  Hypothesis RANGE : forall v, In v sorted -> (i_first <= v < i_first + Z.of_nat (length start))%Z.
  Hypothesis TILE : forall k a b, nth_error start k = Some a -> nth_error last k = Some b -> a <= b /\ forall j, a <= j < b <-> nth_error sorted j = Some (i_first + Z.of_nat k)%Z.

  Lemma try_contours_spec : forall cs n indexs, (forall c, In c cs -> good_contour c) -> length indexs = length pts ->
    exists out, try_contours pts order start last i_first (Z.of_nat n) cs indexs = Some out /\ length out = length pts /\
    forall i v p, nth_error indexs i = Some v -> nth_error pts i = Some p ->
      if (v =? -1)%Z then exists r, first_containing cs p r /\ nth_error out i = Some (match r with Some m => Z.of_nat (n + m) | None => (-1)%Z end)
      else nth_error out i = Some v.
  Proof.
    induction cs as [|c cs IH]; intros n indexs G L; cbn [try_contours].
    - exists indexs. split; [reflexivity|]. split; [exact L|]. intros i v p V P. destruct (Z.eqb_spec v (-1)) as [->|E]; [|exact V]. exists None. split; [intros m c M; destruct m; discriminate|exact V].
    - pose proof (G c (or_introl eq_refl)) as GC. destruct (reduce_good c GC) as (v & x0 & x1 & y0 & y1 & R & B & X & Y & W & S). rewrite R. cbn [bind]. rewrite B. cbn [bind].
      destruct (boxes_of_spec x0 x1 y0 y1 X Y ltac:(lra) S) as (boxes & EB & COV). rewrite EB. cbn [bind].
      destruct (try_boxes_spec pts order keys sorted start last i_first PERM KEYS GATH LAST RANGE TILE (in_contour (x0, x1, y0, y1) v) (Z.of_nat n) boxes indexs) as (ix & E & LM & M); [lia|exact L|].
      rewrite E. cbn [bind]. replace (Z.of_nat n + 1)%Z with (Z.of_nat (Datatypes.S n)) by lia.
      destruct (IH (Datatypes.S n) ix) as (out & EO & LO & F); [intros; apply G; right; auto|lia|]. exists out. split; [exact EO|]. split; [exact LO|].
      intros i w p V P. destruct (in_contour_spec c v x0 x1 y0 y1 p R B W) as [IC IB]. destruct (M i w p V P) as [M1 M2]. destruct (Z.eqb_spec w (-1)) as [EW|EW].
      + destruct (contains_dec c p GC) as [CT|CT].
        * exists (Some 0). split; [split; [exists c; auto|intros; lia]|]. apply IC in CT. destruct (KEY i p P) as (k & K1 & K2). destruct (IB CT) as (t & T1 & T2).
          assert (N : nth_error ix i = Some (Z.of_nat n)) by (apply M1; [auto|exists k; split; [eapply COV; eauto|exact K1]|exact CT]).
          specialize (F i _ p N P). destruct (Z.eqb_spec (Z.of_nat n) (-1)); [lia|]. rewrite Nat.add_0_r. exact F.
        * assert (N : nth_error ix i = Some w). { apply M2. right. right. destruct (in_contour (x0, x1, y0, y1) v p); [exfalso; apply CT, IC; auto|auto]. }
          specialize (F i _ p N P). rewrite EW in F. cbn [Z.eqb Pos.eqb] in F. destruct F as (r & FC & O). exists (match r with Some m => Some (Datatypes.S m) | None => None end). split.
          -- destruct r as [m|]; cbn [first_containing] in *.
             ++ destruct FC as [(c' & N' & C') FC]. split; [exists c'; auto|]. intros [|j] c'' J NJ; [cbn in NJ; injection NJ as <-; exact CT|]. apply (FC j c''); [lia|exact NJ].
             ++ intros [|j] c'' NJ; [cbn in NJ; injection NJ as <-; exact CT|]. apply (FC j c'' NJ).
          -- destruct r as [m|]; [|exact O]. rewrite O. f_equal. lia.
      + assert (N : nth_error ix i = Some w) by (apply M2; auto). specialize (F i _ p N P). destruct (Z.eqb_spec w (-1)); [contradiction|]. exact F.
  Qed.
End Contours.

Theorem poly_indexs_spec : forall argsort pts cs, sorts argsort -> pts <> [] -> (forall p, In p pts -> (-90 <= snd p)%Q) -> (forall c, In c cs -> good_contour c) ->
  exists out, poly_indexs argsort pts cs = Some out /\ length out = length pts /\
  forall i p, nth_error pts i = Some p -> exists r, first_containing cs p r /\ nth_error out i = Some (match r with Some m => Z.of_nat m | None => (-1)%Z end).
Proof.
  intros argsort pts cs SO NE LAT G. unfold poly_indexs, group_obs.
  destruct (sequence_map_total box_index pts) as [keys EK]. { intros p I. unfold box_index, box_indexes. specialize (LAT p I). rewrite (proj2 (Qle_bool_iff 0 (snd p + 90))) by lra. eexists. reflexivity. }
  rewrite EK. cbn [bind]. destruct (sequence_map_nth _ _ _ EK) as [LK NK]. destruct (SO keys) as [PERM SORTED].
  destruct (gather_total keys (argsort keys)) as [s GA]. { intros i I. apply (Permutation_in _ PERM), in_seq in I. lia. }
  rewrite GA. cbn [bind]. pose proof GA as GA'. apply gather_Some in GA' as [LS GS].
  assert (ZS : zsorted s).
  { intros p q a b PQ A B. assert (LP : p < length (argsort keys)) by (apply nth_error_Some_lt in A; lia). assert (LQ : q < length (argsort keys)) by (apply nth_error_Some_lt in B; lia).
    destruct (nth_error_lt_Some _ _ LP) as [ip IP]. destruct (nth_error_lt_Some _ _ LQ) as [iq IQ]. destruct (GS p ip IP) as (a' & A1 & A2). destruct (GS q iq IQ) as (b' & B1 & B2).
    assert (a' = a) by congruence. assert (b' = b) by congruence. subst. destruct (Nat.eq_dec p q) as [->|D]; [assert (a = b) by congruence; lia|]. eapply SORTED; [|exact IP|exact IQ|exact A1|exact B1]. lia. }
  assert (NS : s <> []). { intros ->. destruct pts; [contradiction|]. rewrite (Permutation_length PERM), seq_length, LK in LS. discriminate. }
  destruct (build_index_tile s NS ZS) as (first & last & i0 & EB & LL & _ & RG & TL & _). rewrite EB. cbn [bind].
  rewrite LK in PERM. destruct (try_contours_spec pts (argsort keys) keys s first last i0 PERM LK) with (cs := cs) (n := 0) (indexs := repeat (-1)%Z (length pts)) as (out & EO & LO & F); auto.
  { rewrite repeat_length. reflexivity. }
  change (Z.of_nat 0) with 0%Z in EO. exists out. split; [exact EO|]. split; [exact LO|]. intros i p P. specialize (F i (-1)%Z p). destruct F as (r & FC & O); [rewrite nth_error_repeat_lt; replace (i <? length pts) with true by (symmetry; apply Nat.ltb_lt; eapply nth_error_Some_lt; eauto); reflexivity|exact P|]. exists r. auto.
Qed.
