(** Property C128: overlap and union of contours. *)
From Coq Require Import List Arith ZArith Bool QArith Qabs Lia Lqa Sorted.
Import ListNotations.
From Verif Require Import Base Qaux Spec Corr_model Obs_model Obs_align Poly_model TrackObs_spec Match_props Poly_mesh Iter_model Iter_props Ovl_model.
Local Close Scope Q_scope.
Local Open Scope nat_scope.

(** ** Specification *)
(** All the values of one list are under all those of the other one. *)
Definition apart (l m : list Q) : Prop :=
  (forall a b, In a l -> In b m -> (a < b)%Q) \/ (forall a b, In a l -> In b m -> (b < a)%Q).
(** Width of a list of longitudes. *)
Definition within (w : Q) (l : list Q) : Prop := forall a b, In a l -> In b l -> (a - b <= w)%Q.
(** Longitudes near [x0], a whole number of turns away. *)
Definition turned (x0 : Q) (l l' : list Q) : Prop :=
  Forall2 (fun x x' => Qcong 360 x x' /\ (x0 - 180 <= x' < x0 + 180)%Q) l l'.
(** Pieces of a list cut at each nan: what is before the first nan, then the others. *)
Fixpoint cut (l : list (option Q)) : list Q * list (list Q) :=
  match l with
  | [] => ([], [])
  | Some v :: r => (v :: fst (cut r), snd (cut r))
  | None :: r => ([], fst (cut r) :: snd (cut r))
  end.

Lemma apart_code : forall a l b m, Qlt_bool (qmax_from a l) (qmin_from b m) || Qlt_bool (qmax_from b m) (qmin_from a l) = true <-> apart (a :: l) (b :: m).
Proof.
  intros a l b m. destruct (qmin_from_spec l a) as [A1 A2]. destruct (qmax_from_spec l a) as [A3 A4]. destruct (qmin_from_spec m b) as [B1 B2]. destruct (qmax_from_spec m b) as [B3 B4].
  rewrite orb_true_iff, !Qlt_bool_iff. split; intros [H|H].
  - left. intros u v U V. specialize (A4 u U). specialize (B2 v V). lra.
  - right. intros u v U V. specialize (A2 u U). specialize (B4 v V). lra.
  - left. apply H; assumption.
  - right. apply H; assumption.
Qed.
Lemma qmin2_spec : forall a b, (qmin2 a b <= a)%Q /\ (qmin2 a b <= b)%Q /\ (qmin2 a b = a \/ qmin2 a b = b).
Proof. intros a b. unfold qmin2. destruct (Qlt_bool b a) eqn:E; [apply Qlt_bool_iff in E|apply Qlt_bool_false in E]; repeat split; try lra; auto. Qed.
Lemma div_spec : forall a b, (~ b == 0)%Q -> div a b = Some (a / b)%Q.
Proof. intros a b H. unfold div. destruct (Qeq_bool b 0) eqn:E; [apply Qeq_bool_iff in E; contradiction|reflexivity]. Qed.
Lemma ratio : forall i m, (0 <= i)%Q -> (i <= m)%Q -> (0 < m)%Q -> (0 <= i / m <= 1)%Q /\ (i / m == 0 <-> i == 0)%Q /\ (i / m == 1 <-> i == m)%Q.
Proof.
  intros i m I L M. assert (E : (i / m * m == i)%Q) by (field; lra). set (v := (i / m)%Q) in *. split; [split; [apply (Qmult_le_r 0 v m M); lra|apply (Qmult_le_r v 1 m M); lra]|]. split; split; intros X.
  - rewrite X in E. lra.
  - unfold v. rewrite X. field. lra.
  - rewrite X in E. lra.
  - unfold v. rewrite X. field. lra.
Qed.
Lemma combine_ok : forall x y, length y = length x -> create_vertice x y = Some (combine x y).
Proof. intros x y L. unfold create_vertice. rewrite L, Nat.leb_refl. reflexivity. Qed.
Lemma turned_code : forall x0 l, turned x0 l (map (fun x => (Qmod (x - (x0 - 180)) 360 + x0 - 180)%Q) l).
Proof.
  intros x0. induction l as [|x l IH]; [constructor|]. constructor; [|exact IH]. pose proof (Qmod_range (x - (x0 - 180)) 360 ltac:(lra)) as R. split; [|lra].
  pose proof (Qmod_cong (x - (x0 - 180)) 360) as [k K]. exists (- k)%Z. rewrite inject_Z_opp. lra.
Qed.

Section Areas.
Variable poly : Type.
Variable make : list point -> poly.
Variable inter : poly -> poly -> Q.
Variable area : poly -> Q.
Variable plus : poly -> poly -> poly.
(** What is asked to areas. *)
Hypothesis inter_ok : forall p q, (0 <= inter p q)%Q /\ (inter p q <= area p)%Q /\ (inter p q <= area q)%Q.

Lemma cost_one_spec : forall xi yi xo yo, xi <> [] -> xo <> [] -> length yi = length xi -> length yo = length xo ->
  (0 < area (make (combine xi yi)))%Q -> (forall x', x' = xo \/ turned (hd 0%Q xi) xo x' -> 0 < area (make (combine x' yo)))%Q ->
  exists c x', cost_one poly make inter area xi yi xo yo = Some c /\ (0 <= c <= 1)%Q /\
    (x' = xo \/ turned (hd 0%Q xi) xo x') /\
    ((Qabs (hd 0 xi - hd 0 xo) <= 180)%Q -> x' = xo) /\
    (apart xi xo \/ apart yi yo -> c = 1%Q) /\
    (~ apart xi xo -> ~ apart yi yo ->
       let i := inter (make (combine xi yi)) (make (combine x' yo)) in
       (c == 1 <-> i == 0)%Q /\ (c == 0 <-> i == area (make (combine xi yi)) \/ i == area (make (combine x' yo)))%Q /\
       ((1 - c) * area (make (combine xi yi)) == i \/ (1 - c) * area (make (combine x' yo)) == i)%Q).
Proof.
  intros xi yi xo yo N1 N2 L1 L2 AP AP2. destruct xi as [|xi0 xi]; [congruence|]. destruct xo as [|xo0 xo]; [congruence|]. destruct yi as [|yi0 yi]; [discriminate|]. destruct yo as [|yo0 yo]; [discriminate|]. unfold cost_one. cbn [hd].
  set (x' := if Qlt_bool 180 (Qabs (xi0 - xo0)) then map (fun x => (Qmod (x - (xi0 - 180)) 360 + xi0 - 180)%Q) (xo0 :: xo) else xo0 :: xo).
  assert (T : x' = xo0 :: xo \/ turned xi0 (xo0 :: xo) x') by (unfold x'; destruct (Qlt_bool _ _); [right; apply turned_code|left; reflexivity]).
  assert (T2 : (Qabs (xi0 - xo0) <= 180)%Q -> x' = xo0 :: xo). { intros X. unfold x'. destruct (Qlt_bool _ _) eqn:E; [apply Qlt_bool_iff in E; lra|reflexivity]. }
  assert (L3 : length x' = length (xo0 :: xo)) by (unfold x'; destruct (Qlt_bool _ _); [apply map_length|reflexivity]).
  pose proof (apart_code xi0 xi xo0 xo) as AX. pose proof (apart_code yi0 yi yo0 yo) as AY.
  destruct (Qlt_bool (qmax_from xi0 xi) _ || _).
  { exists 1%Q, x'. split; [reflexivity|]. split; [lra|]. split; [exact T|]. split; [exact T2|]. split; [reflexivity|]. intros X. exfalso. apply X, AX. reflexivity. }
  destruct (Qlt_bool (qmax_from yi0 yi) _ || _).
  { exists 1%Q, x'. split; [reflexivity|]. split; [lra|]. split; [exact T|]. split; [exact T2|]. split; [reflexivity|]. intros _ X. exfalso. apply X, AY. reflexivity. }
  rewrite (combine_ok (xi0 :: xi)) by exact L1. cbn [bind]. rewrite (combine_ok x') by (rewrite L3; exact L2). cbn [bind].
  set (p := make (combine (xi0 :: xi) (yi0 :: yi))). set (q := make (combine x' (yo0 :: yo))). destruct (inter_ok p q) as (I0 & I1 & I2). destruct (qmin2_spec (area p) (area q)) as (M1 & M2 & M3). set (m := qmin2 (area p) (area q)) in *.
  assert (MP : (0 < m)%Q) by (pose proof (AP2 x' T); destruct M3 as [->| ->]; assumption).
  assert (IM : (inter p q <= m)%Q) by (destruct M3 as [->| ->]; assumption). rewrite div_spec by lra. cbn [bind]. destruct (ratio (inter p q) m I0 IM MP) as (R1 & R2 & R3). assert (RE : (inter p q / m * m == inter p q)%Q) by (field; lra). set (v := (inter p q / m)%Q) in *.
  exists (1 - v)%Q, x'. split; [reflexivity|]. split; [lra|]. split; [exact T|]. split; [exact T2|]. split; [intros [X|X]; [apply AX in X|apply AY in X]; discriminate|].
  intros _ _. cbn zeta. fold q. split; [rewrite <- R2; split; intros; lra|]. split.
  - split; intros X. + assert (Y : (inter p q == m)%Q) by (apply R3; lra). destruct M3 as [E|E]; rewrite E in Y; auto. + assert (Y : (inter p q == m)%Q) by (destruct X; lra). apply R3 in Y. lra.
  - destruct M3 as [E|E]; [left|right]; rewrite <- E; lra.
Qed.
End Areas.

(** ** Property C128 *)
(** Cost of each pair of contours: between 0 and 1, and masked exactly when it is 1: boxes
    apart, or no common area (the second contour being first moved by whole turns near the
    first point of the first one when their first points are more than 180 degrees apart);
    0 exactly when one of the areas is all common. *)
Theorem C128_cost : forall (poly : Type) (make : list point -> poly) inter area,
  (forall p q, (0 <= inter p q)%Q /\ (inter p q <= area p)%Q /\ (inter p q <= area q)%Q) ->
  forall l,
  (forall xi yi xo yo, In ((xi, yi), (xo, yo)) l -> xi <> [] /\ xo <> [] /\ length yi = length xi /\ length yo = length xo /\
     (0 < area (make (combine xi yi)))%Q /\ forall x', x' = xo \/ turned (hd 0%Q xi) xo x' -> (0 < area (make (combine x' yo)))%Q) ->
  exists r, cost_function_common_area poly make inter area l = Some r /\ length r = length l /\
    forall i xi yi xo yo, nth_error l i = Some ((xi, yi), (xo, yo)) ->
      exists c m x', nth_error r i = Some (c, m) /\ (0 <= c <= 1)%Q /\ (m = true <-> c == 1)%Q /\
        (x' = xo \/ turned (hd 0%Q xi) xo x') /\ ((Qabs (hd 0 xi - hd 0 xo) <= 180)%Q -> x' = xo) /\
        (apart xi xo \/ apart yi yo -> m = true) /\
        (~ apart xi xo -> ~ apart yi yo ->
           let common := inter (make (combine xi yi)) (make (combine x' yo)) in
           (m = true <-> common == 0)%Q /\ (c == 0 <-> common == area (make (combine xi yi)) \/ common == area (make (combine x' yo)))%Q /\
           ((1 - c) * area (make (combine xi yi)) == common \/ (1 - c) * area (make (combine x' yo)) == common)%Q).
Proof.
  intros poly make inter area IO l H. unfold cost_function_common_area.
  destruct (sequence_map_total (fun p => cost_one poly make inter area (fst (fst p)) (snd (fst p)) (fst (snd p)) (snd (snd p))) l) as [r R].
  { intros [[xi yi] [xo yo]] I. destruct (H xi yi xo yo I) as (A1 & A2 & A3 & A4 & A5 & A6). destruct (cost_one_spec poly make inter area IO xi yi xo yo A1 A2 A3 A4 A5 A6) as (c & x' & E & _). exists c. exact E. }
  rewrite R. cbn [bind]. eexists. split; [reflexivity|]. destruct (sequence_map_nth _ _ _ R) as [LR NR]. split; [rewrite map_length; exact LR|].
  intros i xi yi xo yo N. destruct (H xi yi xo yo (nth_error_In _ _ N)) as (A1 & A2 & A3 & A4 & A5 & A6). destruct (cost_one_spec poly make inter area IO xi yi xo yo A1 A2 A3 A4 A5 A6) as (c & x' & E & C1 & C2 & C3 & C4 & C5).
  destruct (NR i _ N) as (c' & N' & E'). cbn [fst snd] in E'. rewrite E in E'. apply Some_inj in E'. subst c'. exists c, (Qeq_bool c 1), x'. rewrite nth_error_map, N'. split; [reflexivity|]. split; [exact C1|]. split; [apply Qeq_bool_iff|]. split; [exact C2|]. split; [exact C3|]. split; [intros X; rewrite (C4 X); reflexivity|].
  intros X Y. destruct (C5 X Y) as (D1 & D2 & D3). cbn zeta in *. split; [rewrite Qeq_bool_iff; exact D1|]. split; [exact D2|exact D3].
Qed.
Print Assumptions C128_cost.

(** Contours whose widths make at most 180 degrees together, with first points more than 180
    degrees apart: masked, whatever their common area (the boxes are compared before the
    second contour is moved). *)
Theorem C128_seam_refuted : forall (poly : Type) (make : list point -> poly) inter area xi yi xo yo wi wo,
  xi <> [] -> xo <> [] -> yi <> [] -> yo <> [] -> within wi xi -> within wo xo -> (wi + wo <= 180)%Q -> (180 < Qabs (hd 0 xi - hd 0 xo))%Q ->
  cost_function_common_area poly make inter area [((xi, yi), (xo, yo))] = Some [(1%Q, true)].
Proof.
  intros poly make inter area xi yi xo yo wi wo N1 N2 N3 N4 W1 W2 W H. destruct xi as [|xi0 xi]; [congruence|]. destruct xo as [|xo0 xo]; [congruence|]. destruct yi as [|yi0 yi]; [congruence|]. destruct yo as [|yo0 yo]; [congruence|]. cbn [hd] in H.
  unfold cost_function_common_area. cbn [map fst snd cost_one]. 
  assert (X : Qlt_bool (qmax_from xi0 xi) (qmin_from xo0 xo) || Qlt_bool (qmax_from xo0 xo) (qmin_from xi0 xi) = true).
  { destruct (qmin_from_spec xi xi0) as [A1 A2]. destruct (qmax_from_spec xi xi0) as [A3 A4]. destruct (qmin_from_spec xo xo0) as [B1 B2]. destruct (qmax_from_spec xo xo0) as [B3 B4]. destruct (_ || _) eqn:E; [reflexivity|]. exfalso. apply orb_false_iff in E as [E1 E2]. apply Qlt_bool_false in E1, E2.
    pose proof (W1 _ _ (or_introl eq_refl) A1) as U1. pose proof (W1 _ _ A3 (or_introl eq_refl)) as U2. pose proof (W2 _ _ (or_introl eq_refl) B1) as U3. pose proof (W2 _ _ B3 (or_introl eq_refl)) as U4.
    assert (Y : (Qabs (xi0 - xo0) <= 180)%Q) by (apply Qabs_Qle_condition; lra). lra. }
  rewrite X. reflexivity.
Qed.
Print Assumptions C128_seam_refuted.

(** polygon_overlap: scores between 0 and 1, one for each polygon; the score on the union is
    never over the score on the smallest; both are the same when the polygons are swapped; an
    error exactly when one of the divisions is by a null area. *)
Theorem C128_overlap : forall (poly : Type) inter area (plus : poly -> poly -> poly),
  (forall p q, (0 <= inter p q)%Q /\ (inter p q <= area p)%Q /\ (inter p q <= area q)%Q /\ (inter p q == inter q p)%Q /\ (area (plus p q) == area p + area q - inter p q)%Q) ->
  forall p0 l,
  (forall minimal, polygon_overlap poly inter area plus p0 l minimal = None <-> exists q, In q l /\ (if minimal then area p0 == 0 \/ area q == 0 else area p0 == 0 /\ area q == 0)%Q) /\
  (forall minimal r, polygon_overlap poly inter area plus p0 l minimal = Some r -> length r = length l /\
     forall i q v, nth_error l i = Some q -> nth_error r i = Some v -> (0 <= v <= 1)%Q /\
       (v == 0 <-> inter p0 q == 0)%Q /\
       (if minimal then (v == 1 <-> inter p0 q == area p0 \/ inter p0 q == area q)%Q else (v == 1 <-> inter p0 q == area p0 /\ inter p0 q == area q)%Q) /\
       (exists w, polygon_overlap poly inter area plus q [p0] minimal = Some [w] /\ (w == v)%Q) /\
       (minimal = false -> (0 < area p0)%Q -> (0 < area q)%Q -> exists w, polygon_overlap poly inter area plus p0 [q] true = Some [w] /\ (v <= w)%Q)).
Proof.
  intros poly inter area plus H p0 l.
  assert (AP : forall p, (0 <= area p)%Q) by (intros p; destruct (H p p) as (? & ? & _); lra).
  set (f := fun (minimal : bool) p_ => if minimal then div (inter p0 p_) (qmin2 (area p0) (area p_)) else div (inter p0 p_) (area (plus p0 p_))).
  assert (FN : forall p minimal q, (if minimal : bool then div (inter p q) (qmin2 (area p) (area q)) else div (inter p q) (area (plus p q))) = None <-> (if minimal then area p == 0 \/ area q == 0 else area p == 0 /\ area q == 0)%Q).
  { intros p minimal q. destruct (H p q) as (I0 & I1 & I2 & I3 & I4). pose proof (AP p). pose proof (AP q). destruct (qmin2_spec (area p) (area q)) as (M1 & M2 & M3). unfold div. destruct minimal.
    - destruct (Qeq_bool _ 0) eqn:E; split; intros X; try reflexivity; try discriminate. + apply Qeq_bool_iff in E. destruct M3 as [M3|M3]; rewrite M3 in E; auto. + exfalso. apply Qeq_bool_neq in E. apply E. destruct X as [X|X]; destruct M3 as [M3|M3]; rewrite M3 in *; lra.
    - destruct (Qeq_bool _ 0) eqn:E; split; intros X; try reflexivity; try discriminate. + apply Qeq_bool_iff in E. lra. + exfalso. apply Qeq_bool_neq in E. apply E. lra. }
  split.
  - intros minimal. split.
    + intros E. assert (D : (forall q, In q l -> exists y, f minimal q = Some y) \/ exists q, In q l /\ f minimal q = None). { clear E. induction l as [|q l' IH]; [left; intros q []|]. destruct (f minimal q) as [y|] eqn:F; [|right; exists q; split; [left; reflexivity|exact F]]. destruct IH as [IH|(q' & I & F')]; [left|right; exists q'; split; [right; exact I|exact F']]. intros q' [<-|I]; [exists y; exact F|apply IH, I]. }
      destruct D as [D|(q & I & F)]; [|exists q; split; [exact I|apply (FN p0 minimal q), F]]. destruct (sequence_map_total (f minimal) l D) as [r R]. exfalso. unfold polygon_overlap in E. fold (f minimal) in E. rewrite R in E. discriminate.
    + intros (q & I & X). apply (FN p0 minimal q) in X. destruct (polygon_overlap poly inter area plus p0 l minimal) as [r|] eqn:E; [|reflexivity]. exfalso. unfold polygon_overlap in E. fold (f minimal) in E. destruct (sequence_map_nth _ _ _ E) as [_ NR]. apply In_nth_error in I as [i Hi]. destruct (NR i q Hi) as (b & _ & B). unfold f in B. rewrite X in B. discriminate.
  - intros minimal r R. unfold polygon_overlap in R. fold (f minimal) in R. destruct (sequence_map_nth _ _ _ R) as [LR NR]. split; [exact LR|]. intros i q v Hq Hv. destruct (NR i q Hq) as (v' & Hv' & F). rewrite Hv in Hv'. apply Some_inj in Hv'. subst v'.
    destruct (H p0 q) as (I0 & I1 & I2 & I3 & I4). destruct (H q p0) as (J0 & J1 & J2 & J3 & J4). destruct (qmin2_spec (area p0) (area q)) as (M1 & M2 & M3). destruct (qmin2_spec (area q) (area p0)) as (P1 & P2 & P3). pose proof (AP p0) as A0. pose proof (AP q) as A1.
    assert (NN : ~ (if minimal then area p0 == 0 \/ area q == 0 else area p0 == 0 /\ area q == 0)%Q). { intros X. apply (FN p0 minimal q) in X. unfold f in F. rewrite X in F. discriminate. }
    assert (ME : (qmin2 (area p0) (area q) == qmin2 (area q) (area p0))%Q) by (destruct M3 as [X|X]; destruct P3 as [Y|Y]; rewrite X, Y in *; lra).
    assert (IM : (inter p0 q <= qmin2 (area p0) (area q))%Q) by (destruct M3 as [X|X]; rewrite X; lra).
    destruct minimal; unfold f in F.
    + assert (MP : (0 < qmin2 (area p0) (area q))%Q). { destruct (Qlt_le_dec 0 (area p0)) as [X|X]; [|exfalso; apply NN; left; lra]. destruct (Qlt_le_dec 0 (area q)) as [Y|Y]; [|exfalso; apply NN; right; lra]. destruct M3 as [Z|Z]; rewrite Z; assumption. }
      rewrite div_spec in F by lra. apply Some_inj in F. subst v. destruct (ratio _ _ I0 IM MP) as (R1 & R2 & R3). split; [exact R1|]. split; [exact R2|]. split; [rewrite R3; split; [intros X; destruct M3 as [Z|Z]; rewrite Z in X; auto|intros [X|X]; lra]|]. split; [|discriminate].
      eexists. split; [unfold polygon_overlap; cbn [map sequence]; rewrite div_spec by lra; reflexivity|]. rewrite J3, ME. reflexivity.
    + assert (UP : (0 < area (plus p0 q))%Q). { rewrite I4. destruct (Qlt_le_dec 0 (area p0)) as [X|X]; [lra|]. destruct (Qlt_le_dec 0 (area q)) as [Y|Y]; [lra|]. exfalso. apply NN. split; lra. }
      rewrite div_spec in F by lra. apply Some_inj in F. subst v. assert (IU : (inter p0 q <= area (plus p0 q))%Q) by lra. destruct (ratio _ _ I0 IU UP) as (R1 & R2 & R3). split; [exact R1|]. split; [exact R2|]. split; [rewrite R3, I4; split; [intros X; split; lra|intros [X Y]; lra]|]. split.
      * assert (UP2 : (0 < area (plus q p0))%Q) by lra. eexists. split; [unfold polygon_overlap; cbn [map sequence]; rewrite div_spec by lra; reflexivity|]. rewrite J4, I4, J3. assert (UE : (area q + area p0 - inter p0 q == area p0 + area q - inter p0 q)%Q) by ring. rewrite UE. reflexivity.
      * intros _ B0 B1. assert (MP : (0 < qmin2 (area p0) (area q))%Q) by (destruct M3 as [Z|Z]; rewrite Z; assumption). eexists. split; [unfold polygon_overlap; cbn [map sequence]; rewrite div_spec by lra; reflexivity|].
        apply Qle_shift_div_l; [exact MP|]. assert (E : (inter p0 q / area (plus p0 q) * area (plus p0 q) == inter p0 q)%Q) by (field; lra). set (v := (inter p0 q / area (plus p0 q))%Q) in *. assert (MU : (qmin2 (area p0) (area q) <= area (plus p0 q))%Q) by lra. destruct R1 as [R1 _]. assert (Y : (qmin2 (area p0) (area q) * v <= area (plus p0 q) * v)%Q) by (apply Qmult_le_compat_r; assumption). lra.
Qed.
Print Assumptions C128_overlap.

Lemma cut_pieces : forall (f : point -> Q) cs, cut (concat (map (fun c => [None] ++ map (fun q => Some (f q)) c) cs)) = ([], map (map f) cs).
Proof.
  intros f. induction cs as [|c cs IH]; [reflexivity|]. cbn [map concat app cut]. assert (E : forall c r, cut r = ([], map (map f) cs) -> cut (map (fun q => Some (f q)) c ++ r) = (map f c, map (map f) cs)). { clear. induction c as [|q c IHc]; intros r R; [exact R|]. cbn [map app cut]. rewrite (IHc r R). reflexivity. }
  cbn [app] in IH. rewrite (E c _ IH). reflexivity.
Qed.
Lemma union_inside : forall (poly : Type) (make : list point -> poly) (plus : poly -> poly -> poly) (inside : poly -> point -> Prop),
  (forall p q x, inside (plus p q) x <-> inside p x \/ inside q x) ->
  forall r p x, inside (fold_left (fun p c' => plus p (make c')) r p) x <-> inside p x \/ exists c, In c r /\ inside (make c) x.
Proof.
  intros poly make plus inside H. induction r as [|c r IH]; intros p x; cbn [fold_left].
  - split; [auto|]. intros [X|(c & [] & _)]. exact X.
  - rewrite IH, H. split.
    + intros [[X|X]|(c' & I & X)]; [auto|right; exists c; split; [left; reflexivity|exact X]|right; exists c'; split; [right; exact I|exact X]].
    + intros [X|(c' & [<-|I] & X)]; [auto|auto|right; exists c'; auto].
Qed.
(** merge: the pieces between nan are the contours of one polygon, the union of all those
    given; an error without contour. *)
Theorem C128_merge : forall (poly : Type) (make : list point -> poly) plus contours (inside : poly -> point -> Prop),
  (forall p q x, inside (plus p q) x <-> inside p x \/ inside q x) -> (forall p, contours p <> []) ->
  merge poly make plus contours [] = None /\
  forall l, l <> [] -> (forall x y, In (x, y) l -> length y = length x) ->
  exists xs ys p, merge poly make plus contours l = Some (xs, ys) /\
    cut xs = ([], map (map fst) (contours p)) /\ cut ys = ([], map (map snd) (contours p)) /\ length xs = length ys /\
    forall m, inside p m <-> exists x y, In (x, y) l /\ inside (make (combine x y)) m.
Proof.
  intros poly make plus contours inside H NE. split; [reflexivity|]. intros l N L. unfold merge.
  rewrite (seq_some _ (fun c => combine (fst c) (snd c)) l) by (intros [x y] I; apply combine_ok; apply L, I). cbn [bind]. destruct l as [|c l]; [congruence|]. cbn [map].
  set (p := fold_left _ _ _). destruct (contours p) as [|c0 cr] eqn:E; [exfalso; apply (NE p), E|]. rewrite <- E. clear E c0 cr. eexists _, _, p. split; [reflexivity|]. split; [apply cut_pieces|]. split; [apply cut_pieces|]. split.
  - induction (contours p) as [|c0 cr IH]; [reflexivity|]. cbn [app] in IH. cbn [map concat app length]. rewrite !app_length, IH, !map_length. reflexivity.
  - intros m. unfold p. rewrite (union_inside poly make plus inside H). split.
    + intros [X|(v & I & X)]; [exists (fst c), (snd c); split; [left; destruct c; reflexivity|exact X]|]. apply in_map_iff in I as ([x y] & <- & I). exists x, y. split; [right; exact I|exact X].
    + intros (x & y & [E|I] & X); [left; subst c; exact X|right]. exists (combine x y). split; [apply in_map_iff; exists (x, y); auto|exact X].
Qed.
Print Assumptions C128_merge.

(** shape_polygon: one shape for each track present, by increasing number, the union of the
    contours of the rows of this track. *)
Theorem C128_shapes : forall (poly : Type) (make : list point -> poly) plus contours (inside : poly -> point -> Prop),
  (forall p q x, inside (plus p q) x <-> inside p x \/ inside q x) -> (forall p, contours p <> []) ->
  forall (A : Type) (contour : A -> list Q * list Q) (l : list (nat * A)), l <> [] -> grouped (numbers l) ->
  (forall t a, In (t, a) l -> length (snd (contour a)) = length (fst (contour a))) ->
  exists ts r, StronglySorted lt ts /\ (forall t, In t ts <-> In t (numbers l)) /\
    shape_polygon poly make plus contours contour (fresh l) = Some r /\ length r = length ts /\
    forall i t xs ys, nth_error ts i = Some t -> nth_error r i = Some (xs, ys) ->
      exists p, cut xs = ([], map (map fst) (contours p)) /\ cut ys = ([], map (map snd) (contours p)) /\
        forall m, inside p m <-> exists a, In (t, a) l /\ inside (make (combine (fst (contour a)) (snd (contour a)))) m.
Proof.
  intros poly make plus contours inside H NE A contour l N G L. destruct (C127_tracks l N G) as (ts & S1 & S2 & IT & _). exists ts. destruct (iter_track (fresh l)) as [[tr d']|] eqn:IE; [|discriminate]. cbn [option_map fst] in IT. apply Some_inj in IT. subst tr.
  assert (RO : forall t a, In (t, a) l -> In (t, a) (rows_of t l)) by (intros t a I; apply filter_In; split; [exact I|apply Nat.eqb_refl]).
  assert (M : forall t, In t ts -> exists xs ys p, merge poly make plus contours (map (fun r => contour (snd r)) (rows_of t l)) = Some (xs, ys) /\ cut xs = ([], map (map fst) (contours p)) /\ cut ys = ([], map (map snd) (contours p)) /\ forall m, inside p m <-> exists a, In (t, a) l /\ inside (make (combine (fst (contour a)) (snd (contour a)))) m).
  { intros t I. apply S2 in I. unfold numbers in I. apply in_map_iff in I as ([t' a] & E & I). cbn in E. subst t'. destruct (C128_merge poly make plus contours inside H NE) as [_ MM]. destruct (MM (map (fun r => contour (snd r)) (rows_of t l))) as (xs & ys & p & E1 & E2 & E3 & _ & E4).
    - intros X. apply map_eq_nil in X. pose proof (RO t a I) as Y. rewrite X in Y. destruct Y.
    - intros x y XY. apply in_map_iff in XY as ([t2 a2] & E & I2). apply filter_In in I2 as [I2 _]. cbn [snd] in E. pose proof (L t2 a2 I2) as LL. rewrite E in LL. exact LL.
    - exists xs, ys, p. split; [exact E1|]. split; [exact E2|]. split; [exact E3|]. intros m. rewrite E4. split.
      + intros (x & y & XY & X). apply in_map_iff in XY as ([t2 a2] & E & I2). apply filter_In in I2 as [I2 T2]. cbn [fst snd] in *. apply Nat.eqb_eq in T2. subst t2. exists a2. rewrite E. split; assumption.
      + intros (a2 & I2 & X). exists (fst (contour a2)), (snd (contour a2)). split; [|exact X]. apply in_map_iff. exists (t, a2). split; [cbn [snd]; destruct (contour a2); reflexivity|apply RO, I2]. }
  unfold shape_polygon. rewrite IE. cbn [bind fst]. rewrite map_map. destruct (sequence_map_total (fun t => merge poly make plus contours (map (fun r => contour (snd r)) (rows_of t l))) ts) as [r R]. { intros t I. destruct (M t I) as (xs & ys & p & E & _). exists (xs, ys). exact E. }
  exists r. split; [exact S1|]. split; [exact S2|]. split; [exact R|]. destruct (sequence_map_nth _ _ _ R) as [LR NR]. split; [exact LR|]. intros i t xs ys Ht Hr. destruct (NR i t Ht) as (b & Hb & E). rewrite Hr in Hb. apply Some_inj in Hb. subst b. destruct (M t (nth_error_In _ _ Ht)) as (xs' & ys' & p & E1 & E2 & E3 & E4). rewrite E in E1. apply Some_inj in E1. injection E1 as <- <-. exists p. split; [exact E2|]. split; [exact E3|exact E4].
Qed.
Print Assumptions C128_shapes.

(** ** Cases, with rectangles *)
Definition rect := (Q * Q * Q * Q)%type.
Definition pos (v : Q) : Q := if Qlt_bool 0 v then v else 0%Q.
Definition larger (a b : Q) : Q := if Qlt_bool a b then b else a.
Definition rect_of (v : list point) : rect :=
  match v with [] => (0, 0, 0, 0)%Q | (x, y) :: r => (qmin_from x (map fst r), qmax_from x (map fst r), qmin_from y (map snd r), qmax_from y (map snd r)) end.
Definition rect_area (p : rect) : Q := let '(a, b, c, d) := p in (pos (b - a) * pos (d - c))%Q.
Definition rect_inter (p q : rect) : Q := let '(a, b, c, d) := p in let '(a', b', c', d') := q in (pos (qmin2 b b' - larger a a') * pos (qmin2 d d' - larger c c'))%Q.
Lemma pos_spec : forall v, (0 <= pos v)%Q /\ (v <= pos v)%Q /\ forall w, (0 <= w -> v <= w -> pos v <= w)%Q.
Proof. intros v. unfold pos. destruct (Qlt_bool 0 v) eqn:E; [apply Qlt_bool_iff in E|apply Qlt_bool_false in E]; repeat split; try lra; intros; lra. Qed.
Lemma larger_spec : forall a b, (a <= larger a b /\ b <= larger a b)%Q.
Proof. intros a b. unfold larger. destruct (Qlt_bool a b) eqn:E; [apply Qlt_bool_iff in E|apply Qlt_bool_false in E]; lra. Qed.
Lemma mult_mono : forall a b c d, (0 <= a -> a <= b -> 0 <= c -> c <= d -> a * c <= b * d)%Q.
Proof. intros a b c d A B C D. apply Qle_trans with (b * c)%Q; [apply Qmult_le_compat_r; assumption|]. rewrite !(Qmult_comm b). apply Qmult_le_compat_r; lra. Qed.
(** Rectangles meet what is asked to areas. *)
Lemma rect_ok : forall p q, (0 <= rect_inter p q)%Q /\ (rect_inter p q <= rect_area p)%Q /\ (rect_inter p q <= rect_area q)%Q.
Proof.
  intros [[[a b] c] d] [[[a' b'] c'] d']. unfold rect_inter, rect_area. destruct (qmin2_spec b b') as (B1 & B2 & _). destruct (qmin2_spec d d') as (D1 & D2 & _). destruct (larger_spec a a') as (A1 & A2). destruct (larger_spec c c') as (C1 & C2).
  pose proof (pos_spec (qmin2 b b' - larger a a')) as (P1 & P2 & P3). pose proof (pos_spec (qmin2 d d' - larger c c')) as (Q1 & Q2 & Q3). pose proof (pos_spec (b - a)) as (R1 & R2 & _). pose proof (pos_spec (b' - a')) as (S1 & S2 & _). pose proof (pos_spec (d - c)) as (T1 & T2 & _). pose proof (pos_spec (d' - c')) as (U1 & U2 & _).
  split; [apply Qmult_le_0_compat; assumption|]. split; apply mult_mono; try assumption; [apply P3|apply Q3|apply P3|apply Q3]; lra.
Qed.
Definition sq_x (x w : Q) : list Q := [x; x + w; x + w; x; x]%Q.
Definition sq_y (y w : Q) : list Q := [y; y; y + w; y + w; y]%Q.
(** Two squares of 2 degrees with a common quarter, one inside the other, two far away, and
    the same two with a common quarter when the second one is a turn away: masked. *)
Example C128_case :
  option_map (map (fun q => (Qred (fst q), snd q))) (cost_function_common_area rect rect_of rect_inter rect_area
    [((sq_x 0 2, sq_y 0 2), (sq_x 1 2, sq_y 1 2)); ((sq_x 0 2, sq_y 0 2), (sq_x (1#2) 1, sq_y (1#2) 1)); ((sq_x 0 2, sq_y 0 2), (sq_x 5 2, sq_y 0 2)); ((sq_x 0 2, sq_y 0 2), (sq_x 361 2, sq_y 1 2))]) =
  Some [(3#4, false); (0, false); (1, true); (1, true)]%Q /\
  within 2 (sq_x 0 2) /\ within 2 (sq_x 361 2) /\ (180 < Qabs (hd 0 (sq_x 0 2) - hd 0 (sq_x 361 2)))%Q.
Proof.
  split; [vm_compute; reflexivity|]. split; [|split; [|reflexivity]]; intros a b I J; repeat (destruct I as [<-|I]; [|try contradiction]); repeat (destruct J as [<-|J]; [|try contradiction]); try contradiction; vm_compute; discriminate.
Qed.
(** Polygons as lists of contours: the union of two of them. *)
Example C128_case_merge :
  merge (list (list point)) (fun v => [v]) (@app _) (fun p => p) [([0; 1; 0], [0; 0; 1]); ([5; 6; 5], [5; 5; 6])]%Q =
  Some ([None; Some 0; Some 1; Some 0; None; Some 5; Some 6; Some 5], [None; Some 0; Some 0; Some 1; None; Some 5; Some 5; Some 6])%Q.
Proof. reflexivity. Qed.
(** Polygons made of three unit cells: what is asked to areas and unions holds. *)
Definition cells := (bool * bool * bool)%type.
Definition one (b : bool) : Q := if b then 1%Q else 0%Q.
Definition cells_area (p : cells) : Q := let '(a, b, c) := p in (one a + one b + one c)%Q.
Definition cells_and (p q : cells) : cells := let '(a, b, c) := p in let '(a', b', c') := q in (a && a', b && b', c && c').
Definition cells_or (p q : cells) : cells := let '(a, b, c) := p in let '(a', b', c') := q in (a || a', b || b', c || c').
Example C128_case_overlap :
  (forall p q, (0 <= cells_area (cells_and p q))%Q /\ (cells_area (cells_and p q) <= cells_area p)%Q /\ (cells_area (cells_and p q) <= cells_area q)%Q /\ (cells_area (cells_and p q) == cells_area (cells_and q p))%Q /\ (cells_area (cells_or p q) == cells_area p + cells_area q - cells_area (cells_and p q))%Q) /\
  option_map (map Qred) (polygon_overlap cells (fun p q => cells_area (cells_and p q)) cells_area cells_or (true, true, false) [(true, true, true); (false, true, true); (false, false, true)] true) = Some [1; 1#2; 0]%Q /\
  option_map (map Qred) (polygon_overlap cells (fun p q => cells_area (cells_and p q)) cells_area cells_or (true, true, false) [(true, true, true); (false, true, true); (false, false, true)] false) = Some [2#3; 1#3; 0]%Q.
Proof.
  split; [|split; vm_compute; reflexivity]. intros [[[] []] []] [[[] []] []]; vm_compute; repeat split; discriminate.
Qed.
