(** Property C129: azimuth of tracks. *)
From Coq Require Import List Arith Bool ZArith Reals Lia Lra Sorted.
Import ListNotations.
From Verif Require Import Base Spec Corr_model TrackObs_model TrackObs_spec TrackObs_proofs TrackObs_more TrackObs_filter Match_props Iter_model Iter_props Sph_model Sph_proofs Az_model.
Local Open Scope R_scope.

(** ** Specification *)
(** Unit vectors to the north and to the east at a place (the place is in Sph_proofs). *)
Definition north (lon lat : R) : R * R * R := (- sin (lat * D2R) * cos (lon * D2R), - sin (lat * D2R) * sin (lon * D2R), cos (lat * D2R)).
Definition east (lon : R) : R * R * R := (- sin (lon * D2R), cos (lon * D2R), 0).
(** [b] degrees, clockwise from the north, is the direction in which the second place is seen
    from the first one. *)
Definition bearing (lon0 lat0 lon1 lat1 b : R) : Prop :=
  exists h, 0 <= h /\ dot (place lon1 lat1) (north lon0 lat0) = h * cos (b * D2R) /\ dot (place lon1 lat1) (east lon0) = h * sin (b * D2R).

Lemma north_val : forall lon0 lat0 lon1 lat1, dot (place lon1 lat1) (north lon0 lat0) = cos (lat0 * D2R) * sin (lat1 * D2R) - sin (lat0 * D2R) * cos (lat1 * D2R) * cos (lon1 * D2R - lon0 * D2R).
Proof. intros. unfold dot, place, north. rewrite cos_minus. ring. Qed.
Lemma east_val : forall lon0 lon1 lat1, dot (place lon1 lat1) (east lon0) = sin (lon1 * D2R - lon0 * D2R) * cos (lat1 * D2R).
Proof. intros. unfold dot, place, east. rewrite sin_minus. ring. Qed.
Lemma degrees_back : forall x, degrees x * D2R = x.
Proof. intros. unfold degrees, D2R. field. apply PI_neq0. Qed.
Lemma azimuth_val : forall lon0 lat0 lon1 lat1, azimuth lon0 lat0 lon1 lat1 = degrees (arctan2 (dot (place lon1 lat1) (east lon0)) (dot (place lon1 lat1) (north lon0 lat0))) + 90.
Proof. intros. rewrite north_val, east_val. reflexivity. Qed.
Lemma degrees_range : forall y x, -180 < degrees (arctan2 y x) <= 180.
Proof. intros y x. destruct (arctan2_range y x) as [A B]. pose proof PI_RGT_0 as P. unfold degrees. assert (E : 180 / PI * PI = 180) by (field; apply PI_neq0). assert (K : 0 < 180 / PI) by (apply Rmult_lt_0_compat; [lra|apply Rinv_0_lt_compat, P]). set (k := 180 / PI) in *. split; nra. Qed.
Lemma azimuth_bearing : forall lon0 lat0 lon1 lat1, -90 < azimuth lon0 lat0 lon1 lat1 <= 270 /\ bearing lon0 lat0 lon1 lat1 (azimuth lon0 lat0 lon1 lat1 - 90).
Proof.
  intros. rewrite azimuth_val. set (y := dot _ (east lon0)). set (x := dot _ (north lon0 lat0)). split; [pose proof (degrees_range y x); lra|]. destruct (arctan2_mult y x) as [A B]. exists (sqrt (x ^ 2 + y ^ 2)). split; [apply sqrt_pos|]. replace (degrees (arctan2 y x) + 90 - 90) with (degrees (arctan2 y x)) by ring. rewrite degrees_back. fold x y. rewrite A, B. split; reflexivity.
Qed.

(** First and last rows of the tracks. *)
Lemma nth_firstn : forall {X} (l : list X) k m, (m < k)%nat -> nth_error (firstn k l) m = nth_error l m.
Proof. induction l as [|x l IH]; intros [|k] [|m] H; try lia; try reflexivity. cbn [firstn nth_error]. apply IH. lia. Qed.
Lemma slice_ends : forall {X} (l : list X) a n x, Base.slice l a (a + S n) = x -> (a + S n <= length l)%nat -> nth_error l a = hd_error x /\ nth_error l (a + n) = nth_error x (length x - 1) /\ length x = S n.
Proof.
  intros X l a n x E L. unfold Base.slice in E. replace (a + S n - a)%nat with (S n) in E by lia. assert (LX : length x = S n) by (subst x; rewrite firstn_length, skipn_length; lia). subst x. split; [|split; [|exact LX]].
  - destruct (skipn a l) as [|u r] eqn:S1; [assert (Z := skipn_length a l); rewrite S1 in Z; cbn in Z; lia|]. cbn [firstn hd_error]. replace a with (a + 0)%nat by lia. rewrite <- nth_error_skipn_add. rewrite S1. reflexivity.
  - rewrite LX. replace (S n - 1)%nat with n by lia. rewrite nth_firstn by lia. rewrite nth_error_skipn_add. reflexivity.
Qed.

Lemma pyget_nat : forall {X} (l : list X) z i, z = Z.of_nat i -> (i < length l)%nat -> pyget l z = nth_error l i.
Proof. intros X l z i -> L. unfold pyget, pyidx. destruct (Z.leb_spec 0 (Z.of_nat i)); [|lia]. destruct (Z.ltb_spec (Z.of_nat i) (Z.of_nat (length l))); [|lia]. cbn [bind]. rewrite Nat2Z.id. reflexivity. Qed.
Lemma combine_map : forall {X Y Z} (f : X -> Y) (g : X -> Z) l, combine (map f l) (map g l) = map (fun x => (f x, g x)) l.
Proof. induction l as [|x l IH]; [reflexivity|]. cbn [map combine]. rewrite IH. reflexivity. Qed.

(** ** Property C129 *)
(** One value for each track present, by increasing number, over -90 and up to 270 degrees:
    90 degrees more than the direction (clockwise from the north) of the last place seen from
    the first one; with the option the sign changes for the tracks which start in the south. *)
Theorem C129_azimuth : forall (l : list (nat * (R * R))) equatorward, l <> [] -> grouped (numbers l) ->
  exists ts r, StronglySorted lt ts /\ (forall t, In t ts <-> In t (numbers l)) /\
    get_azimuth equatorward (fresh l) = Some r /\ length r = length ts /\
    forall i t v, nth_error ts i = Some t -> nth_error r i = Some v ->
      exists lon0 lat0 lon1 lat1 a,
        hd_error (rows_of t l) = Some (t, (lon0, lat0)) /\ nth_error (rows_of t l) (length (rows_of t l) - 1) = Some (t, (lon1, lat1)) /\
        -90 < a <= 270 /\ bearing lon0 lat0 lon1 lat1 (a - 90) /\
        v = (if equatorward then (if Rlt_dec lat0 0 then - a else a) else a).
Proof.
  intros l eq NE G. destruct (tables_l l NE G) as (index & number & E & T).
  assert (CT : compute_tables (fresh l) = Some ((index, number), Ds l (Some (index, number)) None)). { unfold compute_tables, fresh. cbn [Iter_model.tables rows nbt]. unfold numbers in E. rewrite E. reflexivity. }
  exists (present l). unfold get_azimuth. rewrite CT. cbn [bind fst snd rows fresh]. rewrite (combine_seq l _ _ T), filter_map_swap. cbn [snd]. fold (present l). rewrite !map_map. cbn [fst snd].
  set (first := fun t => nth_error (rows_of t l) 0). set (lst := fun t => nth_error (rows_of t l) (length (rows_of t l) - 1)).
  assert (V : forall t, In t (present l) -> exists p q, first t = Some (t, p) /\ lst t = Some (t, q) /\ pyget l (nth t index (-1)%Z) = Some (t, p) /\ pyget l (nth t index (-1)%Z - 1 + Z.of_nat (count t (numbers l)))%Z = Some (t, q)).
  { intros t I. apply present_In in I. destruct T as (_ & _ & T). assert (B : (t < S (list_max (numbers l)))%nat) by (apply list_max_ge in I; lia). destruct (T t B) as (_ & f & F & _ & F0 & FI). rewrite (nth_error_nth _ _ (-1)%Z F). assert (C0 : count t (numbers l) <> 0%nat) by (intros C; apply count_0 in C; contradiction). specialize (F0 C0).
    destruct (index_slice_track l t f I F0 FI) as [_ S2]. assert (LE : (f + Z.of_nat (count t (numbers l)) <= Z.of_nat (length l))%Z). { assert (X : nth_error (numbers l) (Z.to_nat (f + Z.of_nat (count t (numbers l)) - 1)) = Some t) by (apply FI; lia). apply nth_error_Some_lt in X. unfold numbers in X at 2. rewrite map_length in X. lia. }
    destruct (count t (numbers l)) as [|n] eqn:CE; [congruence|]. replace (Z.to_nat (f + Z.of_nat (S n))) with (Z.to_nat f + S n)%nat in S2 by lia. destruct (slice_ends l (Z.to_nat f) n _ S2 ltac:(lia)) as (H1 & H2 & H3).
    assert (RT : forall k x, nth_error (rows_of t l) k = Some x -> fst x = t). { intros k x X. apply nth_error_In in X. apply filter_In in X as [_ X]. apply Nat.eqb_eq, X. }
    assert (HF : exists x, nth_error (rows_of t l) 0 = Some x) by (apply nth_error_lt_Some; lia). destruct HF as [[t1 p] HF]. pose proof (RT 0%nat _ HF) as X1. cbn in X1. subst t1.
    assert (HL : exists x, nth_error (rows_of t l) (length (rows_of t l) - 1) = Some x) by (apply nth_error_lt_Some; lia). destruct HL as [[t1 q] HL]. pose proof (RT _ _ HL) as X1. cbn in X1. subst t1.
    exists p, q. split; [exact HF|]. split; [exact HL|]. split.
    - rewrite (pyget_nat l f (Z.to_nat f)) by lia. rewrite H1. destruct (rows_of t l); [discriminate|]. exact HF.
    - rewrite (pyget_nat l _ (Z.to_nat f + n)) by lia. rewrite H2. exact HL. }
  set (get := fun o : option (nat * (R * R)) => match o with Some x => x | None => (0%nat, (0, 0)) end).
  rewrite (seq_some (fun t => pyget l (nth t index (-1)%Z)) (fun t => get (first t)) (present l)) by (intros t I; destruct (V t I) as (p & q & E1 & _ & E2 & _); rewrite E1; exact E2). cbn [bind].
  rewrite (seq_some (fun t => pyget l (nth t index (-1)%Z - 1 + Z.of_nat (count t (numbers l)))%Z) (fun t => get (lst t)) (present l)) by (intros t I; destruct (V t I) as (p & q & _ & E1 & _ & E2); rewrite E1; exact E2). cbn [bind].
  rewrite combine_map, map_map. eexists. split; [apply present_sorted|]. split; [apply present_In|]. split; [reflexivity|]. split; [apply map_length|].
  intros i t v Ht Hv. rewrite nth_error_map, Ht in Hv. cbn [option_map] in Hv. destruct (V t (nth_error_In _ _ Ht)) as ([lon0 lat0] & [lon1 lat1] & E1 & E2 & _). rewrite E1, E2 in Hv. cbn [get] in Hv. apply Some_inj in Hv.
  destruct (azimuth_bearing lon0 lat0 lon1 lat1) as [A1 A2]. exists lon0, lat0, lon1, lat1, (azimuth lon0 lat0 lon1 lat1). split; [unfold first in E1; destruct (rows_of t l); [discriminate|exact E1]|]. split; [exact E2|]. split; [exact A1|]. split; [exact A2|]. subst v. destruct eq; [|reflexivity].
  pose proof D2R_pos as D. unfold radians. destruct (Rlt_dec (lat0 * D2R) 0) as [X|X]; destruct (Rlt_dec lat0 0) as [Y|Y]; try ring; exfalso; nra.
Qed.
Print Assumptions C129_azimuth.

(** Directions: along a meridian to the north 90, to the south 270; on the equator to the east
    180, to the west 0; no move 90. *)
Lemma meridian : forall lon lat0 lat1, dot (place lon lat1) (east lon) = 0 /\ dot (place lon lat1) (north lon lat0) = sin ((lat1 - lat0) * D2R).
Proof. intros. rewrite east_val, north_val. replace (lon * D2R - lon * D2R) with 0 by ring. rewrite sin_0, cos_0. split; [ring|]. replace ((lat1 - lat0) * D2R) with (lat1 * D2R - lat0 * D2R) by ring. rewrite sin_minus. ring. Qed.
Lemma sin_deg : forall d, 0 < d < 180 -> 0 < sin (d * D2R).
Proof. intros d H. pose proof PI_RGT_0. apply sin_gt_0; unfold D2R; [|replace PI with (180 * (PI / 180)) at 2 by field]; [apply Rmult_lt_0_compat; lra|apply Rmult_lt_compat_r; lra]. Qed.
Lemma atan_0' : forall x, 0 < x -> arctan2 0 x = 0.
Proof. intros x H. unfold arctan2. destruct (Rlt_dec 0 x); [|lra]. replace (0 / x) with 0 by (field; lra). apply atan_0. Qed.
Lemma atan_pi : forall x, x < 0 -> arctan2 0 x = PI.
Proof. intros x H. unfold arctan2. destruct (Rlt_dec 0 x); [lra|]. destruct (Rlt_dec x 0); [|lra]. destruct (Rlt_dec 0 0); [lra|]. replace (0 / x) with 0 by (field; lra). rewrite atan_0. ring. Qed.
Theorem C129_directions : forall lon lat0 lat1 d,
  (0 < lat1 - lat0 < 180 -> azimuth lon lat0 lon lat1 = 90) /\
  (0 < lat0 - lat1 < 180 -> azimuth lon lat0 lon lat1 = 270) /\
  azimuth lon lat0 lon lat0 = 90 /\
  (0 < d < 180 -> azimuth lon 0 (lon + d) 0 = 180 /\ azimuth lon 0 (lon - d) 0 = 0).
Proof.
  intros lon lat0 lat1 d. assert (P := PI_neq0). split; [|split; [|split]].
  - intros H. rewrite azimuth_val. destruct (meridian lon lat0 lat1) as [-> ->]. rewrite atan_0' by (apply sin_deg; lra). unfold degrees. ring.
  - intros H. rewrite azimuth_val. destruct (meridian lon lat0 lat1) as [-> ->]. rewrite atan_pi. + unfold degrees. field. exact P. + replace ((lat1 - lat0) * D2R) with (- ((lat0 - lat1) * D2R)) by ring. rewrite sin_neg. pose proof (sin_deg (lat0 - lat1) H). lra.
  - rewrite azimuth_val. destruct (meridian lon lat0 lat0) as [-> ->]. replace ((lat0 - lat0) * D2R) with 0 by ring. rewrite sin_0, arctan2_0. unfold degrees. ring.
  - intros H. assert (EQ : forall e, azimuth lon 0 (lon + e) 0 = degrees (arctan2 (sin (e * D2R)) 0) + 90). { intros e. unfold azimuth, radians. rewrite Rmult_0_l, sin_0, cos_0. f_equal. f_equal. replace ((lon + e) * D2R - lon * D2R) with (e * D2R) by ring. f_equal; ring. }
    pose proof (sin_deg d H) as SD. split.
    + rewrite EQ. unfold arctan2. destruct (Rlt_dec 0 0); [lra|]. destruct (Rlt_dec 0 (sin (d * D2R))); [|lra]. unfold degrees. field. exact P.
    + replace (lon - d) with (lon + - d) by ring. rewrite EQ. replace (- d * D2R) with (- (d * D2R)) by ring. rewrite sin_neg. unfold arctan2. destruct (Rlt_dec 0 0); [lra|]. destruct (Rlt_dec 0 (- sin (d * D2R))); [lra|]. destruct (Rlt_dec (- sin (d * D2R)) 0); [|lra]. unfold degrees. field. exact P.
Qed.
Print Assumptions C129_directions.

(** Sign: with the first place in the north, the value of a track seen to the west is positive
    exactly when it goes to the north, but a track seen to the east has a positive value even
    when it goes to the equator. *)
Lemma arctan2_neg : forall y x, y < 0 -> (- (PI / 2) < arctan2 y x <-> 0 < x).
Proof.
  intros y x Y. pose proof PI_RGT_0 as P. unfold arctan2. destruct (Rlt_dec 0 x) as [X|X]; [split; [intros; exact X|intros _; destruct (atan_bound (y / x)); lra]|]. split; [|lra]. intros H. exfalso. destruct (Rlt_dec x 0) as [Z|Z].
  - destruct (Rlt_dec y 0); [|lra]. assert (atan (y / x) < PI / 2) by (destruct (atan_bound (y / x)); lra). lra.
  - destruct (Rlt_dec 0 y); [lra|]. destruct (Rlt_dec y 0); lra.
Qed.
Lemma arctan2_pos : forall y x, 0 < y -> 0 < arctan2 y x.
Proof.
  intros y x Y. pose proof PI_RGT_0 as P. unfold arctan2. destruct (Rlt_dec 0 x) as [X|X]. { rewrite <- atan_0. apply atan_increasing. apply Rmult_lt_0_compat; [exact Y|apply Rinv_0_lt_compat, X]. }
  destruct (Rlt_dec x 0) as [Z|Z]. { destruct (Rlt_dec y 0); [lra|]. destruct (atan_bound (y / x)). lra. } destruct (Rlt_dec 0 y); lra.
Qed.
Theorem C129_sign_refuted : forall lon0 lat0 lon1 lat1, let e := dot (place lon1 lat1) (east lon0) in let n := dot (place lon1 lat1) (north lon0 lat0) in
  (e < 0 -> (0 < azimuth lon0 lat0 lon1 lat1 <-> 0 < n)) /\
  (0 < e -> 90 < azimuth lon0 lat0 lon1 lat1) /\
  (forall lon a b, 0 < a < b -> b < 90 -> get_azimuth true (fresh [(0%nat, (lon, b)); (0%nat, (lon, a))]) = Some [270] /\ get_azimuth true (fresh [(0%nat, (lon, - a)); (0%nat, (lon, - b))]) = Some [-270]).
Proof.
  intros lon0 lat0 lon1 lat1 e n. pose proof PI_RGT_0 as P. assert (K : 0 < 180 / PI) by (apply Rmult_lt_0_compat; [lra|apply Rinv_0_lt_compat, P]). assert (KE : 180 / PI * (PI / 2) = 90) by (field; lra). split; [|split].
  - intros H. rewrite azimuth_val. fold e n. rewrite <- (arctan2_neg e n H). unfold degrees. set (k := 180 / PI) in *. set (u := arctan2 e n). split; intros X; [|nra]. destruct (Rlt_dec (- (PI / 2)) u) as [Y|Y]; [exact Y|]. exfalso. assert (u <= - (PI / 2)) by lra. nra.
  - intros H. rewrite azimuth_val. fold e n. pose proof (arctan2_pos e n H). unfold degrees. set (k := 180 / PI) in *. nra.
  - intros lon a b H B. pose proof D2R_pos as D. unfold get_azimuth. cbn [compute_tables fresh Iter_model.tables rows map fst TrackObs_model.compute_index]. cbn. change (Pos.to_nat 1) with 1%nat. cbn. destruct (C129_directions lon b a 0) as (_ & X & _). rewrite X by lra. destruct (C129_directions lon (- a) (- b) 0) as (_ & Y & _). rewrite Y by lra. unfold radians.
    destruct (Rlt_dec (b * D2R) 0); [nra|]. destruct (Rlt_dec (- a * D2R) 0); [|nra]. split; [reflexivity|]. f_equal. f_equal. ring.
Qed.
Print Assumptions C129_sign_refuted.

(** A case of the first theorem: two tracks, one of a single row. *)
Example C129_case : let l := [(1%nat, (10, 20)); (1%nat, (9, 20)); (1%nat, (10, 30)); (4%nat, (5, 5))] in
  grouped (numbers l) /\ get_azimuth false (fresh l) = Some [90; 90].
Proof.
  split.
  - intros i j k t I J. do 4 (destruct i as [|i]; [do 4 (destruct k as [|k]; [try lia; do 3 (destruct j as [|j]; [try lia; cbn; congruence|]); lia|]); destruct k; discriminate|]). destruct i; discriminate.
  - unfold get_azimuth. cbn. change (Pos.to_nat 2) with 2%nat. change (Pos.to_nat 3) with 3%nat. cbn. destruct (C129_directions 10 20 30 0) as (X & _). rewrite X by lra. destruct (C129_directions 5 5 5 0) as (_ & _ & Y & _). rewrite Y. reflexivity.
Qed.
