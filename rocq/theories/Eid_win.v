From Coq Require Import List Arith ZArith QArith Qabs Qround Bool Lia Lqa Relations.
From Verif Require Import Base Qaux Spec Obs_model Corr_model Corr_proofs Solver_model Solver_proofs Grid_model Grid_path Pix_model Pix_proofs Poly_wind Poly_mesh Eid_model Eid_spec Eid_proofs Eid_amp Eid_group.
Import ListNotations.
Local Close Scope Q_scope.
Local Open Scope nat_scope.

Lemma length_pyslice : forall {A} (l : list A) a b, (0 <= a <= b -> b <= Z.of_nat (length l) -> length (pyslice l (Some a) (Some b)) = Z.to_nat (b - a))%Z.
Proof.
  intros A l a b H1 H2. unfold pyslice, slice, start_of, stop_of, clip. destruct (Z.ltb_spec a 0); [lia|]. destruct (Z.ltb_spec b 0); [lia|]. rewrite firstn_length, skipn_length. lia.
Qed.
Section Window.
Variables (nx ny : nat) (b : box).
Hypothesis VB : valid_box nx ny b.
Notation w := (columns nx b).
Notation h := (rows b).
Notation cell p := (cell_of nx ny p).
Lemma box_pos : 0 < nx.
Proof. destruct b as [[x0 x1] [y0 y1]]. cbn in VB. lia. Qed.
Lemma extract_spec : forall {A} (data : list (list A)), rect nx ny data -> rect w h (extract data b) /\
  forall c v, fst c < w -> snd c < h -> (value_at (extract data b) c v <-> value_at data (cell (place b c)) v).
Proof.
  intros A data (L & R). pose proof box_pos as NP. destruct b as [[x0 x1] [y0 y1]]. cbn [valid_box] in VB. destruct VB as (V1 & V2 & V3 & V4). unfold extract.
  set (cols := if (x1 <? x0)%Z then _ else _).
  assert (CL : length cols = columns nx ((x0, x1), (y0, y1)) /\ (forall r, In r cols -> In r data) /\ forall i, i < columns nx ((x0, x1), (y0, y1)) -> nth_error cols i = nth_error data (Z.to_nat ((Z.of_nat i + x0) mod Z.of_nat nx))).
  { unfold cols, columns. destruct (Z.ltb_spec x1 x0) as [H|H].
    - rewrite pyslice_from, pyslice_to by lia. split; [rewrite app_length, skipn_length, firstn_length; lia|]. split.
      + intros r I. apply in_app_or in I as [I|I]; [rewrite <- (firstn_skipn (Z.to_nat x0) data); apply in_or_app; right; exact I|rewrite <- (firstn_skipn (Z.to_nat x1) data); apply in_or_app; left; exact I].
      + intros i I. rewrite window_nth by lia. rewrite L. f_equal. rewrite <- (Nat2Z.id ((i + Z.to_nat x0) mod nx)). f_equal. rewrite Nat2Z.inj_mod. f_equal. lia.
    - split; [apply length_pyslice; lia|]. split.
      + intros r I. apply In_nth_error in I as (i & I). rewrite pyslice_nth in I by lia. destruct (x0 + Z.of_nat i <? x1)%Z; [exact (nth_error_In _ _ I)|discriminate I].
      + intros i I. rewrite pyslice_nth by lia. destruct (Z.ltb_spec (x0 + Z.of_nat i) x1); [|lia]. f_equal. rewrite Z.mod_small by lia. lia. }
  clearbody cols. destruct CL as (C1 & C2 & C3). split.
  - split; [rewrite map_length; exact C1|]. intros r I. apply in_map_iff in I as (r' & <- & I). rewrite length_pyslice by (try rewrite (R r' (C2 r' I)); lia). cbn [rows]. lia.
  - intros [i j] v I J. cbn [fst snd rows] in I, J. unfold value_at, cell_of, place. cbn [fst snd]. rewrite nth_error_map, (C3 i I).
    assert (EJ : forall r : list A, nth_error (pyslice r (Some y0) (Some y1)) j = nth_error r (Z.to_nat ((Z.of_nat j + y0) mod Z.of_nat ny))).
    { intros r. rewrite pyslice_nth by lia. destruct (Z.ltb_spec (y0 + Z.of_nat j) y1); [|lia]. f_equal. rewrite Z.mod_small by lia. lia. }
    destruct (nth_error data (Z.to_nat ((Z.of_nat i + x0) mod Z.of_nat nx))) as [r|]; cbn [option_map]; split.
    + intros (r' & E & F). apply Some_inj in E. subst r'. exists r. split; [reflexivity|]. rewrite <- EJ. exact F.
    + intros (r' & E & F). apply Some_inj in E. subst r'. eexists. split; [reflexivity|]. rewrite EJ. exact F.
    + intros (r' & E & _). discriminate E.
    + intros (r' & E & _). discriminate E.
Qed.
Lemma columns_le : w <= nx.
Proof. destruct b as [[x0 x1] [y0 y1]]. cbn [valid_box] in VB. cbn [columns]. destruct (Z.ltb_spec x1 x0); lia. Qed.
Lemma rows_le : h <= ny.
Proof. destruct b as [[x0 x1] [y0 y1]]. cbn [valid_box] in VB. cbn [rows]. lia. Qed.
Lemma place_inj : forall c d, fst c < w -> snd c < h -> fst d < w -> snd d < h -> cell (place b c) = cell (place b d) -> c = d.
Proof.
  intros [i j] [i' j'] H1 H2 H3 H4 E. pose proof columns_le. pose proof rows_le. pose proof box_pos. cbn [fst snd] in *. unfold cell_of, place in E. cbn [fst snd] in E. injection E as E1 E2.
  assert (X : forall n a u v, (0 < n)%nat -> u < n -> v < n -> Z.to_nat ((Z.of_nat u + a) mod Z.of_nat n) = Z.to_nat ((Z.of_nat v + a) mod Z.of_nat n) -> u = v).
  { clear. intros n a u v N U V E. pose proof (Z.mod_pos_bound (Z.of_nat u + a) (Z.of_nat n) ltac:(lia)). pose proof (Z.mod_pos_bound (Z.of_nat v + a) (Z.of_nat n) ltac:(lia)). assert (F : ((Z.of_nat u + a) mod Z.of_nat n = (Z.of_nat v + a) mod Z.of_nat n)%Z) by lia.
    pose proof (Z.div_mod (Z.of_nat u + a) (Z.of_nat n) ltac:(lia)). pose proof (Z.div_mod (Z.of_nat v + a) (Z.of_nat n) ltac:(lia)). rewrite F in *. set (q := ((Z.of_nat u + a) / Z.of_nat n)%Z) in *. set (q' := ((Z.of_nat v + a) / Z.of_nat n)%Z) in *. clearbody q q'. assert (q = q')%Z by nia. subst. lia. }
  f_equal; [apply (X nx (fst (fst b)))|apply (X ny (fst (snd b)))]; try assumption; lia.
Qed.
(** The cell of the window of a pixel. *)
Lemma pixel_window : forall p, in_box nx ny b p -> exists c, fst c < w /\ snd c < h /\ window_pixels nx b [p] = [(Z.of_nat (fst c), Z.of_nat (snd c))] /\ cell p = cell (place b c).
Proof.
  intros p (P & c & C1 & C2 & C3 & C4). exists c. split; [exact C1|]. split; [exact C2|]. pose proof columns_le. split.
  - destruct b as [[x0 x1] [y0 y1]]. cbn [valid_box] in VB. cbn [columns rows fst snd] in *. cbn [window_pixels map]. f_equal. f_equal; [|lia]. destruct (Z.ltb_spec x1 x0) as [H0|H0].
    + destruct C4 as [C4|C4].
      * rewrite <- C4. rewrite Z.mod_small by lia. lia.
      * replace (fst p - x0)%Z with (Z.of_nat (fst c) + (-1) * Z.of_nat nx)%Z by lia. rewrite Z_mod_plus_full. apply Z.mod_small. lia.
    + lia.
  - unfold cell_of, place. cbn [fst snd]. f_equal; [|f_equal; f_equal; lia]. destruct C4 as [->| ->]; [reflexivity|]. f_equal. rewrite <- (Z_mod_plus_full (fst p) 1 (Z.of_nat nx)). f_equal. lia.
Qed.
Lemma put_all_total : forall {A} n m ps (g : list (list A)) v, rect n m g -> (forall p, In p ps -> (0 <= fst p < Z.of_nat n /\ 0 <= snd p < Z.of_nat m)%Z) -> exists g', put_all g ps v = Some g'.
Proof.
  intros A n m ps. induction ps as [|p ps IH]; intros g v R H; cbn [put_all]; [eexists; reflexivity|].
  destruct (H p (or_introl eq_refl)) as [[H1 H2] [H3 H4]]. assert (E : exists g1, put2 g p v = Some g1).
  { unfold put2, pyget, pystore, pyidx. destruct R as [L R]. rewrite L. destruct (Z.leb_spec 0 (fst p)); [|lia]. destruct (Z.ltb_spec (fst p) (Z.of_nat n)); [|lia]. cbn [bind]. destruct (nth_error_lt_Some g (Z.to_nat (fst p))) as [r E]; [lia|]. rewrite E. cbn [bind]. rewrite (R r (nth_error_In _ _ E)). destruct (Z.leb_spec 0 (snd p)); [|lia]. destruct (Z.ltb_spec (snd p) (Z.of_nat m)); [|lia]. cbn [bind]. unfold store. destruct (Nat.ltb_spec (Z.to_nat (snd p)) (length r)) as [|F]; [|rewrite (R r (nth_error_In _ _ E)) in F; lia]. cbn [bind]. destruct (Nat.ltb_spec (Z.to_nat (fst p)) (length g)); [|lia]. eexists. reflexivity. }
  destruct E as [g1 E]. rewrite E. cbn [bind]. apply IH; [exact (proj1 (put2_spec n m g g1 p v R E))|]. intros q I. apply H. right. exact I.
Qed.
Lemma get_all_total : forall {A} n m (g : list (list A)) ps, rect n m g -> (forall p, In p ps -> (0 <= fst p < Z.of_nat n /\ 0 <= snd p < Z.of_nat m)%Z) -> exists vs, get_all g ps = Some vs.
Proof.
  intros A n m g ps R. induction ps as [|p ps IH]; intros H; cbn [get_all]; [eexists; reflexivity|].
  destruct (H p (or_introl eq_refl)) as [[H1 H2] [H3 H4]]. assert (E : exists v, get2 g p = Some v).
  { unfold get2, pyget, pyidx. destruct R as [L R]. rewrite L. destruct (Z.leb_spec 0 (fst p)); [|lia]. destruct (Z.ltb_spec (fst p) (Z.of_nat n)); [|lia]. cbn [bind]. destruct (nth_error_lt_Some g (Z.to_nat (fst p))) as [r E]; [lia|]. rewrite E. cbn [bind]. rewrite (R r (nth_error_In _ _ E)). destruct (Z.leb_spec 0 (snd p)); [|lia]. destruct (Z.ltb_spec (snd p) (Z.of_nat m)); [|lia]. cbn [bind]. destruct (nth_error_lt_Some r (Z.to_nat (snd p))) as [v F]; [rewrite (R r (nth_error_In _ _ E)); lia|]. exists v. exact F. }
  destruct E as [v E]. rewrite E. cbn [bind]. destruct IH as [vs F]; [intros q I; apply H; right; exact I|]. rewrite F. eexists. reflexivity.
Qed.
Lemma rect_map : forall {A B} (f : A -> B) n m g, rect n m g -> rect n m (map (map f) g).
Proof. intros A B f n m g (L & R). split; [rewrite map_length; exact L|]. intros r I. apply in_map_iff in I as (r' & <- & I). rewrite map_length. apply R. exact I. Qed.
Lemma pixel_mask_spec : forall {A} (data : list (list A)) pixels, rect nx ny data -> (forall p, In p pixels -> in_box nx ny b p) ->
  exists pm, pixel_mask data b pixels = Some pm /\ rect w h pm /\ forall c, value_at pm c true <-> fst c < w /\ snd c < h /\ exists p, In p pixels /\ cell p = cell (place b c).
Proof.
  intros A data pixels R IB. unfold pixel_mask. destruct (extract_spec data R) as [RE _]. pose proof (rect_map (fun _ => false) w h _ RE) as R0.
  assert (WP : window_pixels (length data) b pixels = flat_map (fun p => window_pixels nx b [p]) pixels).
  { destruct R as [L _]. rewrite L. clear. destruct b as [[x0 x1] [y0 y1]]. cbn [window_pixels]. induction pixels as [|p l IH]; [reflexivity|]. cbn [map flat_map app]. f_equal. }
  assert (IN : forall q, In q (window_pixels (length data) b pixels) <-> exists p c, In p pixels /\ fst c < w /\ snd c < h /\ q = (Z.of_nat (fst c), Z.of_nat (snd c)) /\ cell p = cell (place b c)).
  { intros q. rewrite WP, in_flat_map. split.
    - intros (p & I & Q). destruct (pixel_window p (IB p I)) as (c & C1 & C2 & C3 & C4). rewrite C3 in Q. destruct Q as [<-|[]]. exists p, c. split; [exact I|]. split; [exact C1|]. split; [exact C2|]. split; [reflexivity|exact C4].
    - intros (p & c & I & C1 & C2 & -> & C4). exists p. split; [exact I|]. destruct (pixel_window p (IB p I)) as (c' & C1' & C2' & C3' & C4'). assert (c = c') by (apply place_inj; try assumption; congruence). subst c'. rewrite C3'. left. reflexivity. }
  destruct (put_all_total w h (window_pixels (length data) b pixels) _ true R0) as [pm E].
  { intros q I. apply IN in I as (p & c & _ & C1 & C2 & -> & _). cbn [fst snd]. lia. }
  exists pm. split; [exact E|]. destruct (put_all_spec w h _ _ pm true R0 E) as [RP SP]. split; [exact RP|]. intros c. rewrite SP. split.
  - intros [[I _]|[_ X]].
    + apply in_map_iff in I as (q & <- & I). apply IN in I as (p & d & I & D1 & D2 & -> & D4). assert (EC : cell_of w h (Z.of_nat (fst d), Z.of_nat (snd d)) = d) by (unfold cell_of; cbn [fst snd]; rewrite !Z.mod_small by lia; rewrite !Nat2Z.id; symmetry; apply surjective_pairing). rewrite EC. split; [exact D1|]. split; [exact D2|]. exists p. split; [exact I|exact D4].
    + exfalso. destruct X as (r & X & Y). rewrite nth_error_map in X. destruct (nth_error (extract data b) (fst c)) as [r0|]; [|discriminate X]. cbn in X. apply Some_inj in X. subst r. rewrite nth_error_map in Y. destruct (nth_error r0 (snd c)); discriminate Y.
  - intros (C1 & C2 & p & I & C4). left. split; [|reflexivity]. apply in_map_iff. exists (Z.of_nat (fst c), Z.of_nat (snd c)). split; [unfold cell_of; cbn [fst snd]; rewrite !Z.mod_small by lia; rewrite !Nat2Z.id; symmetry; apply surjective_pairing|]. apply IN. exists p, c. split; [exact I|]. split; [exact C1|]. split; [exact C2|]. split; [reflexivity|exact C4].
Qed.
Lemma in_box_range : forall p, in_box nx ny b p -> (0 <= fst p < Z.of_nat nx /\ 0 <= snd p < Z.of_nat ny)%Z.
Proof. intros p (P & c & C1 & C2 & C3 & _). split; [exact P|]. destruct b as [[x0 x1] [y0 y1]]. cbn [valid_box] in VB. cbn [rows fst snd] in *. lia. Qed.

Lemma existsb_mask : forall ms, existsb (fun x : bool => x) ms = true <-> In true ms.
Proof. intros ms. rewrite existsb_exists. split; [intros (x & I & ->); exact I|intros I; exists true; split; [exact I|reflexivity]]. Qed.
Lemma sum_bounds : forall (f : nat * nat -> nat) lo hi ps, (forall c, In c ps -> lo <= f c <= hi) -> lo * length ps <= sum_list (map f ps) <= hi * length ps.
Proof. intros f lo hi ps. induction ps as [|c ps IH]; intros H; cbn [map length]; [cbn; lia|]. specialize (IH (fun d I => H d (or_intror I))). pose proof (H c (or_introl eq_refl)). change (sum_list (f c :: map f ps)) with (f c + sum_list (map f ps)). lia. Qed.
Lemma mean_bounds : forall (f : nat * nat -> nat) lo hi ps, ps <> [] -> (forall c, In c ps -> lo <= f c <= hi) -> (inject_Z (Z.of_nat lo) <= mean_of f ps <= inject_Z (Z.of_nat hi))%Q.
Proof.
  intros f lo hi ps NE H. destruct (sum_bounds f lo hi ps H) as [S1 S2]. unfold mean_of. assert (L : 0 < length ps) by (destruct ps; [contradiction|cbn; lia]). assert (P : (0 < inject_Z (Z.of_nat (length ps)))%Q) by (change 0%Q with (inject_Z 0); rewrite <- Zlt_Qlt; lia).
  split; [apply Qle_shift_div_l|apply Qle_shift_div_r]; try exact P; rewrite <- inject_Z_mult, <- Zle_Qle; lia.
Qed.
Lemma near_range : forall n lo hi m, (inject_Z (Z.of_nat lo) <= m <= inject_Z (Z.of_nat hi) -> Qabs (inject_Z (Z.of_nat n) - m) <= 1 # 2 -> (lo <= n <= hi)%nat)%Q.
Proof.
  intros n lo hi m [H1 H2] H. apply Qabs_Qle_condition in H as [H3 H4].
  assert (X : (inject_Z (Z.of_nat lo) < inject_Z (Z.of_nat n + 1))%Q) by (rewrite inject_Z_plus; change (inject_Z 1) with 1%Q; lra).
  assert (Y : (inject_Z (Z.of_nat n) < inject_Z (Z.of_nat hi + 1))%Q) by (rewrite inject_Z_plus; change (inject_Z 1) with 1%Q; lra).
  rewrite <- Zlt_Qlt in X, Y. lia.
Qed.
Lemma merged_range : forall pts r (P : nat * nat -> Prop) a0 a1 b0 b1, (forall c, In c pts -> a0 <= fst c <= a1 /\ b0 <= snd c <= b1) -> merged pts r -> forall c, In c r -> a0 <= fst c <= a1 /\ b0 <= snd c <= b1.
Proof.
  intros pts r P a0 a1 b0 b1 H (alone & comps & centres & -> & F2 & ND & IN & AL & CO) c I. apply in_app_or in I as [I|I].
  - apply H. apply IN. apply in_or_app. left. exact I.
  - assert (X : exists ps, In ps comps /\ central ps c). { clear - F2 I. induction F2 as [|ps d comps centres X F IH]; [destruct I|]. destruct I as [<-|I]; [exists ps; split; [left; reflexivity|exact X]|]. destruct (IH I) as (ps' & A & B). exists ps'. split; [right; exact A|exact B]. }
    destruct X as (ps & IP & [C1 C2]). assert (NE : ps <> []) by (destruct (CO ps IP) as [L _]; destruct ps; [cbn in L; lia|discriminate]).
    assert (HP : forall d, In d ps -> a0 <= fst d <= a1 /\ b0 <= snd d <= b1) by (intros d D; apply H, IN, in_or_app; right; apply in_concat; exists ps; split; assumption).
    split; [apply (near_range (fst c) a0 a1 (mean_of fst ps))|apply (near_range (snd c) b0 b1 (mean_of snd ps))]; try assumption; apply mean_bounds; try exact NE; intros d D; apply HP; exact D.
Qed.
Lemma merged_nil : forall pts r, merged pts r -> pts <> [] -> r <> [].
Proof.
  intros pts r (alone & comps & centres & -> & F2 & ND & IN & _ & CO) NE X. apply app_eq_nil in X as [-> ->]. inversion F2; subst. cbn in IN. destruct pts as [|c pts]; [contradiction|]. destruct (proj2 (IN c) (or_introl eq_refl)).
Qed.
Lemma sign_le : forall (below : bool) u v, ((if below then u else - u) <= (if below then v else - v))%Q <-> (u * (if below then 1 else -(1)) <= v * (if below then 1 else -(1)))%Q.
Proof. intros [|] u v; cbn; split; lra. Qed.

Lemma get_all_cells : forall {A} (g : list (list A)) ps vs, rect nx ny g -> get_all g ps = Some vs -> forall v, In v vs <-> exists p, In p ps /\ value_at g (cell p) v.
Proof.
  intros A g ps vs R E v. destruct (get_all_In g ps vs E) as (_ & I1 & I2). split.
  - intros I. destruct (I1 v I) as (p & IP & X). exists p. split; [exact IP|]. exact (proj1 (get2_cell nx ny g p v R X)).
  - intros (p & IP & X). destruct (I2 p IP) as (u & IU & Y). destruct (get2_cell nx ny g p u R Y) as [Z _]. rewrite (value_fun g _ v u X Z). exact IU.
Qed.
Lemma beyond_iff : forall (below : bool) v h_0, Qlt_bool epsilon (if below then v - h_0 else h_0 - v) = true <-> (epsilon < (v - h_0) * (if below then 1 else -(1)))%Q.
Proof. intros below v h_0. rewrite Qlt_bool_iff. destruct below; split; lra. Qed.
Lemma deep_iff : forall (below : bool) (interval level v : Q), Qle_bool interval (if below then level - v else v - level) = Qle_bool interval ((level - v) * (if below then 1 else -(1))).
Proof.
  intros below interval level v. destruct (Qle_bool interval (if below then level - v else v - level)) eqn:E; symmetry.
  - apply Qle_bool_iff in E. apply Qle_bool_iff. destruct below; lra.
  - apply Qle_bool_false in E. destruct (Qle_bool interval _) eqn:F; [|reflexivity]. apply Qle_bool_iff in F. destruct below; lra.
Qed.
Section Amplitude.
Variables (below : bool) (data : list (list Q)) (mask : list (list bool)) (pixels : list (Z * Z)) (h_0 level interval : Q) (mle : nat).
Hypotheses (RD : rect nx ny data) (RM : rect nx ny mask) (IB : forall p, In p pixels -> in_box nx ny b p).
Notation s := (if below then 1 else -(1))%Q.
Theorem all_pixels_refused : (exists p, In p pixels /\ value_at mask (cell p) true) \/ (exists p v, In p pixels /\ value_at data (cell p) v /\ (epsilon < (v - h_0) * s)%Q) ->
  all_pixels below data mask b pixels h_0 level interval mle = Some None.
Proof.
  intros H. unfold all_pixels. destruct (pixel_mask_spec data pixels RD IB) as (pm & E & _). rewrite E. cbn [bind].
  destruct (get_all_total nx ny data pixels RD) as [sla ES]; [intros p I; apply in_box_range, IB; exact I|]. destruct (get_all_total nx ny mask pixels RM) as [ms EM]; [intros p I; apply in_box_range, IB; exact I|]. rewrite ES, EM. cbn [bind].
  destruct (existsb (fun x => x) ms || _) eqn:X; [reflexivity|]. exfalso. apply orb_false_iff in X as [X1 X2]. destruct H as [(p & I & V)|(p & v & I & V & L)].
  - apply not_true_iff_false in X1. apply X1. apply existsb_mask. apply (get_all_cells mask pixels ms RM EM). exists p. split; assumption.
  - apply not_true_iff_false in X2. apply X2. apply existsb_exists. exists v. split; [apply (get_all_cells data pixels sla RD ES); exists p; split; assumption|]. apply beyond_iff. exact L.
Qed.
Hypothesis BIG : forall c v, value_at data c v -> (Qabs v <= inject_Z 20000000000)%Q.
Hypothesis FREE : forall p, In p pixels -> value_at mask (cell p) false.
Hypothesis SIDE : forall p v, In p pixels -> value_at data (cell p) v -> ((v - h_0) * s <= epsilon)%Q.
Theorem all_pixels_spec : exists pts r vs res, all_pixels below data mask b pixels h_0 level interval mle = Some res /\
  NoDup pts /\ (forall c, In c pts <-> window_extremum nx ny b data mask pixels s c) /\
  (length pts <= mle -> r = pts) /\ (mle < length pts -> merged pts r) /\
  Forall2 (fun c v => value_at data (cell (place b c)) v) r vs /\
  (res = None <-> r = [] \/ (1 < length r /\ mle < length (filter (fun v => Qle_bool interval ((level - v) * s)) vs))) /\
  (forall centre a, res = Some (centre, a) -> exists i c v, nth_error r i = Some c /\ nth_error vs i = Some v /\ centre = place b c /\ a = Qabs (v - h_0) /\ forall u, In u vs -> (v * s <= u * s)%Q).
Proof.
  unfold all_pixels. destruct (pixel_mask_spec data pixels RD IB) as (pm & E & RP & SP). rewrite E. cbn [bind].
  destruct (get_all_total nx ny data pixels RD) as [sla ES]; [intros p I; apply in_box_range, IB; exact I|]. destruct (get_all_total nx ny mask pixels RM) as [ms EM]; [intros p I; apply in_box_range, IB; exact I|]. rewrite ES, EM. cbn [bind].
  destruct (existsb (fun x => x) ms || _) eqn:X.
  { exfalso. apply orb_true_iff in X as [X|X].
    - apply existsb_mask in X. apply (get_all_cells mask pixels ms RM EM) in X as (p & I & V). pose proof (value_fun mask _ _ _ V (FREE p I)). discriminate.
    - apply existsb_exists in X as (v & I & L). apply (get_all_cells data pixels sla RD ES) in I as (p & I & V). apply beyond_iff in L. specialize (SIDE p v I V). lra. }
  clear X. destruct (extract_spec data RD) as [RE VE]. destruct (extract_spec mask RM) as [RF VF].
  destruct (detect_spec w h (extract data b) (extract mask b) pm s mle RE RF RP) as (pts & r & ED & ND & SPT & SMALL & LARGE).
  { intros c v V. destruct (value_range w h _ c v RE V) as [C1 C2]. apply (VE c v C1 C2) in V. apply BIG in V. apply Qabs_Qle_condition in V as [V1 V2]. destruct below; lra. }
  { intros c V. apply SP in V as (C1 & C2 & p & I & EC). apply (VF c false C1 C2). rewrite <- EC. apply FREE. exact I. }
  rewrite ED. cbn [bind].
  assert (EXT : forall c, extremum w h (extract data b) (extract mask b) pm s c <-> window_extremum nx ny b data mask pixels s c).
  { intros c. unfold extremum, window_extremum, lowest_around. split.
    - intros (C1 & C2 & C3 & C4 & IN & v & V & LO). apply SP in IN as (_ & _ & IN). split; [exact C1|]. split; [exact C2|]. split; [exact C3|]. split; [exact C4|]. split; [exact IN|]. exists v. split; [apply (VE c v); [lia|lia|exact V]|]. intros c' u N1 N2 M U. unfold near in N1, N2. apply (LO c' u N1 N2); [apply (VF c' false); [lia|lia|exact M]|apply (VE c' u); [lia|lia|exact U]].
    - intros (C1 & C2 & C3 & C4 & IN & v & V & LO). split; [exact C1|]. split; [exact C2|]. split; [exact C3|]. split; [exact C4|]. split; [apply SP; split; [lia|]; split; [lia|exact IN]|]. exists v. split; [apply (VE c v); [lia|lia|exact V]|]. intros c' u N1 N2 M U. pose proof N1 as N1'. pose proof N2 as N2'. unfold near in N1', N2'. apply (LO c' u N1 N2); [apply (VF c' false); [lia|lia|exact M]|apply (VE c' u); [lia|lia|exact U]]. }
  assert (PR : forall c, In c pts -> 1 <= fst c <= w - 2 /\ 1 <= snd c <= h - 2) by (intros c I; apply SPT in I; destruct I as (C1 & C2 & C3 & C4 & _); lia).
  assert (WH : forall c, In c pts -> 2 <= w /\ 2 <= h) by (intros c I; apply SPT in I; destruct I as (C1 & C2 & C3 & C4 & _); lia).
  assert (RR : forall c, In c r -> fst c < w /\ snd c < h).
  { intros c I. destruct (Nat.le_gt_cases (length pts) mle) as [L|L].
    - rewrite (SMALL L) in I. pose proof (PR c I). pose proof (WH c I). lia.
    - pose proof (merged_range pts r (fun _ => True) 1 (w - 2) 1 (h - 2) PR (LARGE L) c I). destruct pts as [|c0 pts']; [cbn in L; lia|]. pose proof (WH c0 (or_introl eq_refl)). lia. }
  assert (VS : exists vs, sequence (map (fun p => nth2 (extract data b) (fst p) (snd p)) r) = Some vs /\ Forall2 (fun c v => value_at data (cell (place b c)) v) r vs).
  { clear - RR RE VE. induction r as [|c r IH]; [exists []; split; [reflexivity|constructor]|]. destruct IH as (vs & E & F); [intros d D; apply RR; right; exact D|]. destruct (RR c (or_introl eq_refl)) as [C1 C2]. destruct (rect_value w h _ c RE C1 C2) as [v V]. exists (v :: vs). cbn [map sequence]. assert (N : nth2 (extract data b) (fst c) (snd c) = Some v) by (apply nth2_value; rewrite <- surjective_pairing; exact V). rewrite N. cbn [bind]. rewrite E. split; [reflexivity|]. constructor; [apply (VE c v C1 C2); exact V|exact F]. }
  destruct VS as (vs & EV & F2). rewrite EV. cbn [bind].
  assert (LV : length vs = length r) by (clear - F2; induction F2; cbn; [reflexivity|lia]).
  assert (NV : forall i c v, nth_error r i = Some c -> nth_error vs i = Some v -> nth2 (extract data b) (fst c) (snd c) = Some v /\ value_at data (cell (place b c)) v).
  { intros i c v I J. assert (V : value_at data (cell (place b c)) v). { clear - F2 I J. revert i I J. induction F2 as [|c0 v0 r vs X F IH]; intros [|i] I J; try discriminate I; cbn in I, J; [apply Some_inj in I; apply Some_inj in J; subst; exact X|exact (IH i I J)]. } split; [|exact V]. apply nth2_value. rewrite <- surjective_pairing. destruct (RR c (nth_error_In _ _ I)) as [C1 C2]. apply (VE c v C1 C2). exact V. }
  assert (FIN : forall i c v, nth_error r i = Some c -> nth_error vs i = Some v -> (forall u, In u vs -> (v * s <= u * s)%Q) -> (match c with (i', j') => let! v' := nth2 (extract data b) i' j' in let '((x_start, _), (y_start, _)) := b in Some (Some ((Z.of_nat i' + x_start, Z.of_nat j' + y_start)%Z, Qabs (v' - h_0)%Q)) end) = Some (Some (place b c, Qabs (v - h_0)))).
  { intros i [i' j'] v I J _. destruct (NV i (i', j') v I J) as [N _]. cbn [fst snd] in N. rewrite N. cbn [bind]. destruct b as [[x0 x1] [y0 y1]]. reflexivity. }
  assert (DE : length (filter (fun v => Qle_bool interval (if below then level - v else v - level)) vs) = length (filter (fun v => Qle_bool interval ((level - v) * s)) vs)) by (f_equal; apply filter_ext; intros v; apply deep_iff).
  destruct r as [|c0 [|c1 r']].
  - exists pts, [], vs, None. split; [reflexivity|]. split; [exact ND|]. split; [intros c; rewrite <- EXT; apply SPT|]. split; [exact SMALL|]. split; [exact LARGE|]. split; [exact F2|]. split; [split; [left; reflexivity|reflexivity]|]. intros centre a X. discriminate X.
  - destruct vs as [|v0 [|v1 vs']]; [cbn in LV; lia| |cbn in LV; lia]. cbn [bind]. rewrite (FIN 0 c0 v0 eq_refl eq_refl) by (intros u [<-|[]]; apply Qle_refl).
    exists pts, [c0], [v0], (Some (place b c0, Qabs (v0 - h_0))). split; [reflexivity|]. split; [exact ND|]. split; [intros c; rewrite <- EXT; apply SPT|]. split; [exact SMALL|]. split; [exact LARGE|]. split; [exact F2|]. split; [split; [intros X; discriminate X|intros [X|[X _]]; [discriminate X|cbn in X; lia]]|]. intros centre a X. apply Some_inj in X. injection X as <- <-. exists 0, c0, v0. split; [reflexivity|]. split; [reflexivity|]. split; [reflexivity|]. split; [reflexivity|]. intros u [<-|[]]. apply Qle_refl.
  - set (r0 := c0 :: c1 :: r') in *. assert (R0 : 1 < length r0) by (cbn; lia). clearbody r0. rewrite DE. destruct (Nat.ltb_spec mle (length (filter (fun v => Qle_bool interval ((level - v) * s)) vs))) as [D|D].
    + cbn [bind]. exists pts, r0, vs, None. split; [reflexivity|]. split; [exact ND|]. split; [intros c; rewrite <- EXT; apply SPT|]. split; [exact SMALL|]. split; [exact LARGE|]. split; [exact F2|]. split; [split; [intros _; right; split; [exact R0|exact D]|reflexivity]|]. intros centre a X. discriminate X.
    + destruct (argmin (map (fun v => Some (if below then v else - v)%Q) vs)) as [index|] eqn:A.
      2: { exfalso. destruct vs as [|v0 vs']; [cbn in LV; lia|]. apply (argmin_None _ A 0 (if below then v0 else - v0)%Q). reflexivity. }
      pose proof (argmin_Some _ _ A) as (m & M1 & M2 & M3). cbn [bind]. rewrite nth_error_map in M1. destruct (nth_error vs index) as [v|] eqn:EI; [|discriminate M1]. cbn in M1. apply Some_inj in M1. injection M1 as <-.
      destruct (nth_error_lt_Some r0 index) as [c C]; [apply nth_error_Some_lt in EI; lia|]. rewrite C. cbn [bind].
      assert (LO : forall u, In u vs -> (v * s <= u * s)%Q). { intros u I. apply In_nth_error in I as (q & Q). apply sign_le. apply (M2 q). rewrite nth_error_map, Q. reflexivity. }
      rewrite (FIN index c v C EI LO). exists pts, r0, vs, (Some (place b c, Qabs (v - h_0))). split; [reflexivity|]. split; [exact ND|]. split; [intros d; rewrite <- EXT; apply SPT|]. split; [exact SMALL|]. split; [exact LARGE|]. split; [exact F2|]. split; [split; [intros X; discriminate X|intros [X|[_ X]]; [rewrite X in R0; cbn in R0; lia|lia]]|]. intros centre a X. apply Some_inj in X. injection X as <- <-. exists index, c, v. split; [exact C|]. split; [exact EI|]. split; [reflexivity|]. split; [reflexivity|exact LO].
Qed.
End Amplitude.
End Window.
