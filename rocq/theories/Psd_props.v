(** * C145: spectra of a regular grid *)
From Coq Require Import List Arith Bool ZArith QArith Lia Lqa.
From Verif Require Import Base Qaux Corr_model Resamp_model Obs_model Pix_model Psd_model.
From Verif Require Pix_proofs Pix_spec Grid_model Grid_path.
Import ListNotations.
Local Close Scope Q_scope.
Local Open Scope nat_scope.

(** ** Specification *)
Definition increasing (f : list Q) : Prop := forall i j, i < j -> j < length f -> (nth i f 0 < nth j f 0)%Q.
(** What is asked of welch: from a series of two values or more, frequencies from 0
    which increase, which depend on the size of the series only, and a power for
    each. *)
Definition welch_ok (size : nat -> nat) (welch : welch_fun) : Prop := forall sc s fs, 2 <= length s -> (0 < fs)%Q ->
  2 <= size (length s) /\ length (fst (welch sc s fs)) = size (length s) /\ length (snd (welch sc s fs)) = size (length s) /\
  (nth 0 (fst (welch sc s fs)) 0 == 0)%Q /\ increasing (fst (welch sc s fs)) /\
  (forall sc' s', length s' = length s -> fst (welch sc' s' fs) = fst (welch sc s fs)).
(** The spectra without nan, in order. *)
Inductive clean : list (list Q * list (option Q)) -> list (list Q * list Q) -> Prop :=
| clean_nil : clean [] []
| clean_keep : forall f p l ks, clean l ks -> clean ((f, map Some p) :: l) ((f, p) :: ks)
| clean_drop : forall f pw l ks, In None pw -> clean l ks -> clean ((f, pw) :: l) ks.
(** [v] is on the line between two points of the spectrum, at [x]. *)
Definition on_line (f p : list Q) (x v : Q) : Prop := exists j, S j < length f /\ (nth j f 0 <= x <= nth (S j) f 0)%Q /\
  ((v - nth j p 0) * (nth (S j) f 0 - nth j f 0) == (nth (S j) p 0 - nth j p 0) * (x - nth j f 0))%Q.
(** [m] is the mean of the lists, value by value; a nan without list. *)
Definition is_mean (n : nat) (ps : list (list Q)) (m : option (list Q)) : Prop :=
  (ps = [] -> m = None) /\
  (ps <> [] -> exists l, m = Some l /\ length l = n /\ forall k, k < n -> (nth k l 0 * nq (length ps) == Qsum (map (fun p => nth k p 0) ps))%Q).
(** A frequency and its wavelength, [None] for an infinite one. *)
Definition wavelength (f : Q) (w : option Q) : Prop := match w with None => (f == 0)%Q | Some v => (v * f == 1)%Q end.
(** Each column of the grid has a cell by latitude. *)
Definition rectangular (g : grid) : Prop := forall c, In c (g_cells g) -> length c = length (g_lat g).
(** Spectra of the columns and of the rows of the area. *)
Definition column_spectra (welch : welch_fun) (dy : Q) sc g a := map (fun c => welch sc (map fst c) (1 / (g_ystep g * dy / 1000))%Q) (columns_in g a).
Definition row_spectra (welch : welch_fun) (dx : Q -> Q) sc g a :=
  map (fun i => welch sc (map (fun c => fst (nth i c (None, true))) (columns_in g a)) (1 / (g_xstep g * dx (nth i (lats_in g a) 0) / 1000))%Q) (seq 0 (length (lats_in g a))).
(** Positive steps; two columns and two rows in the area. *)
Definition usable (dx : Q -> Q) (dy : Q) (g : grid) (a : area) : Prop :=
  rectangular g /\ (0 < g_xstep g)%Q /\ (0 < g_ystep g)%Q /\ (0 < dy)%Q /\ (forall y, In y (g_lat g) -> (0 < dx y)%Q) /\
  2 <= length (columns_in g a) /\ 2 <= length (lats_in g a).

Definition is_lat_spectrum (n : nat) (spectra : list (list Q * list (option Q))) (lat : content) : Prop :=
  (exists ks, clean spectra ks /\ is_mean n (map snd ks) (snd lat)) /\ forall w, In w spectra -> Forall2 wavelength (fst w) (fst lat).
(** Along the longitudes, the frequencies are even from 0 to [top], the lowest of
    the last frequencies of the rows, and the power is the mean of what the rows
    without nan have there. *)
Definition is_lon_spectrum (n : nat) (spectra : list (list Q * list (option Q))) (lon : content) : Prop :=
  exists ks fi top m, clean spectra ks /\ Forall2 wavelength fi (fst lon) /\ snd lon = Some m /\ length fi = n /\ length m = n /\
    (forall k, In k ks -> (top <= last (fst k) 0)%Q) /\ (exists k, In k ks /\ (top == last (fst k) 0)%Q) /\
    forall j, j < n -> (nth j fi 0 * nq (n - 1) == nq j * top)%Q /\
      exists vs, Forall2 (fun k v => on_line (fst k) (snd k) (nth j fi 0%Q) v) ks vs /\ (nth j m 0 * nq (length ks) == Qsum vs)%Q.

(** ** Lemmas *)
Lemma sequence_some : forall {A} (l : list (option A)) r, sequence l = Some r <-> l = map Some r.
Proof.
  induction l as [|[x|] l IH]; intros r; cbn.
  - split; [intros H; injection H as <-; reflexivity|destruct r; [reflexivity|discriminate]].
  - destruct (sequence l) as [s|] eqn:E; cbn.
    + split; [intros H; injection H as <-; cbn; f_equal; apply IH; reflexivity|]. destruct r as [|y r]; [discriminate|]. cbn. intros H. injection H as -> ->. f_equal. f_equal.
      assert (H : Some s = Some r) by (apply IH; reflexivity). injection H as ->. reflexivity.
    + split; [discriminate|]. destruct r as [|y r]; [discriminate|]. cbn. intros H. injection H as -> ->. assert (H : None = Some r) by (apply IH; reflexivity). discriminate.
  - split; [discriminate|]. destruct r; discriminate.
Qed.
Lemma sequence_none : forall {A} (l : list (option A)), sequence l = None -> In None l.
Proof.
  induction l as [|[x|] l IH]; cbn; intros H; [discriminate| |left; reflexivity]. destruct (sequence l); [discriminate|]. right. apply IH. reflexivity.
Qed.
Lemma kept_clean : forall l, clean l (kept l).
Proof.
  induction l as [|[f pw] l IH]; cbn; [constructor|]. destruct (sequence pw) as [p|] eqn:E.
  - apply sequence_some in E. subst pw. constructor. exact IH.
  - apply sequence_none in E. constructor; assumption.
Qed.
Lemma kept_in : forall l k, In k (kept l) -> In (fst k, map Some (snd k)) l.
Proof.
  induction l as [|[f pw] l IH]; cbn; intros k K; [destruct K|]. destruct (sequence pw) as [p|] eqn:E.
  - apply sequence_some in E. subst pw. destruct K as [<-|K]; [left; reflexivity|right; apply IH; exact K].
  - right. apply IH. exact K.
Qed.
Lemma kept_none : forall l, kept l = [] <-> forall w, In w l -> In None (snd w).
Proof.
  induction l as [|[f pw] l IH]; cbn; [split; [intros _ w []|reflexivity]|]. destruct (sequence pw) as [p|] eqn:E.
  - split; [discriminate|]. intros H. specialize (H _ (or_introl eq_refl)). cbn in H. apply sequence_some in E. subst pw. apply in_map_iff in H. destruct H as (? & X & _). discriminate.
  - apply sequence_none in E. rewrite IH. split; [intros H w [<-|W]; [exact E|apply H; exact W]|]. intros H w W. apply H. right. exact W.
Qed.
Lemma nq_pos : forall n, 0 < n -> (0 < nq n)%Q.
Proof. intros n H. unfold nq. change 0%Q with (inject_Z 0). rewrite <- Zlt_Qlt. lia. Qed.
Lemma mean_is : forall n ps, is_mean n ps (mean_rows n ps).
Proof.
  intros n ps. unfold mean_rows. split.
  - intros ->. reflexivity.
  - intros NE. destruct ps as [|p ps]; [congruence|]. eexists. split; [reflexivity|]. split; [rewrite map_length, seq_length; reflexivity|].
    intros k K. set (g := fun k0 => (Qsum (map (fun p0 => nth k0 p0 0) (p :: ps)) / nq (length (p :: ps)))%Q).
    rewrite (nth_indep _ 0%Q (g 0)) by (rewrite map_length, seq_length; exact K). rewrite map_nth, seq_nth by exact K. unfold g. cbn [Nat.add].
    pose proof (nq_pos (length (p :: ps)) ltac:(cbn; lia)) as P. field. intros Z0. rewrite Z0 in P. apply Qlt_irrefl in P. exact P.
Qed.
Lemma length_pyslice_eq : forall {A B} (l : list A) (m : list B) a b, length l = length m -> length (pyslice l a b) = length (pyslice m a b).
Proof. intros A B l m a b H. unfold pyslice, slice. rewrite !firstn_length, !skipn_length, H. reflexivity. Qed.
Lemma pyslice_in : forall {A} (l : list A) a b x, In x (pyslice l a b) -> In x l.
Proof.
  intros A l a b x H. unfold pyslice, slice in H. apply (fun P => In_nth_error _ _ P) in H. destruct H as [k H].
  assert (FN : forall (m : list A) n k x, nth_error (firstn n m) k = Some x -> In x m).
  { induction m as [|y m IH]; intros [|n] [|k0] x0 X; cbn in X; try discriminate; [injection X as ->; left; reflexivity|right; eapply IH; exact X]. }
  apply FN in H. clear FN. revert H. generalize (start_of (length l) a) as n. intros n. revert l. induction n as [|n IH]; intros l H; [exact H|]. destruct l as [|y l]; [destruct H|]. right. apply IH. exact H.
Qed.
Lemma columns_len : forall g a c, rectangular g -> In c (columns_in g a) -> length c = length (lats_in g a).
Proof.
  intros g a c RE H. unfold columns_in, lats_in in *. destruct (nearest_grd_indice (ll_lon a) _ _ _ _ _) as [i0 j0]. destruct (nearest_grd_indice (ur_lon a) _ _ _ _ _) as [i1 j1].
  apply in_map_iff in H. destruct H as (c0 & <- & H). apply pyslice_in in H. cbn [snd]. apply length_pyslice_eq. apply RE. exact H.
Qed.
Lemma increasing_tail : forall a r, increasing (a :: r) -> increasing r.
Proof. intros a r H i j L J. apply (H (S i) (S j)); cbn; lia. Qed.
Lemma count_below : forall f x, increasing f -> forall i, i < length f -> ((nth i f 0 < x)%Q <-> i < length (filter (fun a => Qlt_bool a x) f)).
Proof.
  induction f as [|a r IH]; intros x H i I; [cbn in I; lia|]. cbn [filter]. destruct (Qlt_bool a x) eqn:E.
  - apply Qlt_bool_iff in E. destruct i as [|i]; cbn [nth length]; [split; [lia|intros _; exact E]|]. rewrite (IH x (increasing_tail _ _ H) i) by (cbn in I; lia). lia.
  - apply Qlt_bool_false in E. assert (Z0 : filter (fun b => Qlt_bool b x) r = []).
    { destruct (filter (fun b => Qlt_bool b x) r) as [|b s] eqn:F; [reflexivity|]. exfalso. assert (B : In b (filter (fun b => Qlt_bool b x) r)) by (rewrite F; left; reflexivity).
      apply filter_In in B. destruct B as [B X]. apply Qlt_bool_iff in X. apply (In_nth _ _ 0%Q) in B. destruct B as (k & K & <-). specialize (H 0 (S k) ltac:(lia) ltac:(cbn; lia)). cbn in H. lra. }
    rewrite Z0. cbn [length]. split; [|lia]. intros X. exfalso. destruct i as [|i]; [cbn in X; lra|]. specialize (H 0 (S i) ltac:(lia) I). cbn [nth] in *. lra.
Qed.
Lemma last_nth : forall (f : list Q), last f 0%Q = nth (length f - 1) f 0%Q.
Proof. induction f as [|a [|b r] IH]; [reflexivity|reflexivity|]. change (last (a :: b :: r) 0%Q) with (last (b :: r) 0%Q). rewrite IH. cbn [length]. replace (S (S (length r)) - 1) with (S (S (length r) - 1)) by lia. reflexivity. Qed.
Lemma interp_line : forall f p x, 2 <= length f -> increasing f -> (nth 0 f 0 <= x)%Q -> (x <= last f 0)%Q -> exists v, interp1d f p x = Some v /\ on_line f p x v.
Proof.
  intros f p x L INC A B. unfold interp1d. destruct (Nat.ltb_spec (length f) 2) as [C|_]; [lia|].
  destruct (Qlt_bool x (nth 0 f 0%Q)) eqn:E1; [apply Qlt_bool_iff in E1; lra|]. destruct (Qlt_bool (last f 0%Q) x) eqn:E2; [apply Qlt_bool_iff in E2; lra|]. cbn [orb].
  set (c := length (filter (fun a => Qlt_bool a x) f)). set (hi := Nat.max 1 (Nat.min c (length f - 1))). eexists. split; [reflexivity|].
  assert (HI : S (hi - 1) = hi) by (unfold hi; lia). exists (hi - 1). rewrite HI.
  assert (CB : forall i, i < length f -> ((nth i f 0 < x)%Q <-> i < c)) by (intros i I; apply count_below; assumption).
  assert (HL : hi < length f) by (unfold hi; lia). split; [exact HL|].
  assert (D : (nth (hi - 1) f 0 < nth hi f 0)%Q) by (apply INC; lia).
  rewrite last_nth in B. assert (CL : c <= length f - 1).
  { destruct (Nat.le_gt_cases c (length f - 1)) as [X|X]; [exact X|]. apply CB in X; [lra|lia]. }
  split.
  - destruct (Nat.eq_dec c 0) as [C0|C0].
    + replace hi with 1 in * by (unfold hi; lia). cbn [Nat.sub] in *. split; [exact A|]. assert (~ (nth 0 f 0 < x)%Q) by (rewrite CB; lia). lra.
    + replace hi with c in * by (unfold hi; lia). assert ((nth (c - 1) f 0 < x)%Q) by (apply CB; lia). assert (~ (nth c f 0 < x)%Q) by (rewrite CB; lia). split; lra.
  - field. lra.
Qed.
Lemma fold_low : forall l a, let m := fold_left (fun a b => if Qle_bool a b then a else b) l a in (m <= a)%Q /\ (forall x, In x l -> (m <= x)%Q) /\ (m = a \/ In m l).
Proof.
  induction l as [|b l IH]; intros a; cbn [fold_left]; [repeat split; [lra|intros x []|left; reflexivity]|].
  destruct (IH (if Qle_bool a b then a else b)) as (P1 & P2 & P3). cbv zeta. set (m := fold_left _ l _) in *. destruct (Qle_bool a b) eqn:E.
  - apply Qle_bool_iff in E. repeat split; [lra| |destruct P3 as [->|P3]; [left; reflexivity|right; right; exact P3]]. intros x [<-|X]; [lra|apply P2; exact X].
  - apply Qle_bool_false in E. repeat split; [lra| |destruct P3 as [P3|P3]; [right; left; symmetry; exact P3|right; right; exact P3]]. intros x [<-|X]; [lra|apply P2; exact X].
Qed.
Lemma fold_high : forall l a, let m := fold_left (fun a b => if Qle_bool b a then a else b) l a in (a <= m)%Q /\ (forall x, In x l -> (x <= m)%Q) /\ (m = a \/ In m l).
Proof.
  induction l as [|b l IH]; intros a; cbn [fold_left]; [repeat split; [lra|intros x []|left; reflexivity]|].
  destruct (IH (if Qle_bool b a then a else b)) as (P1 & P2 & P3). cbv zeta. set (m := fold_left _ l _) in *. destruct (Qle_bool b a) eqn:E.
  - apply Qle_bool_iff in E. repeat split; [lra| |destruct P3 as [->|P3]; [left; reflexivity|right; right; exact P3]]. intros x [<-|X]; [lra|apply P2; exact X].
  - apply Qle_bool_false in E. repeat split; [lra| |destruct P3 as [P3|P3]; [right; left; symmetry; exact P3|right; right; exact P3]]. intros x [<-|X]; [lra|apply P2; exact X].
Qed.
Definition good (f : list Q) : Prop := 2 <= length f /\ increasing f /\ (nth 0 f 0 == 0)%Q.
Lemma lowest_zero : forall f, good f -> (lowest_f f == 0)%Q.
Proof.
  intros f (L & I & Z0). unfold lowest_f. destruct (fold_low f (nth 0 f 0%Q)) as (P1 & P2 & P3). set (m := fold_left _ f _) in *.
  assert (M : exists k, k < length f /\ m = nth k f 0%Q). { destruct P3 as [->|P3]; [exists 0; split; [lia|reflexivity]|]. apply (In_nth _ _ 0%Q) in P3. destruct P3 as (k & K & E). exists k. auto. }
  destruct M as (k & K & E). assert (X : (nth 0 f 0 <= m)%Q). { rewrite E. destruct k as [|k]; [lra|]. specialize (I 0 (S k) ltac:(lia) K). lra. } lra.
Qed.
Lemma highest_last : forall f, good f -> (highest_f f == last f 0)%Q.
Proof.
  intros f (L & I & Z0). unfold highest_f. destruct (fold_high f (nth 0 f 0%Q)) as (P1 & P2 & P3). set (m := fold_left _ f _) in *. rewrite last_nth.
  assert (M : exists k, k < length f /\ m = nth k f 0%Q). { destruct P3 as [->|P3]; [exists 0; split; [lia|reflexivity]|]. apply (In_nth _ _ 0%Q) in P3. destruct P3 as (k & K & E). exists k. auto. }
  destruct M as (k & K & E). assert (LL : length f - 1 < length f) by lia. specialize (P2 (nth (length f - 1) f 0%Q) (nth_In _ _ LL)). assert (X : (m <= nth (length f - 1) f 0)%Q).
  { rewrite E. destruct (Nat.eq_dec k (length f - 1)) as [->|N]; [lra|]. specialize (I k (length f - 1) ltac:(lia) ltac:(lia)). lra. } lra.
Qed.
Lemma good_last : forall f, good f -> (0 < last f 0)%Q.
Proof. intros f (L & I & Z0). rewrite last_nth. specialize (I 0 (length f - 1) ltac:(lia) ltac:(lia)). lra. Qed.
Lemma common_range : forall fs, (forall f, In f fs -> good f) -> fs <> [] ->
  exists lo hi, common fs = Some (lo, hi) /\ (lo == 0)%Q /\ (forall f, In f fs -> (hi <= last f 0)%Q) /\ exists f, In f fs /\ (hi == last f 0)%Q.
Proof.
  intros [|f fs] G NE; [congruence|]. clear NE. unfold common.
  assert (H : forall fs b done, (fst b == 0)%Q -> (forall f, In f done -> (snd b <= last f 0)%Q) -> (exists f, In f done /\ (snd b == last f 0)%Q) -> (forall f, In f fs -> good f) ->
    let r := fold_left (fun b g => (if Qle_bool (lowest_f g) (fst b) then fst b else lowest_f g, if Qle_bool (snd b) (highest_f g) then snd b else highest_f g)) fs b in
    (fst r == 0)%Q /\ (forall f, In f (done ++ fs) -> (snd r <= last f 0)%Q) /\ exists f, In f (done ++ fs) /\ (snd r == last f 0)%Q).
  { clear. induction fs as [|g fs IH]; intros b done B1 B2 B3 G; cbn [fold_left]; [rewrite app_nil_r; auto|].
    replace (done ++ g :: fs) with ((done ++ [g]) ++ fs) by (rewrite <- app_assoc; reflexivity).
    pose proof (lowest_zero g (G g (or_introl eq_refl))) as LZ. pose proof (highest_last g (G g (or_introl eq_refl))) as HL.
    apply IH; cbn [fst snd]; [destruct (Qle_bool (lowest_f g) (fst b)); assumption| | |intros f F; apply G; right; exact F].
    - intros f F. apply in_app_iff in F. destruct (Qle_bool (snd b) (highest_f g)) eqn:E; [apply Qle_bool_iff in E|apply Qle_bool_false in E]; (destruct F as [F|[<-|[]]]; [specialize (B2 f F)|]; lra).
    - destruct (Qle_bool (snd b) (highest_f g)) eqn:E; [destruct B3 as (f & F & X); exists f; rewrite in_app_iff; auto|]. exists g. rewrite in_app_iff. split; [right; left; reflexivity|exact HL]. }
  pose proof (lowest_zero f (G f (or_introl eq_refl))) as LZ. pose proof (highest_last f (G f (or_introl eq_refl))) as HL.
  specialize (H fs (lowest_f f, highest_f f) [f] LZ). destruct H as (A & B & C).
  - intros g [<-|[]]. cbn [snd]. lra.
  - exists f. split; [left; reflexivity|exact HL].
  - intros g F. apply G. right. exact F.
  - cbn [app] in B, C. eexists _, _. split; [rewrite (surjective_pairing (fold_left _ _ _)); reflexivity|]. auto.
Qed.
Lemma linspace_nth : forall lo hi n k, 2 <= n -> k < n -> (lo == 0)%Q -> (nth k (linspace lo hi n) 0 * nq (n - 1) == nq k * hi)%Q /\ length (linspace lo hi n) = n.
Proof.
  intros lo hi n k N K LO. unfold linspace. destruct (Nat.eqb_spec n 1) as [X|_]; [lia|]. split; [|rewrite map_length, seq_length; reflexivity].
  set (g := fun i : nat => (if (i =? n - 1)%nat then hi else lo + nq i * ((hi - lo) / nq (n - 1)))%Q).
  rewrite (nth_indep _ 0%Q (g 0)) by (rewrite map_length, seq_length; exact K). rewrite map_nth, seq_nth by exact K. cbn [Nat.add]. unfold g.
  pose proof (nq_pos (n - 1) ltac:(lia)) as P. destruct (Nat.eqb_spec k (n - 1)) as [->|_]; [lra|]. rewrite LO. field. lra.
Qed.

Lemma wave_wavelength : forall f, Forall2 wavelength f (map wave f).
Proof.
  induction f as [|x f IH]; cbn; constructor; [|exact IH]. unfold wave, wavelength. destruct (Qeq_bool x 0) eqn:E; [apply Qeq_bool_iff in E; exact E|].
  assert (N : ~ (x == 0)%Q) by (intros H; apply Qeq_bool_iff in H; congruence). field. exact N.
Qed.
Lemma rows_eq : forall welch dx sc g a,
  map (fun p : nat * Q => welch sc (stored (row_of (columns_in g a) (fst p))) (1 / (g_xstep g * dx (snd p) / 1000))%Q) (combine (seq 0 (length (lats_in g a))) (lats_in g a)) = row_spectra welch dx sc g a.
Proof.
  intros welch dx sc g a. unfold row_spectra. set (ls := lats_in g a). set (cs := columns_in g a).
  assert (H : forall (h : nat -> Q -> list Q * list (option Q)) l d, map (fun p : nat * Q => h (fst p) (snd p)) (combine (seq d (length l)) l) = map (fun i => h i (nth (i - d) l 0%Q)) (seq d (length l))).
  { intros h. induction l as [|y l IH]; intros d; cbn [length seq combine map]; [reflexivity|]. cbn [fst snd]. rewrite Nat.sub_diag. cbn [nth]. f_equal. rewrite IH. apply map_ext_in. intros i I. apply in_seq in I. replace (i - d) with (S (i - S d)) by lia. reflexivity. }
  rewrite (H (fun i y => welch sc (stored (row_of cs i)) (1 / (g_xstep g * dx y / 1000))%Q) ls 0). apply map_ext_in. intros i I. rewrite Nat.sub_0_r. unfold stored, row_of. rewrite map_map. reflexivity.
Qed.
Lemma step_pos : forall s d, (0 < s)%Q -> (0 < d)%Q -> (0 < 1 / (s * d / 1000))%Q.
Proof.
  intros s d S0 D0. assert (P : (0 < s * d / 1000)%Q). { unfold Qdiv. apply Qmult_lt_0_compat; [apply Qmult_lt_0_compat; assumption|]. reflexivity. }
  unfold Qdiv at 1. rewrite Qmult_1_l. apply Qinv_lt_0_compat. exact P.
Qed.
Lemma row_good : forall size welch dx dy sc g a w, welch_ok size welch -> usable dx dy g a -> In w (row_spectra welch dx sc g a) ->
  2 <= size (length (columns_in g a)) /\ length (fst w) = size (length (columns_in g a)) /\ length (snd w) = size (length (columns_in g a)) /\ good (fst w).
Proof.
  intros size welch dx dy sc g a w W (RE & SX & SY & DY & DX & NC & NL) I. unfold row_spectra in I. apply in_map_iff in I. destruct I as (i & <- & I). apply in_seq in I.
  set (s := map (fun c : list cell => fst (nth i c (None, true))) (columns_in g a)). assert (LS : length s = length (columns_in g a)) by apply map_length.
  assert (P : (0 < 1 / (g_xstep g * dx (nth i (lats_in g a) 0) / 1000))%Q).
  { apply step_pos; [exact SX|]. apply DX. eapply pyslice_in. apply (nth_In (lats_in g a)). lia. }
  destruct (W sc s _ ltac:(lia) P) as (A & B & C & D & E & _). rewrite LS in *. split; [exact A|]. split; [exact B|]. split; [exact C|]. split; [|split; [exact E|exact D]]. apply (Nat.le_trans _ _ _ A). apply Nat.eq_le_incl. symmetry. exact B.
Qed.
Lemma forall2_interp : forall ks x, (forall k, In k ks -> good (fst k) /\ (0 <= x)%Q /\ (x <= last (fst k) 0)%Q) ->
  exists vs, map (fun k : list Q * list Q => interp1d (fst k) (snd k) x) ks = map Some vs /\ Forall2 (fun k v => on_line (fst k) (snd k) x v) ks vs.
Proof.
  induction ks as [|k ks IH]; intros x H; [exists []; split; [reflexivity|constructor]|].
  destruct (IH x ltac:(intros k0 K0; apply H; right; exact K0)) as (vs & A & B). destruct (H k (or_introl eq_refl)) as ((G1 & G2 & G3) & X1 & X2).
  destruct (interp_line (fst k) (snd k) x G1 G2 ltac:(lra) X2) as (v & V1 & V2). exists (v :: vs). cbn. rewrite V1, A. split; [reflexivity|]. constructor; assumption.
Qed.

Lemma last_in : forall {A} (l : list A) d, l <> [] -> In (last l d) l.
Proof. intros A l d. induction l as [|u l _] using rev_ind; [congruence|]. intros _. rewrite last_last. apply in_or_app. right. left. reflexivity. Qed.
Lemma lat_ok : forall size welch dx dy sc g a, welch_ok size welch -> usable dx dy g a ->
  exists lat, lat_spectrum welch sc (1 / (g_ystep g * dy / 1000))%Q (columns_in g a) = Some lat /\ is_lat_spectrum (size (length (lats_in g a))) (column_spectra welch dy sc g a) lat.
Proof.
  intros size welch dx dy sc g a W (RE & SX & SY & DY & DX & NC & NL). unfold column_spectra.
  set (fy := (1 / (g_ystep g * dy / 1000))%Q). assert (FY : (0 < fy)%Q) by (apply step_pos; assumption).
  pose proof (columns_len g a) as CL. set (cols := columns_in g a) in *. set (n := length (lats_in g a)) in *.
  set (ws := map (fun c => welch sc (stored c) fy) cols).
  assert (WF : forall w w', In w ws -> In w' ws -> fst w = fst w' /\ length (fst w) = size n).
  { intros u u' A B. unfold ws in A, B. apply in_map_iff in A. apply in_map_iff in B. destruct A as (c & <- & A). destruct B as (c' & <- & B).
    pose proof (CL _ RE A) as L1. pose proof (CL _ RE B) as L2. unfold stored.
    assert (M1 : length (map fst c) = n) by (rewrite map_length; exact L1). assert (M2 : length (map fst c') = n) by (rewrite map_length; exact L2).
    destruct (W sc (map fst c) fy ltac:(lia) FY) as (_ & X & _ & _ & _ & _). destruct (W sc (map fst c') fy ltac:(lia) FY) as (_ & _ & _ & _ & _ & Y). split; [apply Y; lia|]. rewrite X, M1. reflexivity. }
  assert (LI : In (last ws ([], [])) ws).
  { assert (LW : length ws = length cols) by apply map_length. apply last_in. intros X. rewrite X in LW. change (0 = length cols) in LW. lia. }
  exists (map wave (fst (last ws ([], []))), mean_rows (length (fst (last ws ([], [])))) (map snd (kept ws))). split.
  - unfold lat_spectrum. fold ws. destruct cols; [cbn in NC; lia|reflexivity].
  - change (map (fun c => welch sc (map fst c) fy) cols) with ws. destruct (WF _ _ LI LI) as [_ LL]. split; cbn [fst snd].
    + exists (kept ws). split; [apply kept_clean|]. rewrite LL. apply mean_is.
    + intros w I. destruct (WF _ _ I LI) as [-> _]. apply wave_wavelength.
Qed.
Lemma common_none : forall fs, common fs = None -> fs = [].
Proof. intros [|f fs]; [reflexivity|discriminate]. Qed.
Lemma sequence_map : forall {A B} (f : A -> option B) (g : A -> B) l, (forall x, In x l -> f x = Some (g x)) -> sequence (map f l) = Some (map g l).
Proof. intros A B f g l H. apply sequence_some. rewrite map_map. apply map_ext_in. exact H. Qed.
Definition value (k : list Q * list Q) (x : Q) : Q := match interp1d (fst k) (snd k) x with Some v => v | None => 0%Q end.
Lemma lon_ok : forall size welch dx dy sc g a, welch_ok size welch -> usable dx dy g a ->
  (exists w, In w (row_spectra welch dx sc g a) /\ ~ In None (snd w)) ->
  exists lon, lon_spectrum welch sc (fun y => g_xstep g * dx y / 1000)%Q (lats_in g a) (columns_in g a) = Some lon /\ is_lon_spectrum (size (length (columns_in g a))) (row_spectra welch dx sc g a) lon.
Proof.
  intros size welch dx dy sc g a W U (w & WI & WN). unfold lon_spectrum. cbv zeta. rewrite rows_eq.
  pose proof (fun w => row_good size welch dx dy sc g a w W U) as RG. set (n := size (length (columns_in g a))) in *. set (ws := row_spectra welch dx sc g a) in *.
  assert (KG : forall k, In k (kept ws) -> good (fst k)) by (intros k K; apply kept_in, RG in K; apply K).
  assert (NE : kept ws <> []) by (intros X; apply (proj1 (kept_none ws)) with (w := w) in X; auto).
  assert (N2 : 2 <= n) by (apply (RG w WI)).
  destruct (common_range (map fst (kept ws))) as (lo & hi & CE & LO & HI & HX).
  { intros f F. apply in_map_iff in F. destruct F as (k & <- & K). apply KG. exact K. }
  { destruct (kept ws); [congruence|discriminate]. }
  rewrite CE. cbn [bind fst snd].
  assert (LI : In (last ws ([], [])) ws) by (apply last_in; intros X; rewrite X in WI; destruct WI).
  assert (LN : length (fst (last ws ([], []))) = n) by (apply (RG _ LI)). rewrite LN. set (fi := linspace lo hi n).
  assert (FL : length fi = n) by (apply (linspace_nth lo hi n 0); lia || exact LO).
  assert (HI' : forall k, In k (kept ws) -> (hi <= last (fst k) 0)%Q) by (intros k K; apply HI; apply in_map; exact K).
  assert (HP : (0 < hi)%Q). { destruct HX as (f & F & X). apply in_map_iff in F. destruct F as (k & <- & K). pose proof (good_last _ (KG k K)). lra. }
  assert (FR : forall x, In x fi -> (0 <= x <= hi)%Q).
  { intros x X. apply (In_nth _ _ 0%Q) in X. destruct X as (j & J & <-). rewrite FL in J. destruct (linspace_nth lo hi n j N2 J LO) as [E _]. fold fi in E.
    pose proof (nq_pos (n - 1) ltac:(lia)) as P. assert (Q1 : (0 <= nq j)%Q) by (unfold nq; change 0%Q with (inject_Z 0); rewrite <- Zle_Qle; lia).
    assert (Q2 : (nq j <= nq (n - 1))%Q) by (unfold nq; rewrite <- Zle_Qle; lia). split; nra. }
  assert (IV : forall k x, In k (kept ws) -> In x fi -> exists v, interp1d (fst k) (snd k) x = Some v /\ on_line (fst k) (snd k) x v).
  { intros k x K X. destruct (KG k K) as (G1 & G2 & G3). specialize (FR x X). specialize (HI' k K). apply interp_line; try assumption; lra. }
  rewrite (sequence_map (fun k => sequence (map (interp1d (fst k) (snd k)) fi)) (fun k => map (value k) fi)).
  2:{ intros k K. apply sequence_map. intros x X. unfold value. destruct (IV k x K X) as (v & -> & _). reflexivity. }
  eexists. split; [reflexivity|]. pose proof (mean_is n (map (fun k => map (value k) fi) (kept ws))) as [_ MM].
  destruct MM as (m & ME & ML & MV); [destruct (kept ws); [congruence|discriminate]|].
  exists (kept ws), fi, hi, m. cbn [fst snd]. split; [apply kept_clean|]. split; [apply wave_wavelength|]. split; [exact ME|]. split; [exact FL|]. split; [exact ML|]. split; [exact HI'|].
  split; [destruct HX as (f & F & X); apply in_map_iff in F; destruct F as (k & <- & K); exists k; split; assumption|].
  intros j J. split; [apply (linspace_nth lo hi n j N2 J LO)|]. assert (XI : In (nth j fi 0%Q) fi) by (apply nth_In; lia).
  exists (map (fun k => value k (nth j fi 0%Q)) (kept ws)). split.
  - assert (H : forall ks, (forall k, In k ks -> In k (kept ws)) -> Forall2 (fun k v => on_line (fst k) (snd k) (nth j fi 0%Q) v) ks (map (fun k => value k (nth j fi 0%Q)) ks)).
    { induction ks as [|k ks IH]; intros KS; cbn; constructor; [|apply IH; intros k0 K0; apply KS; right; exact K0]. unfold value. destruct (IV k _ (KS k (or_introl eq_refl)) XI) as (v & -> & V). exact V. }
    apply H. auto.
  - specialize (MV j J). rewrite map_length in MV. rewrite MV, map_map. assert (E : forall k, nth j (map (value k) fi) 0%Q = value k (nth j fi 0%Q)).
    { intros k. rewrite (nth_indep _ 0%Q (value k 0%Q)) by (rewrite map_length; lia). apply map_nth. }
    rewrite (map_ext _ _ E). reflexivity.
Qed.

(** Positive steps, two columns and two rows or more, a row without nan: the two
    spectra are given. *)
Theorem C145_spectra : forall size welch dx dy sc g a, welch_ok size welch -> usable dx dy g a ->
  (exists w, In w (row_spectra welch dx sc g a) /\ ~ In None (snd w)) ->
  exists lon lat, spectrum_lonlat welch dx dy sc g a = Some (lon, lat) /\
    is_lat_spectrum (size (length (lats_in g a))) (column_spectra welch dy sc g a) lat /\
    is_lon_spectrum (size (length (columns_in g a))) (row_spectra welch dx sc g a) lon.
Proof.
  intros size welch dx dy sc g a W U V. destruct (lat_ok size welch dx dy sc g a W U) as (lat & A1 & A2). destruct (lon_ok size welch dx dy sc g a W U V) as (lon & B1 & B2).
  exists lon, lat. unfold spectrum_lonlat. cbv zeta. rewrite A1, B1. auto.
Qed.
Print Assumptions C145_spectra.

(** When each row has a nan in its spectrum, for instance when a column of the area
    holds nan only, the call fails, whatever the other cells are. *)
Theorem C145_hole : forall welch dx dy sc g a,
  ((forall w, In w (row_spectra welch dx sc g a) -> In None (snd w)) -> spectrum_lonlat welch dx dy sc g a = None) /\
  ((forall sc s fs, In None s -> In None (snd (welch sc s fs))) -> rectangular g ->
   (exists c, In c (columns_in g a) /\ forall x, In x c -> fst x = None) -> spectrum_lonlat welch dx dy sc g a = None).
Proof.
  intros welch dx dy sc g a.
  assert (H : (forall w, In w (row_spectra welch dx sc g a) -> In None (snd w)) -> spectrum_lonlat welch dx dy sc g a = None).
  { intros H. unfold spectrum_lonlat. cbv zeta. destruct (lat_spectrum _ _ _ _) as [lat|]; [|reflexivity]. cbn [bind]. unfold lon_spectrum. cbv zeta. rewrite rows_eq.
    apply kept_none in H. rewrite H. reflexivity. }
  split; [exact H|]. intros PR RE (c & C & CN). apply H. intros w I. unfold row_spectra in I. apply in_map_iff in I. destruct I as (i & <- & I). apply in_seq in I. apply PR.
  apply in_map_iff. exists c. split; [|exact C]. apply CN. apply nth_In. pose proof (columns_len g a c RE C) as CL. apply (Nat.lt_le_trans _ (length (lats_in g a))); [lia|]. apply Nat.eq_le_incl. symmetry. exact CL.
Qed.
Print Assumptions C145_hole.

(** The node [n] of a regular axis is the nearest one of [x], and no other is as near. *)
Definition on_node (o s x : Q) (n : Z) : Prop := (o + (inject_Z n - (1 # 2)) * s < x < o + (inject_Z n + (1 # 2)) * s)%Q.
Lemma on_node_round : forall o s x n, (0 < s)%Q -> on_node o s x n -> Grid_model.qround ((x - o) / s) = n.
Proof.
  intros o s x n P (L & H). pose proof (Grid_path.qround_near ((x - o) / s)) as N. remember (Grid_model.qround ((x - o) / s)) as k. clear Heqk. apply Qabs.Qabs_Qle_condition in N. destruct N as (N1 & N2).
  assert (E1 : ((inject_Z n - (1 # 2)) < (x - o) / s)%Q) by (apply Qlt_shift_div_l; [exact P|lra]).
  assert (E2 : ((x - o) / s < (inject_Z n + (1 # 2)))%Q) by (apply Qlt_shift_div_r; [exact P|lra]).
  remember ((x - o) / s)%Q as q. assert (A : (inject_Z (n - 1) < inject_Z k)%Q) by (unfold Z.sub; rewrite inject_Z_plus; change (inject_Z (- (1))) with (-1)%Q; lra).
  assert (B : (inject_Z k < inject_Z (n + 1))%Q) by (rewrite inject_Z_plus; change (inject_Z 1) with 1%Q; lra). rewrite <- Zlt_Qlt in A, B. lia.
Qed.
(** The cells and latitudes used are those from the node of the lower left corner to the
    one before the node of the upper right corner, and no others. *)
Theorem C145_area : forall g a i0 j0 i1 j1, (0 < g_xstep g)%Q -> (0 < g_ystep g)%Q -> (g_x0 g <= ll_lon a < g_x0 g + 360)%Q -> (g_x0 g <= ur_lon a < g_x0 g + 360)%Q ->
  on_node (g_x0 g) (g_xstep g) (ll_lon a) (Z.of_nat i0) -> on_node (g_y0 g) (g_ystep g) (ll_lat a) (Z.of_nat j0) -> on_node (g_x0 g) (g_xstep g) (ur_lon a) (Z.of_nat i1) -> on_node (g_y0 g) (g_ystep g) (ur_lat a) (Z.of_nat j1) ->
  (forall j, nth_error (lats_in g a) j = if j0 + j <? j1 then nth_error (g_lat g) (j0 + j) else None) /\
  (forall i, i1 <= i0 + i -> nth_error (columns_in g a) i = None) /\
  (forall i, i0 + i < i1 -> match nth_error (g_cells g) (i0 + i) with
     | None => nth_error (columns_in g a) i = None
     | Some c => exists col, nth_error (columns_in g a) i = Some col /\ forall j, nth_error col j = if j0 + j <? j1 then nth_error c (j0 + j) else None end).
Proof.
  intros g a i0 j0 i1 j1 PX PY R0 R1 A1 A2 A3 A4.
  assert (X : forall x n, (g_x0 g <= x < g_x0 g + 360)%Q -> on_node (g_x0 g) (g_xstep g) x n -> Grid_model.qround (Qmod (x - g_x0 g) 360 / g_xstep g) = n).
  { intros x n RX ON. rewrite <- (on_node_round _ _ _ _ PX ON). apply Grid_path.qround_comp. rewrite Pix_proofs.Qmod_id; [reflexivity|lra]. }
  assert (SL : forall {A} (l : list A) u v t, nth_error (pyslice l (Some (Z.of_nat u)) (Some (Z.of_nat v))) t = if u + t <? v then nth_error l (u + t) else None).
  { intros A l u v t. rewrite Pix_proofs.pyslice_nth by lia. rewrite Nat2Z.id. destruct (Z.ltb_spec (Z.of_nat u + Z.of_nat t) (Z.of_nat v)), (Nat.ltb_spec (u + t) v); try reflexivity; lia. }
  unfold lats_in, columns_in, nearest_grd_indice. cbn [snd]. rewrite (X _ _ R0 A1), (X _ _ R1 A3), (on_node_round _ _ _ _ PY A2), (on_node_round _ _ _ _ PY A4).
  split; [intros j; apply SL|]. split.
  - intros i I. rewrite nth_error_map, SL. apply Nat.ltb_ge in I. now rewrite I.
  - intros i I. rewrite nth_error_map, SL. apply Nat.ltb_lt in I. rewrite I. destruct (nth_error (g_cells g) (i0 + i)) as [c|]; [|reflexivity]. cbn [option_map]. eexists. split; [reflexivity|]. intros j. apply SL.
Qed.
Print Assumptions C145_area.

(** Divided by itself with the default scaling, a spectrum is 1 wherever the
    quotient is a number. *)
Theorem C145_self : forall welch dx dy g a lon lat, spectrum_ratio welch dx dy Density g g a = Some (lon, lat) ->
  (forall v, In (Some v) (snd lon) -> (v == 1)%Q) /\ (forall v, In (Some v) (snd lat) -> (v == 1)%Q) /\
  exists s, spectrum_lonlat welch dx dy Density g a = Some s /\ fst lon = fst (fst s) /\ fst lat = fst (snd s).
Proof.
  intros welch dx dy g a lon lat. unfold spectrum_ratio. destruct (spectrum_lonlat welch dx dy Density g a) as [[x y]|]; [|discriminate]. cbn [fst snd].
  assert (Q1 : forall c r, quotient c c = Some r -> fst r = fst c /\ forall v, In (Some v) (snd r) -> (v == 1)%Q).
  { intros [ww [p|]] r H; unfold quotient in H; cbn [fst snd] in H; [rewrite Nat.eqb_refl in H|]; injection H as <-; cbn [fst snd]; (split; [reflexivity|]); intros v V.
    - apply in_map_iff in V. destruct V as ([b c] & E & I). cbn [fst snd] in E. assert (BC : b = c). { clear - I. induction p as [|q p IH]; [destruct I|]. destruct I as [I|I]; [congruence|auto]. }
      subst c. destruct (Qeq_bool b 0) eqn:Z0; [discriminate|]. injection E as <-. assert (N : ~ (b == 0)%Q) by (intros X; apply Qeq_bool_iff in X; congruence). field. exact N.
    - destruct V as [V|[]]. discriminate. }
  cbn [bind fst snd]. destruct (quotient x x) as [l1|] eqn:E1; cbn [bind]; [|discriminate]. destruct (quotient y y) as [l2|] eqn:E2; cbn [bind]; [|discriminate]. intros H. injection H as <- <-. apply Q1 in E1. apply Q1 in E2.
  split; [apply E1|]. split; [apply E2|]. exists (x, y). split; [reflexivity|]. split; [apply E1|apply E2].
Qed.
Print Assumptions C145_self.

(** [c] holds the quotients of the powers of [a] by those of [b], at the wavelengths of [a]. *)
Definition is_ratio (a b : content) (c : list (option Q) * list (option Q)) : Prop :=
  fst c = fst a /\
  match snd a, snd b with
  | Some p, Some q => length q = length p /\ length (snd c) = length p /\
      forall k, k < length p -> match nth k (snd c) None with Some v => (~ nth k q 0 == 0)%Q /\ (v * nth k q 0 == nth k p 0)%Q | None => (nth k q 0 == 0)%Q end
  | _, _ => forall v, In v (snd c) -> v = None
  end.
(** With a reference, what is given is the spectra of the grid, in the scaling asked, divided
    by those of the reference on the same area, in the default one. *)
Theorem C145_ratio : forall welch dx dy sc g ref a lon lat, spectrum_ratio welch dx dy sc g ref a = Some (lon, lat) ->
  exists s r, spectrum_lonlat welch dx dy sc g a = Some s /\ spectrum_lonlat welch dx dy Density ref a = Some r /\ is_ratio (fst s) (fst r) lon /\ is_ratio (snd s) (snd r) lat.
Proof.
  intros welch dx dy sc g ref a lon lat. unfold spectrum_ratio. destruct (spectrum_lonlat welch dx dy sc g a) as [s|]; [|discriminate]. destruct (spectrum_lonlat welch dx dy Density ref a) as [r|]; [|discriminate]. cbn [bind].
  assert (R1 : forall u v w, quotient u v = Some w -> is_ratio u v w).
  { intros [wu [p|]] [wv [q|]] w H; unfold quotient in H; cbn [fst snd] in H; unfold is_ratio; cbn [fst snd].
    - destruct (Nat.eqb_spec (length p) (length q)) as [L|]; [|discriminate]. injection H as <-. cbn [fst snd]. split; [reflexivity|]. split; [now symmetry|]. split; [rewrite map_length, combine_length; lia|].
      intros k K. remember (fun c : Q * Q => if Qeq_bool (snd c) 0 then None else Some (fst c / snd c)%Q) as f eqn:F. rewrite (nth_indep _ None (f (0%Q, 0%Q))) by (rewrite map_length, combine_length; lia). rewrite (map_nth f), combine_nth by exact L. rewrite F. cbn [fst snd].
      destruct (Qeq_bool (nth k q 0%Q) 0) eqn:Z0; [now apply Qeq_bool_iff|]. assert (N : ~ (nth k q 0 == 0)%Q) by (intros X; apply Qeq_bool_iff in X; congruence). split; [exact N|]. field. exact N.
    - injection H as <-. cbn [fst snd]. split; [reflexivity|]. intros v V. apply in_map_iff in V. now destruct V as (x & <- & _).
    - injection H as <-. cbn [fst snd]. split; [reflexivity|]. intros v V. apply in_map_iff in V. now destruct V as (x & <- & _).
    - injection H as <-. cbn [fst snd]. split; [reflexivity|]. intros v [<-|[]]. reflexivity. }
  destruct (quotient (fst s) (fst r)) as [l1|] eqn:E1; [|discriminate]. destruct (quotient (snd s) (snd r)) as [l2|] eqn:E2; [|discriminate]. cbn [bind]. intros H. injection H as <- <-. exists s, r. auto 6.
Qed.
Print Assumptions C145_ratio.

(** ** Case: a series of two frequencies, with the squares of the first value and
    of all values, twice as much when the scaling is not the default. *)
Definition toy (sc : scaling) (s : series) (fs : Q) : list Q * list (option Q) :=
  ([0; fs / 2]%Q, match sequence s with
                  | Some l => let c := match sc with Density => 1 | Spectrum => 2 end%Q in [Some (c * (nth 0 l 0 * nth 0 l 0)); Some (c * Qsum (map (fun x => x * x) l))]%Q
                  | None => [None; None]
                  end).
Lemma toy_ok : welch_ok (fun _ => 2) toy.
Proof.
  intros sc s fs L F. unfold toy. cbn [fst snd]. repeat split; try lia.
  - destruct (sequence s); reflexivity.
  - intros i j I J. cbn in J. assert (i = 0 /\ j = 1) as [-> ->] by lia. cbn [nth]. apply Qlt_shift_div_l; [reflexivity|lra].
Qed.
Definition case_grid (step : Q) (v : option Q) (masked : bool) : grid :=
  {| g_x0 := 0; g_y0 := 0; g_xstep := step; g_ystep := step; g_lat := [1#2; 3#2; 5#2]%Q;
     g_cells := [[(Some 1, false); (Some 2, false); (v, masked)]; [(Some 3, false); (Some 1, false); (Some 1, false)]; [(Some 1, false); (Some 1, false); (Some 2, false)]]%Q |}.
Definition case_area : area := {| ll_lon := 0; ll_lat := 0; ur_lon := 3; ur_lat := 3 |}%Q.
Definition case_dx (y : Q) : Q := (1000 * (4 - y))%Q.
Definition values (c : option (content * content)) : list Q := match c with Some (lon, lat) => match snd lon, snd lat with Some a, Some b => map Qred (a ++ b) | _, _ => [] end | None => [] end.

(** The third row and the first column have a nan, they are dropped. *)
Example C145_case : welch_ok (fun _ => 2) toy /\ usable case_dx 1000 (case_grid 1 None true) case_area /\
  (exists w, In w (row_spectra toy case_dx Density (case_grid 1 None true) case_area) /\ ~ In None (snd w)) /\
  values (spectrum_lonlat toy case_dx 1000 Density (case_grid 1 None true) case_area) = [5#2; 115#14; 5; 17#2]%Q.
Proof.
  split; [exact toy_ok|]. split; [|split; [|vm_compute; reflexivity]].
  - unfold usable. cbn [g_xstep g_ystep g_lat case_grid]. repeat split; try lra; try (vm_compute; lia).
    + intros c I. cbn in I. repeat destruct I as [<-|I]; try reflexivity. destruct I.
    + intros y I. unfold case_dx. repeat destruct I as [<-|I]; try lra. destruct I.
  - eexists. split; [left; reflexivity|]. vm_compute. intuition discriminate.
Qed.

Example C145_ratio_ex : match spectrum_ratio toy case_dx 1000 Spectrum (case_grid 1 (Some 4%Q) false) (case_grid 1 (Some 1%Q) false) case_area with
  | Some (lon, lat) => map (option_map Qred) (snd lat) = [Some 2; Some (76 # 23)]%Q | None => False end.
Proof. vm_compute. reflexivity. Qed.
(** An area smaller than the grid. *)
Example C145_area_ex : let g := case_grid 1 (Some 7%Q) false in let a := {| ll_lon := 9 # 10; ll_lat := 1 # 5; ur_lon := 21 # 10; ur_lat := 2 |}%Q in
  on_node (g_x0 g) (g_xstep g) (ll_lon a) 1 /\ on_node (g_y0 g) (g_ystep g) (ll_lat a) 0 /\ on_node (g_x0 g) (g_xstep g) (ur_lon a) 2 /\ on_node (g_y0 g) (g_ystep g) (ur_lat a) 2 /\
  columns_in g a = [[(Some 3%Q, false); (Some 1%Q, false)]] /\ lats_in g a = [1 # 2; 3 # 2]%Q.
Proof. repeat split; vm_compute; reflexivity. Qed.

(** The scaling asked is not that of the reference: divided by itself, a grid does
    not give 1. *)
Theorem C145_scaling_refuted : exists welch dx dy g a lon lat v, welch_ok (fun _ => 2) welch /\ usable dx dy g a /\
  spectrum_ratio welch dx dy Spectrum g g a = Some (lon, lat) /\ In (Some v) (snd lat) /\ ~ (v == 1)%Q.
Proof.
  exists toy, case_dx, 1000%Q, (case_grid 1 (Some 1%Q) false), case_area.
  let r := eval vm_compute in (spectrum_ratio toy case_dx 1000 Spectrum (case_grid 1 (Some 1%Q) false) (case_grid 1 (Some 1%Q) false) case_area) in
  match r with Some (?a, ?b) => exists a, b; match b with (_, Some ?v :: _) => exists v end end.
  split; [exact toy_ok|]. split; [|split; [vm_compute; reflexivity|split; [left; reflexivity|discriminate]]].
  unfold usable. cbn [g_xstep g_ystep g_lat case_grid]. repeat split; try lra; try (vm_compute; lia).
  - intros c I. cbn in I. repeat destruct I as [<-|I]; try reflexivity. destruct I.
  - intros y I. unfold case_dx. repeat destruct I as [<-|I]; try lra. destruct I.
Qed.
Print Assumptions C145_scaling_refuted.

(** What is stored under the mask counts. *)
Theorem C145_mask_refuted : exists welch dx dy g g' a, welch_ok (fun _ => 2) welch /\
  map (map (fun c : cell => if snd c then None else fst c)) (g_cells g) = map (map (fun c : cell => if snd c then None else fst c)) (g_cells g') /\
  g_lat g = g_lat g' /\ g_xstep g = g_xstep g' /\ g_ystep g = g_ystep g' /\ g_x0 g = g_x0 g' /\ g_y0 g = g_y0 g' /\
  values (spectrum_lonlat welch dx dy Density g a) <> [] /\
  values (spectrum_lonlat welch dx dy Density g a) <> values (spectrum_lonlat welch dx dy Density g' a).
Proof.
  exists toy, case_dx, 1000%Q, (case_grid 1 (Some 1%Q) true), (case_grid 1 (Some 9%Q) true), case_area.
  split; [exact toy_ok|]. repeat (split; [reflexivity|]). split; vm_compute; discriminate.
Qed.
Print Assumptions C145_mask_refuted.

(** A reference of another step divides the powers of other wavelengths. *)
Theorem C145_reference_refuted : exists welch dx dy g ref a lon lat s, welch_ok (fun _ => 2) welch /\
  spectrum_ratio welch dx dy Density g ref a = Some (lon, lat) /\ spectrum_lonlat welch dx dy Density ref a = Some s /\
  exists w w', nth_error (fst lat) 1 = Some (Some w) /\ nth_error (fst (snd s)) 1 = Some (Some w') /\ ~ (w == w')%Q.
Proof.
  exists toy, case_dx, 1000%Q, (case_grid 1 (Some 1%Q) false), (case_grid 2 (Some 1%Q) false), case_area.
  let r := eval vm_compute in (spectrum_ratio toy case_dx 1000 Density (case_grid 1 (Some 1%Q) false) (case_grid 2 (Some 1%Q) false) case_area) in
  let q := eval vm_compute in (spectrum_lonlat toy case_dx 1000 Density (case_grid 2 (Some 1%Q) false) case_area) in
  match r with Some (?a, ?b) => match q with Some ?s => exists a, b, s end end.
  split; [exact toy_ok|]. split; [vm_compute; reflexivity|]. split; [vm_compute; reflexivity|]. cbn [fst snd nth_error]. eexists _, _. split; [reflexivity|]. split; [reflexivity|]. discriminate.
Qed.
Print Assumptions C145_reference_refuted.
