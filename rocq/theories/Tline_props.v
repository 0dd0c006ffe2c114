(** Properties of the timeline of a network. *)
From Coq Require Import List Arith ZArith QArith Bool String Lia Permutation.
From Verif Require Import Base Generic_model Corr_model Obs_model Net_model Net_links Tline_model.
From Verif Require Generic_proofs Iter_props.
Import ListNotations.
Local Close Scope Q_scope.
Local Close Scope string_scope.
Local Open Scope nat_scope.
Notation length := List.length.

(** ** Specification *)
Section Spec.
Variable rows : list nrow.
Definition row (i : nat) : nrow := nth i rows (Row 0 0 0 0 0 []).
Definition seg (i : nat) : nat := segment (row i).
(** Rows which are the first and the last of their segment. *)
Definition starts (i : nat) : bool := match i with O => true | S k => negb (seg k =? seg i) end.
Definition ends (i : nat) : bool := (S i =? length rows) || negb (seg i =? seg (S i)).
Definition linked (z : Z) : bool := negb (z =? -1)%Z.
(** Segments which merge: their last row; segments which split: their first row. *)
Definition merge_ends : list nat := filter (fun i => ends i && linked (nxt (row i))) (seq 0 (length rows)).
Definition split_starts : list nat := filter (fun i => starts i && linked (prv (row i))) (seq 0 (length rows)).
(** Number of segments before the one of the row. *)
Definition rank (i : nat) : nat := length (filter starts (seq 1 i)).
Definition average (l : list Q) : Q := (fold_left Qplus l 0 / inject_Z (Z.of_nat (length l)))%Q.
(** Height of the row: number of its segment, value of the field or mean of its segment. *)
Definition height (v : option (list Q)) (all : bool) (factor : Q) (i : nat) : Q :=
  match v with
  | None => inject_Z (Z.of_nat (seg i))
  | Some v => if all then (nth i v 0 * factor)%Q else (average (map snd (filter (fun p => segment (fst p) =? seg i) (combine rows v))) * factor)%Q
  end.
Definition tint (nb : Z) (m : colors) (i : nat) : Z :=
  match m with Roll => Z.of_nat (rank i) mod nb | _ => (Z.of_nat (seg i) - 1) mod nb end.
Definition dot (v : option (list Q)) (all : bool) (factor : Q) (i : nat) : point := (time (row i), height v all factor i).
Definition line_to (nb : Z) (m : colors) (v : option (list Q)) (all : bool) (factor : Q) (i : nat) (z : Z) : event_line :=
  (dot v all factor i, dot v all factor (Z.to_nat z), tint nb m i).
Definition segment_points (v : option (list Q)) (all : bool) (factor : Q) (i : nat) : list point :=
  map (dot v all factor) (filter (fun k => seg k =? seg i) (seq 0 (length rows))).
(** One network sorted by segment, with links to rows. *)
Definition by_segment : Prop := rows <> [] /\ forall i j a b, i < j -> nth_error (map segment rows) i = Some a -> nth_error (map segment rows) j = Some b -> a <= b.
Definition good_links : Prop := forall r, In r rows -> (nxt r = -1 \/ 0 <= nxt r < Z.of_nat (length rows))%Z /\ (prv r = -1 \/ 0 <= prv r < Z.of_nat (length rows))%Z.
Definition one_network : Prop := forall r q, In r rows -> In q rows -> track r = track q.
(** The argument field has one value for each row. *)
Definition has_values (column : string -> option (list Q)) (field : option yfield) (v : option (list Q)) : Prop :=
  match field, v with
  | None, None => True
  | Some (ByName s), Some v => column s = Some v /\ length v = length rows
  | Some (ByArray w), Some v => w = v /\ length v = length rows
  | _, _ => False
  end.
End Spec.

(** ** Proofs *)
Lemma row_nth : forall rows i r, nth_error rows i = Some r <-> i < length rows /\ row rows i = r.
Proof.
  intros rows i r. unfold row. split.
  - intros H. split; [eapply nth_error_Some_lt; eauto|]. apply nth_error_nth. auto.
  - intros [H E]. rewrite <- E. apply nth_error_nth'. auto.
Qed.
Lemma nth_error_nth_Q : forall (v : list Q) i, i < length v -> nth_error v i = Some (nth i v 0%Q).
Proof. intros. apply nth_error_nth'. auto. Qed.

Section Proofs.
Variable rows : list nrow.
Notation n := (length rows).
Notation seg := (seg rows).

(** The slices follow each other. *)
Fixpoint chain (a : nat) (sl : list (nat * nat * nat)) : Prop :=
  match sl with
  | [] => a = n
  | (a', b, s) :: r => a' = a /\ a < b /\ b <= n /\ (forall k, k < n -> (a <= k < b <-> seg k = s)) /\ chain b r
  end.
Lemma seg_nth : forall k, k < n -> nth_error (map segment rows) k = Some (seg k).
Proof. intros k H. rewrite nth_error_map. rewrite (proj2 (row_nth rows k (row rows k)) (conj H eq_refl)). reflexivity. Qed.
Lemma nth_seg : forall k s, nth_error (map segment rows) k = Some s -> k < n /\ seg k = s.
Proof. intros k s H. assert (L : k < n) by (apply nth_error_Some_lt in H; rewrite map_length in H; auto). split; auto. rewrite seg_nth in H by auto. apply Some_inj in H. auto. Qed.

Lemma chain_of : forall sl a, by_segment rows ->
  (forall a b s, In (a, b, s) sl -> a < b /\ forall k, a <= k < b <-> nth_error (map segment rows) k = Some s) ->
  (forall k, a <= k < n -> exists a b, In (a, b, seg k) sl) ->
  (forall p q e f, p < q -> nth_error sl p = Some e -> nth_error sl q = Some f -> snd e < snd f) ->
  (forall b c s, In (b, c, s) sl -> a <= b) -> a <= n -> chain a sl.
Proof.
  induction sl as [|[[a' b] s] r IH]; intros a BS H1 H2 H3 H4 AN; cbn.
  - destruct (Nat.eq_dec a n) as [|NE]; auto. destruct (H2 a) as (? & ? & []). lia.
  - destruct (H1 a' b s (or_introl eq_refl)) as [AB K].
    assert (SB : seg a' = s /\ a' < n) by (destruct (nth_seg a' s); [apply K; lia|auto]).
    assert (BN : b <= n) by (destruct (nth_seg (b - 1) s); [apply K; lia|lia]).
    assert (LATER : forall a2 b2 s2, In (a2, b2, s2) r -> s < s2 /\ b <= a2).
    { intros a2 b2 s2 I2. apply In_nth_error in I2 as [q Hq]. assert (s < s2) by (apply (H3 0 (S q) (a', b, s) (a2, b2, s2)); auto; lia).
      split; auto. destruct (H1 a2 b2 s2) as [AB2 K2]; [right; eapply nth_error_In; eauto|].
      destruct (le_lt_dec b a2) as [|G]; auto. exfalso. assert (X : nth_error (map segment rows) a2 = Some s2) by (apply K2; lia).
      assert (Y : nth_error (map segment rows) (b - 1) = Some s) by (apply K; lia).
      destruct (Nat.eq_dec a2 (b - 1)) as [->|]; [rewrite X in Y; apply Some_inj in Y; lia|].
      destruct BS as [_ BS]. specialize (BS a2 (b - 1) s2 s). assert (s2 <= s) by (apply BS; auto; lia). lia. }
    assert (EA : a' = a).
    { specialize (H4 a' b s (or_introl eq_refl)). destruct (Nat.eq_dec a' a) as [|NE]; auto. exfalso.
      destruct (H2 a) as (a2 & b2 & I2); [lia|]. destruct I2 as [E|I2].
      - injection E as <- <- E3. assert (a' <= a < b) by (apply K; rewrite seg_nth by lia; congruence). lia.
      - destruct (LATER _ _ _ I2) as [L1 L2]. destruct BS as [_ BS]. specialize (BS a a' (seg a) s). assert (seg a <= s) by (apply BS; [lia|apply seg_nth; lia|apply K; lia]). lia. }
    subst a'. split; auto. split; auto. split; auto. split.
    { intros k KN. rewrite K. rewrite seg_nth by auto. split; [intros E; apply Some_inj in E; auto|intros ->; auto]. }
    apply IH; auto.
    + intros; apply H1; right; auto.
    + intros k Hk. destruct (H2 k) as (a2 & b2 & [E|I2]); [lia| |eauto].
      injection E as <- <- E. assert (a <= k < b) by (apply K; rewrite seg_nth by lia; congruence). lia.
    + intros p q e f PQ E F. apply (H3 (S p) (S q)); auto. lia.
    + intros b2 c2 s2 I2. apply LATER in I2. tauto.
Qed.
Lemma slices_chain : by_segment rows -> exists sl, segment_slices (map segment rows) = Some sl /\ chain 0 sl.
Proof.
  intros BS. destruct (slices_spec (map segment rows)) as (sl & E & H1 & H2 & H3).
  - destruct BS as [NE _]. destruct rows; [congruence|discriminate].
  - apply BS.
  - exists sl. split; auto. apply chain_of; auto; try lia.
    intros k K. apply (H2 k). apply seg_nth. lia.
Qed.

Lemma chain_le : forall sl a, chain a sl -> a <= n.
Proof. destruct sl as [|[[a' b] s] r]; cbn; intros a H; [lia|]. destruct H as (-> & ? & ? & _). lia. Qed.
Lemma slice_seg : forall (v : list Q) a b s, length v = n -> a < b <= n -> (forall k, k < n -> (a <= k < b <-> seg k = s)) ->
  slice v a b = map snd (filter (fun p => segment (fst p) =? s) (combine rows v)) /\ length (slice v a b) = b - a.
Proof.
  intros v a b s L AB K. assert (E : map snd (combine rows v) = v).
  { clear - L. revert v L. induction rows as [|x l IH]; intros [|y v] L; try discriminate; cbn; auto. f_equal. apply IH. cbn in L. lia. }
  split.
  - rewrite <- (Iter_props.slice_filter _ (combine rows v) a b).
    + rewrite <- E at 1. unfold slice. rewrite skipn_map, firstn_map. reflexivity.
    + intros i [r q] H. cbn. assert (IL : i < n) by (apply nth_error_Some_lt in H; rewrite combine_length in H; lia).
      rewrite Nat.eqb_eq, K by auto. assert (nth_error rows i = Some r).
      { clear - H. revert i v H. induction rows as [|x l IH]; intros i [|y v] H; cbn in H; try (destruct i; discriminate). destruct i; cbn in *; [congruence|eauto]. }
      apply row_nth in H0 as [_ H0]. unfold Tline_props.seg. rewrite H0. tauto.
  - unfold slice. rewrite firstn_length, skipn_length. lia.
Qed.
Lemma y_seg_ok : forall (v : list Q) factor sl a, length v = n -> chain a sl -> forall i, a <= i < n ->
  lookup (build_y_seg v factor sl) (seg i) = Some (height rows (Some v) false factor i).
Proof.
  intros v factor. induction sl as [|[[a' b] s] r IH]; intros a L C i I; cbn [chain] in C; [lia|].
  destruct C as (-> & AB & BN & K & C). destruct (slice_seg v a b s L (conj AB BN) K) as [E EL].
  cbn [build_y_seg]. destruct (slice v a b) as [|y0 ys] eqn:Y; [cbn in EL; lia|]. cbn [lookup].
  destruct (Nat.eqb_spec s (seg i)) as [->|NE].
  - unfold height, mean, average, qsum. rewrite E. reflexivity.
  - apply (IH b); auto. assert (~ a <= i < b) by (rewrite K by lia; congruence). lia.
Qed.

Section Level.
Variables (column : string -> option (list Q)) (field : option yfield) (v : option (list Q)) (all : bool) (factor : Q) (y_seg : list (nat * Q)).
Hypothesis HV : has_values rows column field v.
Hypothesis YS : forall w i, v = Some w -> all = false -> i < n -> lookup y_seg (seg i) = Some (height rows (Some w) false factor i).
Lemma pyget_nat : forall {A} (l : list A) z, (0 <= z < Z.of_nat (length l))%Z -> pyget l z = nth_error l (Z.to_nat z).
Proof. intros A l z H. unfold pyget, pyidx. rewrite (proj2 (Z.leb_le _ _)), (proj2 (Z.ltb_lt _ _)) by lia. reflexivity. Qed.
Lemma level_ok : forall z, (0 <= z < Z.of_nat n)%Z -> level column field all factor y_seg z (seg (Z.to_nat z)) = Some (height rows v all factor (Z.to_nat z)).
Proof.
  intros z Hz. unfold level. unfold has_values in HV. destruct field as [f|]; destruct v as [w|]; try (destruct f; contradiction); try contradiction; [|reflexivity].
  assert (PV : parse_varname column f = Some w /\ length w = n) by (destruct f; destruct HV; cbn; split; auto; congruence).
  destruct PV as [PV LW]. destruct all.
  - rewrite PV. cbn [bind]. rewrite pyget_nat by lia. rewrite nth_error_nth_Q by lia. reflexivity.
  - apply YS; auto. lia.
Qed.
Lemma level_nat : forall i, i < n -> level column field all factor y_seg (Z.of_nat i) (seg i) = Some (height rows v all factor i).
Proof. intros i I. pose proof (level_ok (Z.of_nat i)) as H. rewrite Nat2Z.id in H. apply H. lia. Qed.
End Level.

Lemma filter_none : forall {A} (p : A -> bool) l, (forall x, In x l -> p x = false) -> filter p l = [].
Proof. induction l as [|x l IH]; intros H; cbn; auto. rewrite (H x (or_introl eq_refl)). apply IH. intros; apply H; right; auto. Qed.
Lemma ends_block : forall (q : nat -> bool) a b s, a < b <= n -> (forall k, k < n -> (a <= k < b <-> seg k = s)) ->
  filter (fun i => ends rows i && q i) (seq a (b - a)) = if q (b - 1) then [b - 1] else [].
Proof.
  intros q a b s AB K. replace (b - a) with ((b - 1 - a) + 1) by lia. rewrite seq_app, filter_app, filter_none.
  - replace (a + (b - 1 - a)) with (b - 1) by lia. cbn. assert (E : ends rows (b - 1) = true).
    { unfold ends. replace (S (b - 1)) with b by lia. destruct (Nat.eqb_spec b n) as [|NE]; [reflexivity|]. cbn. apply negb_true_iff, Nat.eqb_neq. intros E.
      assert (seg (b - 1) = s) by (apply K; lia). assert (a <= b < b) by (apply K; [lia|congruence]). lia. }
    rewrite E. reflexivity.
  - intros k I. apply in_seq in I. unfold ends. rewrite (proj2 (Nat.eqb_neq _ _)) by lia. cbn.
    assert (seg k = s) by (apply K; lia). assert (seg (S k) = s) by (apply K; lia). rewrite H, H0, Nat.eqb_refl. reflexivity.
Qed.
Lemma inner_start : forall a b s k, b <= n -> (forall k, k < n -> (a <= k < b <-> seg k = s)) -> a < k < b -> starts rows k = false.
Proof.
  intros a b s k BN K H. destruct k as [|k]; [lia|]. cbn. assert (seg k = s) by (apply K; lia). assert (seg (S k) = s) by (apply K; lia). rewrite H0, H1, Nat.eqb_refl. reflexivity.
Qed.
Lemma next_start : forall a b s, a < b < n -> (forall k, k < n -> (a <= k < b <-> seg k = s)) -> starts rows b = true.
Proof.
  intros a b s AB K. destruct b as [|b]; [lia|]. cbn. apply negb_true_iff, Nat.eqb_neq. intros E. assert (seg b = s) by (apply K; lia). assert (a <= S b < S b) by (apply K; [lia|congruence]). lia.
Qed.
Lemma starts_block : forall (q : nat -> bool) a b s, a < b <= n -> (forall k, k < n -> (a <= k < b <-> seg k = s)) -> starts rows a = true ->
  filter (fun i => starts rows i && q i) (seq a (b - a)) = if q a then [a] else [].
Proof.
  intros q a b s AB K SA. replace (b - a) with (S (b - a - 1)) by lia. cbn [seq filter]. rewrite SA. cbn [andb]. rewrite filter_none; [reflexivity|].
  intros k I. apply in_seq in I. rewrite (inner_start a b s k); auto; lia.
Qed.
Lemma rank_same : forall a b s k, b <= n -> (forall k, k < n -> (a <= k < b <-> seg k = s)) -> a <= k < b -> rank rows k = rank rows a.
Proof.
  intros a b s k BN K H. unfold rank. replace k with (a + (k - a)) by lia. rewrite seq_app, filter_app, app_length.
  rewrite (filter_none _ (seq (1 + a) (k - a))); [cbn; lia|]. intros x I. apply in_seq in I. apply (inner_start a b s); auto. lia.
Qed.
Lemma rank_next : forall a b s, a < b < n -> (forall k, k < n -> (a <= k < b <-> seg k = s)) -> rank rows b = S (rank rows a).
Proof.
  intros a b s AB K. assert (SB : starts rows b = true) by (apply (next_start a b s); auto). rewrite <- (rank_same a b s (b - 1)) by (auto; lia).
  unfold rank. replace (seq 1 b) with (seq 1 (b - 1) ++ [b]).
  - rewrite filter_app, app_length. cbn. rewrite SB. cbn. lia.
  - replace b with ((b - 1) + 1) at 3 by lia. rewrite seq_app. cbn. do 2 f_equal. lia.
Qed.

Section Loop.
Variables (column : string -> option (list Q)) (field : option yfield) (v : option (list Q)) (all : bool) (factor : Q) (y_seg : list (nat * Q)).
Variables (nb : Z) (m : colors).
Hypothesis HV : has_values rows column field v.
Hypothesis YS : forall w i, v = Some w -> all = false -> i < n -> lookup y_seg (seg i) = Some (height rows (Some w) false factor i).
Hypothesis GL : good_links rows.
Hypothesis MK : m <> Unknown.
Hypothesis NAMED : all = true -> split_starts rows <> [] -> forall w, field <> Some (ByArray w).
Notation part p a := (filter p (seq a (n - a))).
Notation is_merge := (fun i => ends rows i && linked (nxt (row rows i))).
Notation is_split := (fun i => starts rows i && linked (prv (row rows i))).
Notation dotv := (dot rows v all factor).
Notation line i z := (line_to rows nb m v all factor i z).
Lemma color_ok : forall i, i < n -> color_of nb m (rank rows i) (seg i) = Some (tint rows nb m i).
Proof. intros i I. destruct m; try congruence; reflexivity. Qed.
Lemma row_at : forall i, i < n -> nth_error rows i = Some (row rows i).
Proof. intros. apply row_nth. auto. Qed.
Lemma links_at : forall i, i < n -> (nxt (row rows i) = -1 \/ 0 <= nxt (row rows i) < Z.of_nat n)%Z /\ (prv (row rows i) = -1 \/ 0 <= prv (row rows i) < Z.of_nat n)%Z.
Proof. intros i I. apply GL. eapply nth_error_In. apply row_at. auto. Qed.
Lemma split_here : forall a, a < n -> starts rows a = true -> linked (prv (row rows a)) = true -> split_starts rows <> [].
Proof.
  intros a A S L E. assert (I : In a (split_starts rows)) by (apply filter_In; split; [apply in_seq; lia|rewrite S, L; reflexivity]). rewrite E in I. destruct I.
Qed.
Lemma start_height : forall a, a < n -> (all = true -> forall w, field <> Some (ByArray w)) ->
  match field with
  | Some f => if all then let! w := getitem column f in let! y := nth_error w a in Some (y * factor)%Q else Some (height rows v all factor a)
  | None => Some (height rows v all factor a)
  end = Some (height rows v all factor a).
Proof.
  intros a A NA. destruct field as [f|]; auto. destruct all; auto. destruct f as [s|w]; [|exfalso; eapply NA; eauto].
  unfold has_values in HV. destruct v as [w|]; [|contradiction]. destruct HV as [C L]. cbn [getitem]. rewrite C. cbn [bind]. rewrite nth_error_nth_Q by lia. reflexivity.
Qed.
Lemma loop_ok : forall sl a j, chain a sl -> (a < n -> starts rows a = true /\ rank rows a = j) ->
  exists l, event_loop column nb rows field all factor m y_seg j sl = Some (l, map dotv (part is_split a), map dotv (part is_merge a)) /\
    Permutation l (map (fun i => line i (nxt (row rows i))) (part is_merge a) ++ map (fun i => line i (prv (row rows i))) (part is_split a)).
Proof.
  induction sl as [|[[a' b] s] r IH]; intros a j C A.
  - cbn in C. subst a. rewrite Nat.sub_diag. cbn. eauto.
  - cbn [chain] in C. destruct C as (-> & AB & BN & K & C). destruct A as [SA RA]; [lia|].
    assert (SEGA : seg a = s) by (apply K; lia). assert (SEGB : seg (b - 1) = s) by (apply K; lia).
    destruct (IH b (S j) C) as (l & E & P).
    { intros B. split; [apply (next_start a b s); auto|]. rewrite <- RA. apply (rank_next a b s); auto. }
    replace (n - a) with ((b - a) + (n - b)) by lia. rewrite seq_app. replace (a + (b - a)) with b by lia. rewrite !filter_app, !map_app.
    rewrite (ends_block (fun i => linked (nxt (row rows i))) a b s) by (auto; lia).
    rewrite (starts_block (fun i => linked (prv (row rows i))) a b s) by (auto; lia).
    cbn [event_loop]. rewrite (proj2 (Nat.eqb_neq _ _)) by lia. rewrite E.
    assert (TA : tint rows nb m (b - 1) = tint rows nb m a).
    { unfold tint. rewrite (rank_same a b s (b - 1)) by (auto; lia). rewrite SEGA, SEGB. reflexivity. }
    pose proof (color_ok a ltac:(lia)) as CO. rewrite RA, SEGA in CO. rewrite CO. cbn [bind].
    rewrite (row_at a), (row_at (b - 1)) by lia. cbn [bind].
    pose proof (level_nat column field v all factor y_seg HV YS (b - 1) ltac:(lia)) as LB. rewrite SEGB in LB. rewrite LB. cbn [bind].
    assert (HM : (if (nxt (row rows (b - 1)) =? -1)%Z then Some ([], []) else let! q := pyget rows (nxt (row rows (b - 1))) in
        let! y1 := level column field all factor y_seg (nxt (row rows (b - 1))) (segment q) in
        Some ([((time (row rows (b - 1)), height rows v all factor (b - 1)), (time q, y1), tint rows nb m a)], [(time (row rows (b - 1)), height rows v all factor (b - 1))])) =
      Some (map (fun i => line i (nxt (row rows i))) (if linked (nxt (row rows (b - 1))) then [b - 1] else []), map dotv (if linked (nxt (row rows (b - 1))) then [b - 1] else []))).
    { unfold linked. destruct (Z.eqb_spec (nxt (row rows (b - 1))) (-1)) as [|NE]; [reflexivity|]. cbn [negb].
      destruct (links_at (b - 1)) as [[|LN] _]; [lia|congruence|]. rewrite pyget_nat by auto. rewrite row_at by lia. cbn [bind].
      change (segment (row rows (Z.to_nat (nxt (row rows (b - 1)))))) with (seg (Z.to_nat (nxt (row rows (b - 1))))).
      rewrite (level_ok column field v all factor y_seg HV YS (nxt (row rows (b - 1))) LN). cbn [bind map]. unfold line_to, dot. rewrite TA. reflexivity. }
    rewrite HM. cbn [bind]. clear HM.
    assert (HS : (if (prv (row rows a) =? -1)%Z then Some ([], []) else let! q := pyget rows (prv (row rows a)) in
        let! y0 := match field with
          | Some f => if all then let! w := getitem column f in let! y := nth_error w a in Some (y * factor)%Q else Some (height rows v all factor (b - 1))
          | None => Some (height rows v all factor (b - 1)) end in
        let! y1 := level column field all factor y_seg (prv (row rows a)) (segment q) in
        Some ([((time (row rows a), y0), (time q, y1), tint rows nb m a)], [(time (row rows a), y0)])) =
      Some (map (fun i => line i (prv (row rows i))) (if linked (prv (row rows a)) then [a] else []), map dotv (if linked (prv (row rows a)) then [a] else []))).
    { destruct (linked (prv (row rows a))) eqn:LP.
      - unfold linked in LP. apply negb_true_iff in LP. rewrite LP. apply Z.eqb_neq in LP.
        destruct (links_at a) as [_ [|LN]]; [lia|congruence|]. rewrite pyget_nat by auto. rewrite row_at by lia. cbn [bind].
        assert (SS : split_starts rows <> []) by (apply (split_here a); auto; [lia|unfold linked; apply negb_true_iff, Z.eqb_neq; auto]).
        assert (HH : all = false -> field <> None -> height rows v all factor (b - 1) = height rows v all factor a).
        { intros AF _. unfold height. rewrite SEGA, SEGB, AF. reflexivity. }
        assert (HN : field = None -> height rows v all factor (b - 1) = height rows v all factor a).
        { intros FN. unfold has_values in HV. rewrite FN in HV. destruct v; [contradiction|]. unfold height. rewrite SEGA, SEGB. reflexivity. }
        pose proof (start_height a ltac:(lia) (fun Ha => NAMED Ha SS)) as SH.
        replace (match field with
          | Some f => if all then let! w := getitem column f in let! y := nth_error w a in Some (y * factor)%Q else Some (height rows v all factor (b - 1))
          | None => Some (height rows v all factor (b - 1)) end) with (Some (height rows v all factor a)).
        2:{ rewrite <- SH. destruct field as [f|]; [destruct all; [reflexivity|rewrite HH; auto; discriminate]|rewrite HN; auto]. }
        change (segment (row rows (Z.to_nat (prv (row rows a))))) with (seg (Z.to_nat (prv (row rows a)))).
        cbn [bind]. rewrite (level_ok column field v all factor y_seg HV YS (prv (row rows a)) LN). cbn [bind map]. reflexivity.
      - unfold linked in LP. apply negb_false_iff in LP. rewrite LP. reflexivity. }
    rewrite HS. cbn [bind]. clear HS.
    eexists. split; [reflexivity|]. rewrite P.
    set (x1 := map _ (if linked (nxt _) then _ else _)). set (x2 := map _ (if linked (prv _) then _ else _)). set (y1 := map _ (filter _ _)). set (y2 := map _ (filter _ _)).
    rewrite <- !app_assoc. apply Permutation_app_head. rewrite !app_assoc. apply Permutation_app_tail. apply Permutation_app_comm.
Qed.
End Loop.

(** An array given with the method "all" is read by its name at the first split. *)
Lemma array_loop : forall column nb factor m y_seg w sl a j, chain a sl -> (a < n -> starts rows a = true) ->
  filter (fun i => starts rows i && linked (prv (row rows i))) (seq a (n - a)) <> [] ->
  event_loop column nb rows (Some (ByArray w)) true factor m y_seg j sl = None.
Proof.
  intros column nb factor m y_seg w. induction sl as [|[[a' b] s] r IH]; intros a j C A NE.
  - cbn in C. subst a. rewrite Nat.sub_diag in NE. cbn in NE. congruence.
  - cbn [chain] in C. destruct C as (-> & AB & BN & K & C).
    replace (n - a) with ((b - a) + (n - b)) in NE by lia. rewrite seq_app in NE. replace (a + (b - a)) with b in NE by lia. rewrite filter_app in NE.
    rewrite (starts_block (fun i => linked (prv (row rows i))) a b s) in NE by (auto; apply A; lia).
    cbn [event_loop]. rewrite (proj2 (Nat.eqb_neq _ _)) by lia.
    destruct (color_of nb m j s); cbn [bind]; auto. rewrite (row_at a) by lia. cbn [bind].
    destruct (nth_error rows (b - 1)) as [last|]; cbn [bind]; auto. destruct (level _ _ _ _ _ _ s) as [y0|]; cbn [bind]; auto.
    match goal with |- bind ?x _ = None => destruct x as [[lm mm]|] end; cbn [bind]; auto.
    unfold linked in NE. destruct (prv (row rows a) =? -1)%Z; cbn [negb app] in NE.
    + cbn [bind]. rewrite (IH b (S j)); auto. intros B. apply (next_start a b s); auto.
    + destruct (pyget rows (prv (row rows a))); reflexivity.
Qed.
Lemma unknown_loop : forall column nb field all factor y_seg sl a j, chain a sl -> a < n -> event_loop column nb rows field all factor Unknown y_seg j sl = None.
Proof.
  intros column nb field all factor y_seg [|[[a' b] s] r] a j C A; cbn [chain] in C; [lia|]. destruct C as (-> & AB & _). cbn [event_loop].
  rewrite (proj2 (Nat.eqb_neq _ _)) by lia. reflexivity.
Qed.

Lemma slice_seq : forall a b k, a <= b <= k -> slice (seq 0 k) a b = seq a (b - a).
Proof.
  intros a b k H. replace (seq 0 k) with (seq 0 a ++ seq a (b - a) ++ seq b (k - b)).
  - unfold slice. rewrite skipn_app, skipn_all2 by (rewrite seq_length; lia). rewrite seq_length, Nat.sub_diag. cbn [skipn app].
    rewrite firstn_app, seq_length, Nat.sub_diag, firstn_O, app_nil_r. apply firstn_all2. rewrite seq_length. lia.
  - transitivity (seq 0 (a + ((b - a) + (k - b)))); [rewrite !seq_app; cbn [Nat.add]; replace (a + (b - a)) with b by lia; reflexivity|f_equal; lia].
Qed.
Lemma map_nth_seq : forall {A} (l : list A) d, map (fun k => nth k l d) (seq 0 (length l)) = l.
Proof. induction l as [|x l IH]; intros d; cbn; auto. f_equal. rewrite <- seq_shift, map_map. apply IH. Qed.
Lemma slice_map : forall {A} (l : list A) d a b, a <= b <= length l -> slice l a b = map (fun k => nth k l d) (seq a (b - a)).
Proof. intros A l d a b H. rewrite <- (map_nth_seq l d) at 1. unfold slice. rewrite skipn_map, firstn_map. f_equal. apply slice_seq. auto. Qed.
Lemma combine_map : forall {A B C} (f : A -> B) (g : A -> C) l, combine (map f l) (map g l) = map (fun x => (f x, g x)) l.
Proof. induction l as [|x l IH]; cbn; auto. rewrite IH. reflexivity. Qed.
Lemma repeat_map : forall {A B} (c : B) (l : list A) k, k = length l -> repeat c k = map (fun _ => c) l.
Proof. intros A B c l k ->. induction l; cbn; auto. f_equal. auto. Qed.

Lemma segment_loop_ok : forall v all factor nb m, m <> Unknown -> (forall w, v = Some w -> length w = n) -> forall sl a j, chain a sl -> (a < n -> starts rows a = true /\ rank rows a = j) ->
  segment_loop nb rows v all factor m j sl = Some (map (fun i => (segment_points rows v all factor i, tint rows nb m i)) (filter (starts rows) (seq a (n - a)))).
Proof.
  intros v all factor nb m MK LV. induction sl as [|[[a' b] s] r IH]; intros a j C A.
  - cbn in C. subst a. rewrite Nat.sub_diag. reflexivity.
  - cbn [chain] in C. destruct C as (-> & AB & BN & K & C). destruct A as [SA RA]; [lia|].
    assert (SEGA : seg a = s) by (apply K; lia).
    assert (E : segment_loop nb rows v all factor m (S j) r = Some (map (fun i => (segment_points rows v all factor i, tint rows nb m i)) (filter (starts rows) (seq b (n - b))))).
    { apply IH; auto. intros B. split; [apply (next_start a b s); auto|]. rewrite <- RA. apply (rank_next a b s); auto. }
    replace (n - a) with ((b - a) + (n - b)) by lia. rewrite seq_app. replace (a + (b - a)) with b by lia. rewrite filter_app, map_app.
    assert (FS : filter (starts rows) (seq a (b - a)) = [a]).
    { rewrite <- (starts_block (fun _ => true) a b s); auto. apply filter_ext. intros. rewrite andb_true_r. reflexivity. }
    rewrite FS. cbn [map app].
    assert (SP : filter (fun k => seg k =? seg a) (seq 0 n) = seq a (b - a)).
    { rewrite <- (slice_seq a b n) by lia. symmetry. apply Iter_props.slice_filter. intros i x X. assert (IL : i < n) by (apply nth_error_Some_lt in X; rewrite seq_length in X; auto).
      rewrite (nth_error_nth' _ 0) in X by (rewrite seq_length; auto). rewrite seq_nth in X by auto. apply Some_inj in X. cbn in X. subst x. rewrite Nat.eqb_eq, SEGA, K by auto. tauto. }
    cbn [segment_loop]. set (x := map time (slice rows a b)).
    assert (EX : x = map (fun k => time (row rows k)) (seq a (b - a))) by (unfold x; rewrite (slice_map rows (Row 0 0 0 0 0 [])) by lia; rewrite map_map; reflexivity).
    assert (LX : length x = b - a) by (rewrite EX, map_length, seq_length; auto).
    set (y := match v with None => _ | Some _ => _ end).
    assert (EY : y = map (height rows v all factor) (seq a (b - a))).
    { assert (IN : forall k, In k (seq a (b - a)) -> seg k = s) by (intros k I; apply in_seq in I; apply K; lia).
      unfold y. destruct v as [w|] eqn:EV.
      - pose proof (LV w eq_refl) as LW. destruct (slice_seg w a b s LW (conj AB BN) K) as [ES EL]. destruct all.
        + rewrite (slice_map w 0%Q) by lia. rewrite map_map. reflexivity.
        + rewrite (repeat_map _ (seq a (b - a))) by (rewrite seq_length; auto). apply map_ext_in. intros k I. unfold height. rewrite (IN k I), ES. reflexivity.
      - rewrite (repeat_map _ (seq a (b - a))) by (rewrite seq_length; auto). apply map_ext_in. intros k I. unfold height. rewrite (IN k I). reflexivity. }
    pose proof (color_ok nb m MK a ltac:(lia)) as CO. rewrite RA, SEGA in CO.
    destruct x as [|x0 xs] eqn:XX; [cbn in LX; lia|]. rewrite CO. cbn [bind].
    replace (length (x0 :: xs) =? length y) with true; [|symmetry; apply Nat.eqb_eq; rewrite LX, EY, map_length, seq_length; auto].
    rewrite E. cbn [bind]. do 3 f_equal. rewrite EX, EY, combine_map. unfold segment_points. rewrite SP. reflexivity.
Qed.
End Proofs.

Lemma one_network_ok : forall rows, rows <> [] -> (only_one_network rows = Some tt <-> one_network rows) /\ (only_one_network rows = None <-> ~ one_network rows).
Proof.
  intros rows NE. assert (H : (only_one_network rows = Some tt /\ one_network rows) \/ (only_one_network rows = None /\ ~ one_network rows)).
  2:{ destruct H as [[H O]|[H O]]; rewrite H; split; split; intros; try tauto; try discriminate. }
  unfold only_one_network, build_index. destruct (map (fun r => Z.of_nat (track r)) rows) as [|g l] eqn:E; [destruct rows; [congruence|discriminate]|].
  cbn [bind]. rewrite Generic_proofs.length_build_index_loop, repeat_length.
  destruct (Generic_proofs.zmin_from_spec l g) as [M1 M2]. destruct (Generic_proofs.zmax_from_spec l g) as [X1 X2].
  set (mn := zmin_from g l) in *. set (mx := zmax_from g l) in *.
  assert (MEM : forall z, In z (g :: l) <-> exists r, Z.of_nat (track r) = z /\ In r rows) by (intros z; rewrite <- E; apply in_map_iff).
  destruct (Nat.ltb_spec 1 (Z.to_nat (mx - mn + 1))) as [L|L]; [right|left]; split; auto.
  - intros O. apply MEM in M1 as (r & R1 & R2). apply MEM in X1 as (q & Q1 & Q2). specialize (O r q R2 Q2). lia.
  - intros r q R2 Q2. assert (I1 : In (Z.of_nat (track r)) (g :: l)) by (apply MEM; eauto). assert (I2 : In (Z.of_nat (track q)) (g :: l)) by (apply MEM; eauto).
    pose proof (M2 _ I1). pose proof (M2 _ I2). pose proof (X2 _ I1). pose proof (X2 _ I2). lia.
Qed.

(** ** Lines and marks of the events *)
Theorem C150_events : forall column nb rows field v all factor m, by_segment rows -> good_links rows -> has_values rows column field v -> m <> Unknown ->
  (all = true -> split_starts rows <> [] -> forall w, field <> Some (ByArray w)) ->
  exists lines, event_timeline column nb rows field all factor m =
      Some (Events lines (map (dot rows v all factor) (split_starts rows)) (map (dot rows v all factor) (merge_ends rows))
        (filter (fun l => negb (length l =? 0)) [map (dot rows v all factor) (split_starts rows); map (dot rows v all factor) (merge_ends rows)])) /\
    Permutation lines (map (fun i => line_to rows nb m v all factor i (nxt (row rows i))) (merge_ends rows) ++ map (fun i => line_to rows nb m v all factor i (prv (row rows i))) (split_starts rows)).
Proof.
  intros column nb rows field v all factor m BS GL HV MK NAMED. destruct (slices_chain rows BS) as (sl & ES & C).
  set (y_seg := match v with Some w => if all then [] else build_y_seg w factor sl | None => [] end).
  assert (EY : match field with Some f => if all then Some [] else let! v := parse_varname column f in Some (build_y_seg v factor sl) | None => Some [] end = Some y_seg).
  { unfold y_seg. unfold has_values in HV. destruct field as [f|], v as [w|]; try (destruct f; contradiction); try contradiction; auto.
    destruct all; auto. destruct f; destruct HV as [HV _]; cbn; [rewrite HV; reflexivity|rewrite HV; reflexivity]. }
  assert (YS : forall w i, v = Some w -> all = false -> i < length rows -> lookup y_seg (seg rows i) = Some (height rows (Some w) false factor i)).
  { intros w i -> -> I. unfold y_seg. apply (y_seg_ok rows w factor sl 0); auto; [|lia]. unfold has_values in HV. destruct field as [[s|u]|]; [tauto|tauto|contradiction]. }
  destruct (loop_ok rows column field v all factor y_seg nb m HV YS GL MK NAMED sl 0 0 C) as (l & E & P).
  { intros _. split; reflexivity. }
  rewrite Nat.sub_0_r in E, P. exists l. split; [|exact P]. unfold event_timeline. rewrite ES. cbn [bind]. rewrite EY. cbn [bind]. rewrite E. cbn [bind].
  unfold split_starts, merge_ends. repeat f_equal. cbn [filter app]. do 2 match goal with |- context [map ?f (filter ?p ?s)] => generalize (map f (filter p s)); intros [|? ?] end; reflexivity.
Qed.
Print Assumptions C150_events.

(** An array and the method "all": an error as soon as a segment splits, although the
    lines of the segments alone can be drawn (see [C150_array_case]). *)
Theorem C150_array_refuted : forall column nb rows w factor m, by_segment rows -> split_starts rows <> [] -> event_timeline column nb rows (Some (ByArray w)) true factor m = None.
Proof.
  intros column nb rows w factor m BS NE. destruct (slices_chain rows BS) as (sl & ES & C). unfold event_timeline. rewrite ES. cbn [bind].
  rewrite (array_loop rows column nb factor m [] w sl 0 0 C); auto. rewrite Nat.sub_0_r. exact NE.
Qed.
Print Assumptions C150_array_refuted.
Theorem C150_colors : forall column nb rows field all factor, by_segment rows -> event_timeline column nb rows field all factor Unknown = None.
Proof.
  intros column nb rows field all factor BS. destruct (slices_chain rows BS) as (sl & ES & C). unfold event_timeline. rewrite ES. cbn [bind].
  match goal with |- bind ?x _ = None => destruct x as [y|] end; cbn [bind]; auto. rewrite (unknown_loop rows column nb field all factor y sl 0 0 C); auto.
  destruct BS as [NE _]. destruct rows; [congruence|cbn; lia].
Qed.
Print Assumptions C150_colors.

(** ** Lines of the segments *)
Theorem C150_segments : forall column nb rows event field v all factor m, by_segment rows -> has_values rows column field v -> m <> Unknown -> one_network rows ->
  display_timeline column nb rows event field all factor m =
    let lines := map (fun i => (segment_points rows v all factor i, tint rows nb m i)) (filter (starts rows) (seq 0 (length rows))) in
    if event then match event_timeline column nb rows field all factor m with Some e => Some (Some e, lines) | None => None end else Some (None, lines).
Proof.
  intros column nb rows event field v all factor m BS HV MK ON. destruct (slices_chain rows BS) as (sl & ES & C). unfold display_timeline.
  rewrite (proj2 (proj1 (one_network_ok rows (proj1 BS))) ON). cbn [bind]. cbv zeta.
  assert (SL : segment_loop nb rows v all factor m 0 sl = Some (map (fun i => (segment_points rows v all factor i, tint rows nb m i)) (filter (starts rows) (seq 0 (length rows))))).
  { rewrite (segment_loop_ok rows v all factor nb m MK) with (a := 0); auto; [rewrite Nat.sub_0_r; reflexivity|].
    intros w ->. unfold has_values in HV. destruct field as [[s|u]|]; [tauto|tauto|contradiction]. }
  assert (EV : match field with None => Some None | Some f => let! v := parse_varname column f in Some (Some v) end = Some v).
  { unfold has_values in HV. destruct field as [f|], v as [w|]; try (destruct f; contradiction); try contradiction; auto. destruct f; destruct HV as [HV _]; cbn; rewrite HV; reflexivity. }
  destruct event.
  - destruct (event_timeline column nb rows field all factor m) as [e|]; cbn [bind]; auto. rewrite EV. cbn [bind]. rewrite ES. cbn [bind]. rewrite SL. reflexivity.
  - cbn [bind]. rewrite EV. cbn [bind]. rewrite ES. cbn [bind]. rewrite SL. reflexivity.
Qed.
Print Assumptions C150_segments.
Theorem C150_several : forall column nb rows event field all factor m, rows <> [] -> ~ one_network rows -> display_timeline column nb rows event field all factor m = None.
Proof. intros column nb rows event field all factor m NE ON. unfold display_timeline. rewrite (proj2 (proj2 (one_network_ok rows NE)) ON). reflexivity. Qed.
Print Assumptions C150_several.

(** ** Case: the second segment splits from the first and merges into it *)
Definition loop_rows : list nrow :=
  [Row 5 1 0 1 (-1) []; Row 5 1 1 2 0 []; Row 5 1 2 3 1 []; Row 5 1 3 (-1) 2 [];
   Row 5 3 2 5 0 []; Row 5 3 3 (-1) 4 []; Row 5 4 1 7 0 []; Row 5 4 2 3 6 []].
Definition loop_values : list Q := [1; 2; 3; 4; 10; 20; 30; 40]%Q.
Lemma loop_rows_ok : by_segment loop_rows /\ good_links loop_rows /\ one_network loop_rows.
Proof.
  split; [split; [discriminate|]|split].
  - intros i j a b IJ A B. destruct i as [|[|[|[|[|[|[|[|i]]]]]]]]; cbn in A; try (destruct i; discriminate); apply Some_inj in A; subst a;
      (destruct j as [|[|[|[|[|[|[|[|j]]]]]]]]; cbn in B; try (destruct j; discriminate); apply Some_inj in B; subst b; lia).
  - intros r I. repeat (destruct I as [<-|I]; [cbn; lia|]). destruct I.
  - intros r q I J. assert (T : forall r, In r loop_rows -> track r = 5) by (intros x H; repeat (destruct H as [<-|H]; [reflexivity|]); destruct H). rewrite (T r I), (T q J). reflexivity.
Qed.
Example C150_case :
  split_starts loop_rows = [4; 6] /\ merge_ends loop_rows = [7] /\ has_values loop_rows (fun _ => Some loop_values) (Some (ByName "amplitude"%string)) (Some loop_values) /\
  option_map e_merging (event_timeline (fun _ => Some loop_values) 20 loop_rows (Some (ByName "amplitude"%string)) true 2%Q Roll) = Some [(2, 80%Q)]%Z /\
  option_map e_splitting (event_timeline (fun _ => Some loop_values) 20 loop_rows None true 2%Q Roll) = Some [(2, 3%Q); (1, 4%Q)]%Z /\
  option_map e_lines (event_timeline (fun _ => Some loop_values) 20 loop_rows None true 2%Q Roll) = Some [((2, 3%Q), (0, 1%Q), 1); ((2, 4%Q), (3, 1%Q), 2); ((1, 4%Q), (0, 1%Q), 2)]%Z.
Proof. vm_compute. repeat split; reflexivity. Qed.
(** The lines of the segments are drawn from an array, not the events. *)
Example C150_array_case :
  display_timeline (fun _ => None) 20 loop_rows true (Some (ByArray loop_values)) true 1%Q Roll = None /\
  option_map (fun r => map snd (snd r)) (display_timeline (fun _ => None) 20 loop_rows false (Some (ByArray loop_values)) true 1%Q ByY) = Some [0; 2; 3]%Z /\
  option_map (fun r => map (fun l => map snd (fst l)) (snd r)) (display_timeline (fun _ => None) 20 loop_rows true (Some (ByArray loop_values)) false 1%Q Roll) = Some [[10 # 4; 10 # 4; 10 # 4; 10 # 4]; [30 # 2; 30 # 2]; [70 # 2; 70 # 2]]%Q.
Proof. vm_compute. repeat split; reflexivity. Qed.
