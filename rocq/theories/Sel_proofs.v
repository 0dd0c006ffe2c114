(** Proofs on selections of observations. *)
From Coq Require Import List Arith ZArith QArith Qround Bool Lia Lqa.
From Verif Require Import Base Qaux Spec Sel_model Sel_spec.
Import ListNotations.
Local Close Scope Q_scope.
Local Open Scope nat_scope.

Lemma select_where : forall {A} (m : list bool) (l : list A) k (full : list A), length m = length l -> (forall i, nth_error full (k + i) = nth_error l i) ->
  map (nth_error full) (where_from k m) = map Some (select m l).
Proof.
  induction m as [|b m IH]; intros [|a l] k full L N; cbn in L; try discriminate; auto. cbn [where_from select].
  assert (T : forall i, nth_error full (S k + i) = nth_error l i).
  { intros i. replace (S k + i) with (k + S i) by lia. rewrite N. reflexivity. }
  destruct b; cbn [map]; [|apply IH; [lia|exact T]]. f_equal; [|apply IH; [lia|exact T]].
  specialize (N 0). rewrite Nat.add_0_r in N. exact N.
Qed.

Lemma count_true_select : forall {A} (m : list bool) (l : list A), count_true m = 0 -> select m l = [].
Proof. induction m as [|[] m IH]; intros [|a l] H; cbn in *; auto; lia. Qed.

Lemma extract_eq : forall {A} (rows : list A) m, extract_with_mask rows m = select m rows.
Proof.
  intros A rows m. unfold extract_with_mask. destruct (Nat.eqb_spec (count_true m) 0) as [E|E]; auto.
  symmetry. apply count_true_select, E.
Qed.

Lemma extract_picks : forall {A} (P : nat -> A -> Prop) (rows : list A) m, length m = length rows ->
  (forall i r, nth_error rows i = Some r -> (nth_error m i = Some true <-> P i r)) -> picks P rows (extract_with_mask rows m).
Proof.
  intros A P rows m L H. rewrite extract_eq. exists (where_ m). split; [apply incr_where|]. split.
  - intros i. rewrite In_where. split.
    + intros T. assert (LT : i < length rows) by (rewrite <- L; apply nth_error_Some_lt in T; exact T).
      destruct (nth_error_lt_Some rows i LT) as [r R]. exists r. split; [exact R|]. apply (H i r R), T.
    + intros (r & R & p). apply (H i r R), p.
  - apply select_where; auto.
Qed.

Lemma select_filter : forall {A} (p : A -> bool) (l : list A), select (map p l) l = filter p l.
Proof. induction l as [|a l IH]; cbn; auto. destruct (p a); rewrite IH; reflexivity. Qed.

Lemma extract_map : forall {A} (p : A -> bool) (rows : list A), extract_with_mask rows (map p rows) = filter p rows.
Proof. intros. rewrite extract_eq. apply select_filter. Qed.

Lemma filter_picks : forall {A} (p : A -> bool) (P : A -> Prop) (rows : list A), (forall r, p r = true <-> P r) -> picks (fun _ => P) rows (filter p rows).
Proof.
  intros A p P rows H. rewrite <- extract_map. apply extract_picks; [apply map_length|].
  intros i r R. rewrite nth_error_map, R. cbn. rewrite <- H. split; [congruence|intros ->; reflexivity].
Qed.

Lemma extract_filter_picks : forall {A} (p : A -> bool) (P : A -> Prop) (rows : list A), (forall r, p r = true <-> P r) -> picks (fun _ => P) rows (extract_with_mask rows (map p rows)).
Proof. intros. rewrite extract_map. apply filter_picks. assumption. Qed.

(** ** Areas *)
Lemma in_area_spec : forall y0 y1 x0 x1 x y, in_area y0 y1 x0 x1 x y = true <-> in_box x0 y0 x1 y1 x y.
Proof.
  intros y0 y1 x0 x1 x y. unfold in_area, in_box. rewrite !andb_true_iff, !Qlt_bool_iff.
  destruct (Qmod_range (x - x0) 360) as [M0 M1]; [lra|]. destruct (Qmod_cong (x - x0) 360) as [k K].
  set (q := Qmod (x - x0) 360) in *. clearbody q. split.
  - intros [Y [X0 X1]]. split; [exact Y|]. exists k. cbv zeta. split; [lra|]. split; lra.
  - intros [Y (k' & X0 & X1 & X2)]. split; [exact Y|].
    assert (E : (x + 360 * inject_Z k' == q + x0)%Q).
    { apply (Qcong_unique 360 x0); [lra|lra|split; lra|]. exists (k' - k)%Z. unfold Zminus. rewrite inject_Z_plus, inject_Z_opp. lra. }
    split; lra.
Qed.

Lemma in_area_turn : forall y0 y1 x0 x1 x y j k, in_area y0 y1 (x0 + 360 * inject_Z k) (x1 + 360 * inject_Z k) (x + 360 * inject_Z j) y = in_area y0 y1 x0 x1 x y.
Proof.
  intros. apply eq_true_iff_eq. rewrite !in_area_spec. unfold in_box. split; intros [Y (i & X)]; (split; [exact Y|]); cbv zeta in *.
  - exists (i + j - k)%Z. unfold Zminus. rewrite !inject_Z_plus, inject_Z_opp. destruct X as (A & B & C). split; [lra|]. split; lra.
  - exists (i - j + k)%Z. unfold Zminus. rewrite !inject_Z_plus, inject_Z_opp. destruct X as (A & B & C). split; [lra|]. split; lra.
Qed.

Lemma filter_count3 : forall {A} (p a b c : A -> bool) (l : list A),
  (forall r, (if p r then 1 else 0) = (if a r then 1 else 0) + (if b r then 1 else 0) + (if c r then 1 else 0)) ->
  length (filter p l) = length (filter a l) + length (filter b l) + length (filter c l).
Proof. intros A p a b c l H. induction l as [|r l IH]; cbn; auto. specialize (H r). destruct (p r), (a r), (b r), (c r); cbn; lia. Qed.

(** ** Last observations *)
Lemma pystore_last : forall {A} (l : list A) x, l <> [] -> pystore l (-1) x = Some (upd l (length l - 1) x).
Proof.
  intros A l x NE. destruct l as [|a l]; [contradiction|]. unfold pystore, pyidx. cbn [length].
  destruct (Z.leb_spec (- Z.of_nat (S (length l))) (-1)); [|lia]. cbn [bind Z.leb Z.compare]. unfold store.
  replace (Z.to_nat (-1 + Z.of_nat (S (length l)))) with (length l) by lia. replace (S (length l) - 1) with (length l) by lia.
  cbn [length]. destruct (Nat.ltb_spec (length l) (S (length l))); [reflexivity|lia].
Qed.

Lemma length_mark : forall m next, length (mark m next) = length m.
Proof. induction m as [|b m IH]; intros [|k next]; cbn; auto. Qed.

Lemma nth_mark : forall m next i b, nth_error m i = Some b ->
  nth_error (mark m next) i = Some (match nth_error next i with Some k => if (k =? 0)%Z then true else b | None => b end).
Proof.
  induction m as [|c m IH]; intros [|k next] [|i] b H; cbn in *; try discriminate; auto.
  - injection H as ->. reflexivity.
Qed.

Lemma upd_last : forall k, upd (repeat false (S k)) k true = repeat false k ++ [true].
Proof. induction k as [|k IH]; auto. change (repeat false (S (S k))) with (false :: repeat false (S k)). cbn [upd]. rewrite IH. reflexivity. Qed.

Lemma last_obs_eq : forall {A} (n : A -> Z) p rest, last_obs n (p :: rest) = Some (select (mark (repeat false (length rest) ++ [true]) (map n rest)) (p :: rest)).
Proof.
  intros A n p rest. unfold last_obs. rewrite pystore_last; [|cbn; discriminate]. rewrite repeat_length. cbn [length bind].
  replace (S (length rest) - 1) with (length rest) by lia. rewrite upd_last, extract_eq. reflexivity.
Qed.

Lemma same_tracks : forall {A} (track n : A -> Z) rest p,
  (forall i a b, nth_error (p :: rest) i = Some a -> nth_error (p :: rest) (S i) = Some b -> (n b = 0%Z <-> track a <> track b)) ->
  track p :: map track (filter (fun r => (n r =? 0)%Z) rest) = map track (select (mark (repeat false (length rest) ++ [true]) (map n rest)) (p :: rest)).
Proof.
  induction rest as [|r rest IH]; intros p H; [reflexivity|].
  assert (H' : forall i a b, nth_error (r :: rest) i = Some a -> nth_error (r :: rest) (S i) = Some b -> (n b = 0%Z <-> track a <> track b)).
  { intros i a b X Y. exact (H (S i) a b X Y). }
  specialize (IH r H'). assert (K := H 0 p r eq_refl eq_refl). clear H H'.
  cbn [length repeat app map mark filter]. destruct (Z.eqb_spec (n r) 0) as [E|E]; cbn [select map].
  - rewrite <- IH. reflexivity.
  - rewrite <- IH. destruct (Z.eq_dec (track p) (track r)) as [->|D]; [reflexivity|]. exfalso. apply E, K, D.
Qed.
