(** Lemmas on the simplification of contours. *)
From Coq Require Import List Arith ZArith QArith Qabs Bool Lia Lqa Permutation.
From Verif Require Import Base Qaux Poly_model Poly_spec Poly_wind PolyVis_model PolyVis_spec.
Import ListNotations.
Local Close Scope Q_scope.
Local Open Scope nat_scope.

(** ** Heap *)
Lemma heappop_spec : forall h, match heappop h with
  | None => h = []
  | Some (m, r) => Permutation h (m :: r) /\ forall e, In e r -> (fst m <= fst e)%Q
  end.
Proof.
  induction h as [|e h IH]; cbn [heappop]; [reflexivity|]. destruct (heappop h) as [[m r]|].
  - destruct IH as [P L]. destruct (entry_lt m e) eqn:E.
    + split; [eapply perm_trans; [apply perm_skip, P|apply perm_swap]|]. intros f [<-|I]; [|auto]. destruct m as [a [[? ?] ?]], e as [b [[? ?] ?]]. cbn [entry_lt fst] in *. apply orb_true_iff in E as [E|E]; [apply Qlt_bool_iff in E; lra|]. apply andb_true_iff in E as [E _]. apply Qeq_bool_iff in E. lra.
    + split; [apply perm_skip, P|]. assert (EM : (fst e <= fst m)%Q). { destruct m as [a [[? ?] ?]], e as [b [[? ?] ?]]. cbn [entry_lt fst] in *. apply orb_false_iff in E as [E _]. apply Qlt_bool_false in E. exact E. }
      intros f [<-|I]; [exact EM|]. specialize (L f I). lra.
  - subst h. split; [apply Permutation_refl|]. intros f [].
Qed.

(** ** Closed lists *)
Definition pairs (l : list nat) : list (nat * nat) := match l with [] => [] | a :: r => combine l (r ++ [a]) end.
Fixpoint nsteps (l : list nat) : list (nat * nat) := match l with a :: (b :: _) as r => (a, b) :: nsteps r | _ => [] end.
Lemma nsteps_cons : forall a b r, nsteps (a :: b :: r) = (a, b) :: nsteps (b :: r). Proof. reflexivity. Qed.
Lemma combine_nsteps : forall r x y, combine (x :: r) (r ++ [y]) = nsteps (x :: r ++ [y]).
Proof. induction r as [|z r IH]; intros x y; [reflexivity|]. cbn [app]. rewrite nsteps_cons. cbn [combine]. f_equal. exact (IH z y). Qed.
Lemma pairs_nsteps : forall a r, pairs (a :: r) = nsteps (a :: r ++ [a]).
Proof. intros. apply combine_nsteps. Qed.
Lemma nsteps_app : forall l x r, nsteps (l ++ x :: r) = nsteps (l ++ [x]) ++ nsteps (x :: r).
Proof.
  induction l as [|a [|b l] IH]; intros x r; [reflexivity| |]; cbn [app] in *; rewrite !nsteps_cons; [reflexivity|]. rewrite IH. reflexivity.
Qed.
Lemma pairs_rotate1 : forall a l, Permutation (pairs (l ++ [a])) (pairs (a :: l)).
Proof.
  intros a [|b l]; [apply Permutation_refl|]. cbn [app]. rewrite !pairs_nsteps. cbn [app]. rewrite <- app_assoc. cbn [app]. rewrite nsteps_cons.
  change (b :: l ++ [a; b]) with ((b :: l) ++ a :: [b]). rewrite nsteps_app. cbn [app]. change (nsteps [a; b]) with [(a, b)]. apply Permutation_sym, Permutation_cons_append.
Qed.
Lemma pairs_rotate : forall l r, Permutation (pairs (l ++ r)) (pairs (r ++ l)).
Proof.
  induction l as [|a l IH]; intros r; [rewrite app_nil_r; apply Permutation_refl|]. cbn [app]. eapply perm_trans; [apply Permutation_sym, pairs_rotate1|]. rewrite <- app_assoc. eapply perm_trans; [apply IH|]. rewrite <- app_assoc. apply Permutation_refl.
Qed.
Lemma pairs_fst : forall l, map fst (pairs l) = l.
Proof. intros [|a r]; [reflexivity|]. unfold pairs. assert (H : forall (x y : list nat), length x = length y -> map fst (combine x y) = x) by (induction x; intros [|? y] E; try discriminate; cbn [combine map fst]; auto; f_equal; auto). apply H. rewrite app_length. cbn. lia. Qed.
Lemma pairs_snd : forall l, Permutation (map snd (pairs l)) l.
Proof.
  intros [|a r]; [apply Permutation_refl|]. unfold pairs. assert (H : forall (x y : list nat), length x = length y -> map snd (combine x y) = y) by (induction x; intros [|? y] E; try discriminate; cbn [combine map snd]; auto; f_equal; auto). rewrite H by (rewrite app_length; cbn; lia). apply Permutation_sym, Permutation_cons_append.
Qed.
Lemma nodup_fun : forall {A B} (f : A -> B) l x y, NoDup (map f l) -> In x l -> In y l -> f x = f y -> x = y.
Proof.
  induction l as [|a l IH]; intros x y N X Y E; [destruct X|]. cbn [map] in N. inversion N; subst. destruct X as [<-|X], Y as [<-|Y]; auto.
  - exfalso. apply H1. rewrite E. apply in_map. auto.
  - exfalso. apply H1. rewrite <- E. apply in_map. auto.
Qed.
Lemma pairs_out : forall l x y y', NoDup l -> In (x, y) (pairs l) -> In (x, y') (pairs l) -> y = y'.
Proof. intros l x y y' N A B. rewrite <- (pairs_fst l) in N. pose proof (nodup_fun fst _ _ _ N A B eq_refl). congruence. Qed.
Lemma pairs_in : forall l x x' y, NoDup l -> In (x, y) (pairs l) -> In (x', y) (pairs l) -> x = x'.
Proof. intros l x x' y N A B. apply (Permutation_NoDup (Permutation_sym (pairs_snd l))) in N. pose proof (nodup_fun snd _ _ _ N A B eq_refl). congruence. Qed.
Lemma pairs_mem : forall l x y, In (x, y) (pairs l) -> In x l /\ In y l.
Proof. intros l x y H. split; [rewrite <- (pairs_fst l); apply (in_map fst _ _ H)|apply (Permutation_in _ (pairs_snd l)), (in_map snd _ _ H)]. Qed.
Lemma pairs_next : forall l x, In x l -> exists y, In (x, y) (pairs l).
Proof. intros l x I. rewrite <- (pairs_fst l) in I. apply in_map_iff in I as ([a b] & E & I). cbn in E. subst a. exists b. exact I. Qed.
Lemma pairs_prev : forall l y, In y l -> exists x, In (x, y) (pairs l).
Proof. intros l y I. apply (Permutation_in _ (Permutation_sym (pairs_snd l))) in I. apply in_map_iff in I as ([a b] & E & I). cbn in E. subst b. exists a. exact I. Qed.
Lemma nsteps_snoc : forall l a v, nsteps ((l ++ [a]) ++ [v]) = nsteps (l ++ [a]) ++ [(a, v)].
Proof. intros. rewrite <- app_assoc. cbn [app]. rewrite nsteps_app. reflexivity. Qed.
(** Removing a vertex joins its neighbours. *)
Lemma pairs_remove : forall l1 v l2, NoDup (l1 ++ v :: l2) -> l1 ++ l2 <> [] ->
  exists a b, In (a, v) (pairs (l1 ++ v :: l2)) /\ In (v, b) (pairs (l1 ++ v :: l2)) /\
  forall x y, In (x, y) (pairs (l1 ++ l2)) <-> (In (x, y) (pairs (l1 ++ v :: l2)) /\ x <> v /\ y <> v) \/ (x = a /\ y = b).
Proof.
  intros l1 v l2 N NE. set (q := l2 ++ l1).
  assert (PQ : Permutation (pairs (l1 ++ l2)) (pairs q)) by apply pairs_rotate.
  assert (PV : Permutation (pairs (l1 ++ v :: l2)) (pairs (v :: q))) by apply (pairs_rotate l1 (v :: l2)).
  assert (NQ : NoDup (v :: q)). { apply (Permutation_NoDup (l := l1 ++ v :: l2)); [|exact N]. apply (Permutation_app_comm l1 (v :: l2)). }
  assert (QN : q <> []). { intros E. apply NE. apply app_eq_nil in E as [-> ->]. reflexivity. } clearbody q.
  destruct q as [|b q'] eqn:EQ; [contradiction|]. destruct (exists_last (l := b :: q')) as [f [a EL]]; [discriminate|].
  assert (SV : pairs (v :: b :: q') = (v, b) :: nsteps (b :: q') ++ [(a, v)]). { rewrite pairs_nsteps. cbn [app]. rewrite nsteps_cons. f_equal. change (b :: q' ++ [v]) with ((b :: q') ++ [v]). rewrite EL, nsteps_snoc. reflexivity. }
  assert (SQ : pairs (b :: q') = nsteps (b :: q') ++ [(a, b)]). { rewrite pairs_nsteps. change (b :: q' ++ [b]) with ((b :: q') ++ [b]). rewrite EL, nsteps_snoc. reflexivity. }
  assert (OUT : forall x y, In (x, y) (nsteps (b :: q')) -> x <> v /\ y <> v).
  { intros x y I. assert (IQ : In (x, y) (pairs (b :: q'))) by (rewrite SQ; apply in_or_app; auto). apply pairs_mem in IQ as [I1 I2]. inversion NQ; subst. split; intros ->; contradiction. }
  exists a, b. split; [|split].
  - apply (Permutation_in _ (Permutation_sym PV)). rewrite SV. right. apply in_or_app. right. left. reflexivity.
  - apply (Permutation_in _ (Permutation_sym PV)). rewrite SV. left. reflexivity.
  - intros x y. split.
    + intros I. apply (Permutation_in _ PQ) in I. rewrite SQ in I. apply in_app_iff in I as [I|[I|[]]]; [left|right; injection I as <- <-; auto]. destruct (OUT _ _ I). split; [|auto]. apply (Permutation_in _ (Permutation_sym PV)). rewrite SV. right. apply in_or_app. auto.
    + intros H. apply (Permutation_in _ (Permutation_sym PQ)). rewrite SQ. apply in_or_app. destruct H as [(I & X & Y)|[-> ->]]; [left|right; left; auto]. apply (Permutation_in _ PV) in I. rewrite SV in I. destruct I as [I|I]; [injection I as <- <-; contradiction|]. apply in_app_iff in I as [I|[I|[]]]; [auto|injection I as <- <-; contradiction].
Qed.
Lemma pairs_follows : forall l x y, In (x, y) (pairs l) <-> follows l x y.
Proof.
  intros l x y. unfold follows. destruct l as [|a r]; [split; [intros []|intros (i & H & _); destruct i; discriminate]|].
  assert (G : forall i, nth_error (r ++ [a]) i = if i <? length (a :: r) then nth_error (a :: r) ((i + 1) mod length (a :: r)) else None).
  { intros i. cbn [length]. destruct (Nat.ltb_spec i (S (length r))) as [L|L].
    - destruct (Nat.eq_dec i (length r)) as [->|D].
      + rewrite nth_error_app2, Nat.sub_diag by lia. replace (length r + 1) with (S (length r)) by lia. rewrite Nat.mod_same by lia. reflexivity.
      + rewrite nth_error_app1 by lia. rewrite Nat.mod_small by lia. replace (i + 1) with (S i) by lia. reflexivity.
    - apply nth_error_None. rewrite app_length. cbn. lia. }
  assert (C : forall (u v : list nat) i, nth_error (combine u v) i = match nth_error u i, nth_error v i with Some p, Some q => Some (p, q) | _, _ => None end).
  { induction u as [|p u IH]; intros [|q v] [|i]; cbn; auto. - destruct (nth_error u i); reflexivity. }
  split.
  - intros I. apply In_nth_error in I as (i & I). exists i. unfold pairs in I. rewrite C, G in I. destruct (nth_error (a :: r) i) as [p|] eqn:P; [|discriminate]. apply nth_error_Some_lt in P as LP. replace (i <? length (a :: r)) with true in I by (symmetry; apply Nat.ltb_lt; auto). destruct (nth_error (a :: r) ((i + 1) mod length (a :: r))) as [q|]; [|discriminate]. injection I as -> ->. auto.
  - intros (i & P & Q). apply (nth_error_In _ i). unfold pairs. rewrite C, G, P. apply nth_error_Some_lt in P. replace (i <? length (a :: r)) with true by (symmetry; apply Nat.ltb_lt; auto). rewrite Q. reflexivity.
Qed.

(** ** Areas *)
Definition area (poly : list point) (x y z : nat) : Q :=
  let p0 := nth x poly (0, 0)%Q in let p1 := nth y poly (0, 0)%Q in let p2 := nth z poly (0, 0)%Q in
  Qabs ((fst p0 - fst p2) * (snd p1 - snd p0) - (fst p0 - fst p1) * (snd p2 - snd p0))%Q.
Lemma triangle_spec : forall poly x y z, x < length poly -> y < length poly -> z < length poly -> triangle poly x y z = Some (area poly x y z, (x, y, z)).
Proof. intros poly x y z X Y Z. unfold triangle, tri_area2, area. rewrite (nth_error_nth' poly (0, 0)%Q X), (nth_error_nth' poly (0, 0)%Q Y), (nth_error_nth' poly (0, 0)%Q Z). reflexivity. Qed.
Lemma area_corner : forall poly x y z, (corner poly x y z == area poly x y z / 2)%Q.
Proof. intros. unfold corner, area, orient. apply Qmult_comp; [|reflexivity]. apply Qabs_wd. ring. Qed.

Lemma push_all_spec : forall poly n is i0 i1 h, is = seq (i1 + 1) (length is) -> i1 + length is < n -> n = length poly -> i0 < n ->
  exists h', push_all poly i0 i1 is h = Some h' /\ Permutation h' (map (fun t => (area poly (fst (fst t)) (snd (fst t)) (snd t), t)) (match is with [] => [] | i :: _ => (i0, i1, i) :: map (fun k => (k - 1, k, k + 1)) (seq (i1 + 1) (length is - 1)) end) ++ h).
Proof.
  intros poly n is. induction is as [|i is IH]; intros i0 i1 h E L NL L0; cbn [push_all].
  - exists h. split; [reflexivity|apply Permutation_refl].
  - cbn [length seq] in E, L. injection E as -> E. rewrite triangle_spec by lia. cbn [bind].
    replace (S (i1 + 1)) with (i1 + 1 + 1) in E by lia. destruct (IH i1 (i1 + 1) ((area poly i0 i1 (i1 + 1), (i0, i1, i1 + 1)) :: h) E) as (h' & EH & P); [lia|auto|lia|]. exists h'. split; [exact EH|]. eapply perm_trans; [exact P|]. clear P EH.
    destruct is as [|j is]; [cbn; apply Permutation_refl|]. cbn [length seq] in E. injection E as -> E. cbn [length]. replace (S (S (length is)) - 1) with (S (length is)) by lia. replace (S (length is) - 1) with (length is) by lia. cbn [seq map]. replace (i1 + 1 - 1) with i1 by lia. cbn [app fst snd]. replace (S (i1 + 1)) with (i1 + 1 + 1) by lia.
    apply Permutation_sym. apply (Permutation_middle (_ :: _)).
Qed.

Definition item (poly : list point) (t : nat * nat * nat) : entry := (area poly (fst (fst t)) (snd (fst t)) (snd t), t).
Definition around (n k : nat) : nat * nat * nat := ((k + n - 1) mod n, k, (k + 1) mod n).
Lemma init_heap : forall poly n, n = length poly -> 2 <= n -> exists t h, triangle poly (n - 2) (n - 1) 0 = Some t /\ push_all poly (n - 1) 0 (seq 1 (n - 1)) [t] = Some h /\ Permutation h (map (item poly) (map (around n) (seq 0 n))).
Proof.
  intros poly n NL N2. rewrite triangle_spec by lia. destruct (push_all_spec poly n (seq 1 (n - 1)) (n - 1) 0 [(area poly (n - 2) (n - 1) 0, (n - 2, n - 1, 0))]) as (h & E & P); [rewrite seq_length; reflexivity|rewrite seq_length; lia|auto|lia|].
  eexists. exists h. split; [reflexivity|]. split; [exact E|]. eapply perm_trans; [exact P|]. clear E P. rewrite seq_length.
  replace (seq 1 (n - 1)) with (1 :: seq 2 (n - 2)) by (replace (n - 1) with (S (n - 2)) by lia; reflexivity). change (0 + 1) with 1.
  replace (seq 0 n) with (0 :: seq 1 (n - 2) ++ [n - 1]). 2: { destruct n as [|[|n]]; try lia. replace (S (S n) - 2) with n by lia. cbn [seq]. f_equal. replace (S (S n) - 1) with (1 + n) by lia. rewrite <- (seq_S n 1). reflexivity. }
  assert (A0 : around n 0 = (n - 1, 0, 1)). { unfold around. replace ((0 + n - 1) mod n) with (n - 1) by (rewrite Nat.mod_small; lia). replace ((0 + 1) mod n) with 1 by (rewrite Nat.mod_small; lia). reflexivity. }
  assert (A1 : around n (n - 1) = (n - 2, n - 1, 0)). { unfold around. replace ((n - 1 + n - 1) mod n) with (n - 2) by (symmetry; replace (n - 1 + n - 1) with (n - 2 + 1 * n) by lia; rewrite Nat.mod_add by lia; apply Nat.mod_small; lia). replace ((n - 1 + 1) mod n) with 0 by (replace (n - 1 + 1) with n by lia; rewrite Nat.mod_same; lia). reflexivity. }
  replace (n - 1 - 1) with (n - 2) by lia. cbn [map]. rewrite !map_app. cbn [map app]. rewrite A0, A1. unfold item. cbn [fst snd].
  apply perm_skip. apply Permutation_app_tail. rewrite !map_map. apply Permutation_refl'. apply map_ext_in. intros k K. apply in_seq in K. cbn [fst snd].
  assert (E : around n k = (k - 1, k, k + 1)). { unfold around. replace ((k + n - 1) mod n) with (k - 1) by (symmetry; replace (k + n - 1) with (k - 1 + 1 * n) by lia; rewrite Nat.mod_add by lia; apply Nat.mod_small; lia). rewrite (Nat.mod_small (k + 1)) by lia. reflexivity. }
  rewrite E. reflexivity.
Qed.

(** ** Invariant of the loop: [l] holds the vertices left, in order. *)
Definition live (removed : list bool) (e : entry) : bool :=
  let '(i0, _, i2) := snd e in match nth_error removed i0, nth_error removed i2 with Some false, Some false => true | _, _ => false end.
Definition eff_next (n : nat) (next : list (option nat)) (i : nat) : option nat :=
  match nth_error next i with Some (Some j) => Some j | Some None => Some ((i + 1) mod n) | None => None end.
Definition eff_prev (n : nat) (prev : list (option nat)) (i : nat) : option nat :=
  match nth_error prev i with Some (Some j) => Some j | Some None => Some ((i + n - 1) mod n) | None => None end.
Record inv (poly : list point) (n : nat) (s : vis) (l : list nat) : Prop := mkInv {
  i_nb : v_nb s = length l;
  i_nodup : NoDup l;
  i_lt : forall i, In i l -> i < n;
  i_len : length (v_removed s) = n /\ length (v_prev s) = n /\ length (v_next s) = n;
  i_left : forall i, In i l <-> nth_error (v_removed s) i = Some false;
  i_next : forall x y, In (x, y) (pairs l) -> eff_next n (v_next s) x = Some y;
  i_prev : forall x y, In (x, y) (pairs l) -> eff_prev n (v_prev s) y = Some x;
  i_all : forall x y z, In (x, y) (pairs l) -> In (y, z) (pairs l) -> In (item poly (x, y, z)) (v_heap s);
  i_live : forall e, In e (v_heap s) -> exists x y z, e = item poly (x, y, z) /\ x < n /\ y < n /\ z < n /\ (live (v_removed s) e = true -> In (x, y) (pairs l) /\ In (y, z) (pairs l));
  i_once : NoDup (filter (live (v_removed s)) (v_heap s)) }.
Lemma filter_perm : forall {A} (f : A -> bool) a b, Permutation a b -> Permutation (filter f a) (filter f b).
Proof.
  intros A f a b P. induction P; cbn [filter].
  - constructor.
  - destruct (f x); auto.
  - destruct (f x), (f y); try apply Permutation_refl. apply perm_swap.
  - eapply perm_trans; eauto.
Qed.
Lemma live_mono : forall r1 r2 e, (forall i, nth_error r2 i = Some false -> nth_error r1 i = Some false) -> live r2 e = true -> live r1 e = true.
Proof.
  intros r1 r2 [a [[x y] z]] H L. unfold live in *. cbn [snd] in *. destruct (nth_error r2 x) as [[|]|] eqn:X; try discriminate. destruct (nth_error r2 z) as [[|]|] eqn:Z; try discriminate. rewrite (H x X), (H z Z). reflexivity.
Qed.
Lemma live_item : forall r poly x y z, live r (item poly (x, y, z)) = true <-> nth_error r x = Some false /\ nth_error r z = Some false.
Proof.
  intros. unfold live, item. cbn [snd]. destruct (nth_error r x) as [[|]|], (nth_error r z) as [[|]|]; split; try discriminate; try (intros [A B]; discriminate); auto.
Qed.
Lemma nodup_filter_imp : forall {A} (f g : A -> bool) l, (forall x, f x = true -> g x = true) -> NoDup (filter g l) -> NoDup (filter f l).
Proof.
  intros A f g l H. induction l as [|x l IH]; cbn [filter]; intros N; [constructor|]. destruct (f x) eqn:F.
  - rewrite (H x F) in N. inversion N; subst. constructor; auto. intros I. apply H2. apply filter_In in I as [I1 I2]. apply filter_In. auto.
  - destruct (g x); [inversion N; auto|auto].
Qed.

Lemma store_at : forall {T} (l : list T) i v, i < length l -> store l i v = Some (upd l i v).
Proof. intros T l i v H. unfold store. replace (i <? length l) with true by (symmetry; apply Nat.ltb_lt; auto). reflexivity. Qed.
Lemma item_inj : forall poly t t', item poly t = item poly t' -> t = t'.
Proof. intros poly t t' E. apply (f_equal snd) in E. exact E. Qed.

Ltac nbr :=
  match goal with
  | A : In (?x, ?v) (pairs ?l), B : In (?y, ?v) (pairs ?l), N : NoDup ?l |- ?x = ?y => exact (pairs_in l x y v N A B)
  | A : In (?v, ?x) (pairs ?l), B : In (?v, ?y) (pairs ?l), N : NoDup ?l |- ?x = ?y => exact (pairs_out l v x y N A B)
  end.
Lemma vis_step_spec : forall poly n s l, n = length poly -> inv poly n s l -> 3 <= length l ->
  exists s' l', vis_step poly n s = Some s' /\ inv poly n s' l' /\
  ((l' = l /\ length (v_heap s) = S (length (v_heap s'))) \/
   (exists l1 v l2, l = l1 ++ v :: l2 /\ l' = l1 ++ l2 /\ smallest poly l v /\ length (v_heap s') = S (length (v_heap s)))).
Proof.
  intros poly n s l NL I L3. pose proof (heappop_spec (v_heap s)) as HP. unfold vis_step.
  destruct I as [NB ND LT (LR & LPv & LNx) LEFT NEXT PREV ALL LIVE ONCE].
  destruct (heappop (v_heap s)) as [[e h]|].
  2: { exfalso. destruct l as [|a l]; [cbn in L3; lia|]. destruct (pairs_next (a :: l) a (or_introl eq_refl)) as [b B]. destruct (pairs_next (a :: l) b (proj2 (pairs_mem _ _ _ B))) as [c C]. pose proof (ALL _ _ _ B C) as X. rewrite HP in X. destruct X. }
  destruct HP as [PE MIN]. cbn [bind].
  assert (IE : In e (v_heap s)) by (apply (Permutation_in _ (Permutation_sym PE)); left; auto).
  destruct (LIVE e IE) as (x & v & z & EE & LX & LV & LZ & LP). assert (IH : forall f, In f h -> In f (v_heap s)) by (intros f F; apply (Permutation_in _ (Permutation_sym PE)); right; auto).
  assert (HE : forall f, In f (v_heap s) -> f = e \/ In f h) by (intros f F; apply (Permutation_in _ PE) in F; destruct F as [F|F]; auto).
  assert (LH : length (v_heap s) = S (length h)) by (rewrite (Permutation_length PE); reflexivity).
  subst e. unfold item at 1. cbn [fst snd].
  destruct (nth_error_lt_Some (v_removed s) x) as [r0 R0]; [lia|]. destruct (nth_error_lt_Some (v_removed s) z) as [r2 R2]; [lia|]. rewrite R0, R2. cbn [bind].
  destruct (r0 || r2) eqn:RR.
  - (* stale triangle *)
    assert (ST : live (v_removed s) (item poly (x, v, z)) = false). { destruct (live (v_removed s) (item poly (x, v, z))) eqn:E; [|auto]. apply live_item in E as [E1 E2]. rewrite R0 in E1. rewrite R2 in E2. injection E1 as ->. injection E2 as ->. discriminate. }
    eexists. exists l. split; [reflexivity|]. split; [|left; split; [auto|exact LH]]. constructor; cbn [v_heap v_prev v_next v_removed v_nb]; auto.
    + intros a b c A B. destruct (HE _ (ALL a b c A B)) as [E|F]; [|exact F]. exfalso. apply item_inj in E. injection E as -> -> ->. apply pairs_mem in A as [A _]. apply pairs_mem in B as [_ B]. apply LEFT in A, B. assert (T : live (v_removed s) (item poly (x, v, z)) = true) by (apply live_item; auto). congruence.
    + assert (PF := filter_perm (live (v_removed s)) _ _ PE). cbn [filter] in PF. rewrite ST in PF. apply (Permutation_NoDup PF), ONCE.
  - (* a vertex is removed *)
    apply orb_false_iff in RR as [-> ->]. destruct LP as [PXV PVZ]; [apply live_item; auto|].
    destruct (pairs_mem _ _ _ PXV) as [IX IV]. destruct (pairs_mem _ _ _ PVZ) as [_ IZ].
    apply in_split in IV as (l1 & l2 & EL).
    assert (NE : l1 ++ l2 <> []). { intros E. rewrite EL, app_length in L3. cbn [length] in L3. apply app_eq_nil in E as [-> ->]. cbn in L3. lia. }
    rewrite EL in ND. destruct (pairs_remove l1 v l2 ND NE) as (a & b & PA & PB & PP). rewrite <- EL in *.
    assert (a = x) by (nbr). assert (b = z) by (nbr). subst a b. set (l' := l1 ++ l2) in *.
    assert (MEM : forall i, In i l' <-> In i l /\ i <> v).
    { intros i. unfold l'. rewrite EL, !in_app_iff. cbn [In]. assert (NV : ~ In v (l1 ++ l2)) by (rewrite EL in ND; apply NoDup_remove_2 in ND; auto). rewrite in_app_iff in NV. split; [intros [A|A]; (split; [auto|intros ->; apply NV; auto])|intros [[A|[A|A]] B]; auto; congruence]. }
    assert (XV : x <> v). { intros ->. (* a vertex followed by itself: one vertex only *) assert (In (v, v) (pairs l)) by auto. clear - H EL ND L3 NE PP MEM PB PXV PVZ. assert (z = v) by (nbr). subst z. assert (exists y, In y l') as [y Y] by (destruct l' as [|y q]; [contradiction|exists y; left; auto]). destruct (pairs_prev l' y Y) as [w W]. apply PP in W as W'. destruct W' as [(W1 & W2 & W3)|[-> ->]]; [|apply MEM in Y as [_ Y]; contradiction].
      assert (Q : In (v, v) (pairs l')) by (apply PP; right; auto). apply pairs_mem in Q as [Q _]. apply MEM in Q as [_ Q]. contradiction. }
    assert (ZV : z <> v). { intros ->. apply XV. nbr. }
    assert (ND' : NoDup l') by (rewrite EL in ND; apply NoDup_remove_1 in ND; exact ND).
    assert (LL : length l = S (length l')) by (rewrite EL; unfold l'; rewrite !app_length; cbn; lia).
    assert (XZ' : In (x, z) (pairs l')) by (apply PP; right; auto).
    assert (XZ : x <> z). { intros E. subst z. assert (exists y, In y l' /\ y <> x) as (y & Y & YX). { destruct l' as [|p [|q r]]; cbn [length] in LL; try lia. destruct (Nat.eq_dec p x) as [->|D]; [exists q; split; [right; left; auto|]; intros ->; inversion ND'; subst; apply H1; left; auto|exists p; split; [left; auto|auto]]. }
      clear - XZ' ND' Y YX. assert (exists m, l' = m) as [m M] by eauto. apply in_split in Y as (q1 & q2 & E). assert (NQ : q1 ++ q2 <> []) by (intros E2; apply app_eq_nil in E2 as [-> ->]; cbn in E; rewrite E in XZ'; cbn in XZ'; destruct XZ' as [X|[]]; congruence).
      assert (G : forall r, NoDup r -> In (x, x) (pairs r) -> forall w, In w r -> w = x).
      { clear. intros r N I w W. destruct (Nat.eq_dec w x) as [|D]; [auto|exfalso]. destruct (pairs_mem _ _ _ I) as [IX _]. apply in_split in IX as (a & b & ->). pose proof (pairs_rotate a (x :: b)) as P. apply (Permutation_in _ P) in I. cbn [app] in I. destruct (b ++ a) as [|c q] eqn:Q.
        - apply app_eq_nil in Q as [-> ->]. cbn in W. destruct W as [W|[]]. congruence.
        - rewrite pairs_nsteps in I. cbn [app] in I. rewrite nsteps_cons in I. assert (NN : NoDup (x :: c :: q)) by (rewrite <- Q; apply (Permutation_NoDup (l := a ++ x :: b)); [apply (Permutation_app_comm a (x :: b))|exact N]).
          assert (c = x) by (eapply (pairs_out (x :: c :: q)); [exact NN|rewrite pairs_nsteps; cbn [app]; rewrite nsteps_cons; left; reflexivity|rewrite pairs_nsteps; cbn [app]; rewrite nsteps_cons; exact I]). subst c. inversion NN; subst. apply H1. left. auto. }
      assert (y = x) by (apply (G l' ND' XZ'); rewrite E; apply in_or_app; right; left; auto). contradiction. }
    rewrite (store_at (v_removed s) v true) by lia. cbn [bind]. rewrite (store_at (v_prev s) z (Some x)) by lia. cbn [bind]. rewrite (store_at (v_next s) x (Some z)) by lia. cbn [bind].
    (* neighbours in the new contour *)
    destruct (pairs_prev l' x (proj1 (pairs_mem _ _ _ XZ'))) as [w W]. destruct (pairs_next l' z (proj2 (pairs_mem _ _ _ XZ'))) as [u U].
    assert (W0 : In (w, x) (pairs l)) by (apply PP in W as [(W & _)|[_ E]]; [auto|congruence]).
    assert (U0 : In (z, u) (pairs l)) by (apply PP in U as [(U & _)|[E _]]; [auto|congruence]).
    pose proof (PREV _ _ W0) as EW. pose proof (NEXT _ _ U0) as EU. unfold eff_prev in EW. unfold eff_next in EU.
    rewrite (nth_error_upd_neq (v_prev s) z) by auto. rewrite (nth_error_upd_neq (v_next s) x) by auto.
    destruct (nth_error (v_prev s) x) as [ow|]; [|discriminate]. destruct (nth_error (v_next s) z) as [ou|]; [|discriminate]. cbn [bind].
    assert (EW' : match ow with Some i => i | None => (x + n - 1) mod n end = w) by (destruct ow; congruence). assert (EU' : match ou with Some i => i | None => (z + 1) mod n end = u) by (destruct ou; congruence). rewrite EW', EU'. clear EW EU EW' EU' ow ou.
    assert (LW : w < n) by (apply LT; apply (pairs_mem _ _ _ W0)). assert (LU : u < n) by (apply LT; apply (pairs_mem _ _ _ U0)).
    rewrite (triangle_spec poly w x z), (triangle_spec poly x z u) by lia. cbn [bind].
    eexists. exists l'. split; [reflexivity|].
    assert (REM : forall i, nth_error (upd (v_removed s) v true) i = Some false <-> nth_error (v_removed s) i = Some false /\ i <> v).
    { intros i. destruct (Nat.eq_dec i v) as [->|D]; [rewrite nth_error_upd_eq by lia; split; [discriminate|intros [_ H]; contradiction]|rewrite nth_error_upd_neq by auto; tauto]. }
    assert (MONO : forall f, live (upd (v_removed s) v true) f = true -> live (v_removed s) f = true) by (intros f; apply live_mono; intros i H; apply REM in H; tauto).
    assert (ONCE' : NoDup (filter (live (v_removed s)) h) /\ ~ In (item poly (x, v, z)) (filter (live (v_removed s)) h)).
    { assert (PF := filter_perm (live (v_removed s)) _ _ PE). cbn [filter] in PF. rewrite (proj2 (live_item _ poly x v z) (conj R0 R2)) in PF. apply (Permutation_NoDup PF) in ONCE. inversion ONCE; subst; auto. }
    destruct ONCE' as [ON1 ON2].
    (* a live triangle of the heap is one of the new contour, away from the change *)
    assert (KEEP : forall f, In f h -> live (upd (v_removed s) v true) f = true -> exists p q r, f = item poly (p, q, r) /\ In (p, q) (pairs l') /\ In (q, r) (pairs l') /\ q <> x /\ q <> z).
    { intros f F LF. destruct (LIVE f (IH f F)) as (p & q & r & -> & Lp & Lq & Lr & H). pose proof (MONO _ LF) as LF0. destruct (H LF0) as [H1 H2]. apply live_item in LF as [F1 F2]. apply REM in F1 as [_ F1], F2 as [_ F2].
      assert (Q : q <> v). { intros ->. assert (p = x) by (nbr). assert (r = z) by (nbr). subst. apply ON2. apply filter_In. auto. }
      exists p, q, r. split; [reflexivity|]. split; [apply PP; left; auto|]. split; [apply PP; left; auto|]. split; intros ->; [apply F2; nbr|apply F1; nbr]. }
    split; [|right; exists l1, v, l2; repeat split; auto].
    + constructor; cbn [v_heap v_prev v_next v_removed v_nb].
      * lia.
      * exact ND'.
      * intros i I. apply MEM in I as [I _]. auto.
      * rewrite !length_upd. auto.
      * intros i. rewrite MEM, LEFT, REM. reflexivity.
      * intros p q PQ. unfold eff_next. apply PP in PQ as [(PQ & P1 & P2)|[-> ->]].
        -- assert (p <> x) by (intros ->; apply P2; nbr). rewrite nth_error_upd_neq by auto. apply (NEXT p q PQ).
        -- rewrite nth_error_upd_eq by lia. reflexivity.
      * intros p q PQ. unfold eff_prev. apply PP in PQ as [(PQ & P1 & P2)|[-> ->]].
        -- assert (q <> z) by (intros ->; apply P1; nbr). rewrite nth_error_upd_neq by auto. apply (PREV p q PQ).
        -- rewrite nth_error_upd_eq by lia. reflexivity.
      * intros p q r PQ QR. destruct (Nat.eq_dec q x) as [->|QX]; [right; left; unfold item; cbn [fst snd]; assert (p = w) by (nbr); assert (r = z) by (nbr); subst; reflexivity|].
        destruct (Nat.eq_dec q z) as [->|QZ]; [left; unfold item; cbn [fst snd]; assert (p = x) by (nbr); assert (r = u) by (nbr); subst; reflexivity|].
        apply PP in PQ as [(PQ & P1 & P2)|[-> ->]]; [|contradiction]. apply PP in QR as [(QR & Q1 & Q2)|[-> ->]]; [|contradiction]. right. right. destruct (HE _ (ALL p q r PQ QR)) as [E|F]; [|exact F]. apply item_inj in E. congruence.
      * intros f [<-|[<-|F]].
        -- exists x, z, u. repeat split; auto.
        -- exists w, x, z. repeat split; auto.
        -- destruct (LIVE f (IH f F)) as (p & q & r & EF & Lp & Lq & Lr & _). exists p, q, r. split; [exact EF|]. split; [exact Lp|]. split; [exact Lq|]. split; [exact Lr|]. intros LF. destruct (KEEP f F LF) as (p' & q' & r' & EF' & H1 & H2 & _). rewrite EF in EF'. apply item_inj in EF'. injection EF' as -> -> ->. split; assumption.
      * cbn [filter]. assert (N0 : NoDup (filter (live (upd (v_removed s) v true)) h)) by (eapply nodup_filter_imp; [exact MONO|exact ON1]).
        assert (L1 : live (upd (v_removed s) v true) (item poly (x, z, u)) = true). { apply live_item. split; apply REM; split; auto; [apply LEFT; apply (pairs_mem _ _ _ U0)|]. intros ->. apply pairs_mem in U as [_ U]. apply MEM in U as [_ U]. contradiction. }
        assert (L2 : live (upd (v_removed s) v true) (item poly (w, x, z)) = true). { apply live_item. split; apply REM; split; auto; [apply LEFT; apply (pairs_mem _ _ _ W0)|]. intros ->. apply pairs_mem in W as [W _]. apply MEM in W as [_ W]. contradiction. }
        unfold item in L1, L2. cbn [fst snd] in L1, L2. rewrite L1, L2. constructor; [|constructor; [|exact N0]].
        -- intros [E|F]; [injection E as _ E1 E2 E3; congruence|]. apply filter_In in F as [F LF]. destruct (KEEP _ F LF) as (p & q & r & E & _ & _ & _ & Q2). apply (f_equal snd) in E. cbn [snd item] in E. congruence.
        -- intros F. apply filter_In in F as [F LF]. destruct (KEEP _ F LF) as (p & q & r & E & _ & _ & Q1 & _). apply (f_equal snd) in E. cbn [snd item] in E. congruence.
    + intros p r p' w' r' A B C D. apply pairs_follows in A, B, C, D. assert (p = x) by (nbr). assert (r = z) by (nbr). subst p r. rewrite !area_corner.
      assert (AR : (area poly x v z <= area poly p' w' r')%Q). { destruct (HE _ (ALL p' w' r' C D)) as [E|F]; [apply item_inj in E; injection E as -> -> ->; apply Qle_refl|]. exact (MIN _ F). }
      unfold Qdiv. apply Qmult_le_compat_r; [exact AR|]. discriminate.
    + cbn [v_heap length]. lia.
Qed.

(** ** Start of the loop *)
Lemma pairs_seq : forall n x y, In (x, y) (pairs (seq 0 n)) <-> x < n /\ y = (x + 1) mod n.
Proof.
  intros n x y. rewrite pairs_follows. unfold follows. rewrite seq_length. split.
  - intros (i & A & B). rewrite nth_error_seq in A, B. destruct (Nat.ltb_spec i n) as [L|L]; [|discriminate]. destruct ((i + 1) mod n <? n); [|discriminate]. injection A as <-. injection B as <-. auto.
  - intros [L ->]. exists x. rewrite !nth_error_seq. assert ((x + 1) mod n < n) by (apply Nat.mod_upper_bound; lia). replace (x <? n) with true by (symmetry; apply Nat.ltb_lt; auto). replace ((x + 1) mod n <? n) with true by (symmetry; apply Nat.ltb_lt; auto). auto.
Qed.
Lemma mod_back : forall n x, x < n -> ((x + 1) mod n + n - 1) mod n = x.
Proof.
  intros n x L. destruct (Nat.eq_dec (x + 1) n) as [E|D].
  - rewrite E, Nat.mod_same by lia. rewrite Nat.mod_small; lia.
  - rewrite (Nat.mod_small (x + 1)) by lia. replace (x + 1 + n - 1) with (x + 1 * n) by lia. rewrite Nat.mod_add by lia. apply Nat.mod_small. auto.
Qed.
Lemma mod_front : forall n x, x < n -> ((x + n - 1) mod n + 1) mod n = x.
Proof.
  intros n x L. destruct (Nat.eq_dec x 0) as [->|D].
  - rewrite (Nat.mod_small (0 + n - 1)) by lia. replace (0 + n - 1 + 1) with n by lia. apply Nat.mod_same. lia.
  - replace (x + n - 1) with (x - 1 + 1 * n) by lia. rewrite Nat.mod_add by lia. rewrite (Nat.mod_small (x - 1)) by lia. replace (x - 1 + 1) with x by lia. apply Nat.mod_small. auto.
Qed.
Lemma inv_start : forall poly n h, n = length poly -> 2 <= n -> Permutation h (map (item poly) (map (around n) (seq 0 n))) ->
  inv poly n (mkVis h (repeat None n) (repeat None n) (repeat false n) n) (seq 0 n).
Proof.
  intros poly n h NL N2 P. constructor; cbn [v_heap v_prev v_next v_removed v_nb].
  - rewrite seq_length. reflexivity.
  - apply seq_NoDup.
  - intros i I. apply in_seq in I. lia.
  - rewrite !repeat_length. auto.
  - intros i. rewrite in_seq, nth_error_repeat_lt. destruct (Nat.ltb_spec i n); split; try discriminate; try lia; auto.
  - intros x y H. apply pairs_seq in H as [L ->]. unfold eff_next. rewrite nth_error_repeat_lt. replace (x <? n) with true by (symmetry; apply Nat.ltb_lt; auto). reflexivity.
  - intros x y H. apply pairs_seq in H as [L ->]. unfold eff_prev. rewrite nth_error_repeat_lt. assert ((x + 1) mod n < n) by (apply Nat.mod_upper_bound; lia). replace ((x + 1) mod n <? n) with true by (symmetry; apply Nat.ltb_lt; auto). rewrite mod_back by auto. reflexivity.
  - intros x y z A B. apply pairs_seq in A as [LA ->], B as [LB ->]. apply (Permutation_in _ (Permutation_sym P)). rewrite map_map. apply in_map_iff. exists ((x + 1) mod n). split; [|apply in_seq; lia]. unfold around. rewrite mod_back by auto. reflexivity.
  - intros e E. apply (Permutation_in _ P) in E. rewrite map_map in E. apply in_map_iff in E as (k & <- & K). apply in_seq in K. unfold around. exists ((k + n - 1) mod n), k, ((k + 1) mod n). split; [reflexivity|]. assert ((k + n - 1) mod n < n) by (apply Nat.mod_upper_bound; lia). assert ((k + 1) mod n < n) by (apply Nat.mod_upper_bound; lia). split; [auto|]. split; [lia|]. split; [auto|]. intros _. rewrite !pairs_seq. rewrite mod_front by lia. split; split; auto; lia.
  - apply (nodup_filter_imp _ (fun _ => true)); [auto|]. assert (F : forall l : list entry, filter (fun _ => true) l = l) by (induction l as [|q l IH]; cbn; congruence). rewrite F. apply (Permutation_NoDup (Permutation_sym P)). rewrite map_map. apply FinFun.Injective_map_NoDup; [|apply seq_NoDup]. intros a b E. apply item_inj in E. unfold around in E. congruence.
Qed.

(** ** Loop *)
Lemma shrinks_snoc : forall poly l l1 v l2, shrinks poly l (l1 ++ v :: l2) -> smallest poly (l1 ++ v :: l2) v -> shrinks poly l (l1 ++ l2).
Proof.
  intros poly l l1 v l2 H. remember (l1 ++ v :: l2) as m eqn:M. induction H as [m|a w b m S H IH]; intros V.
  - subst m. apply shrinks_more; [exact V|apply shrinks_done].
  - apply shrinks_more; auto.
Qed.
Lemma incr_remove : forall l1 v l2, incr (l1 ++ v :: l2) -> incr (l1 ++ l2).
Proof.
  induction l1 as [|a l1 IH]; intros v l2 H; cbn [app] in *; inversion H; subst; auto. constructor; [|eauto]. intros b B. apply H2. apply in_app_iff in B. apply in_app_iff. cbn. tauto.
Qed.
Lemma vis_loop_spec : forall poly n size l0 fuel s l, n = length poly -> 3 <= size -> inv poly n s l -> incr l -> shrinks poly l0 l ->
  length (v_heap s) + 2 * length l < fuel ->
  exists s' l', vis_loop fuel poly n size s = Some s' /\ inv poly n s' l' /\ incr l' /\ shrinks poly l0 l' /\ length l' = Nat.min (length l) (size - 1).
Proof.
  intros poly n size l0 fuel. induction fuel as [|fuel IH]; intros s l NL S3 I IC SH F; [lia|]. cbn [vis_loop]. pose proof (i_nb _ _ _ _ I) as NB. destruct (Nat.leb_spec size (v_nb s)) as [L|L].
  - destruct (vis_step_spec poly n s l NL I) as (s1 & l' & E & I' & C); [lia|]. rewrite E. cbn [bind]. destruct C as [[-> LH]|(l1 & v & l2 & -> & -> & SM & LH)].
    + apply IH; auto. lia.
    + assert (LL : length (l1 ++ v :: l2) = Datatypes.S (length (l1 ++ l2))) by (rewrite !app_length; cbn; lia).
      destruct (IH s1 (l1 ++ l2)) as (s' & l' & A & B & C & D & G); auto; [eapply incr_remove; eauto|eapply shrinks_snoc; eauto|lia|]. exists s', l'. repeat (split; auto). lia.
  - exists s, l. repeat (split; auto). lia.
Qed.
Lemma select_where : forall {A} (d : A) m p, length m = length p -> select m p = map (fun i => nth i p d) (where_ m).
Proof.
  intros A d m p L. unfold where_. assert (G : forall m p q, length m = length p -> select m p = map (fun i => nth i (q ++ p) d) (where_from (length q) m)).
  { clear. induction m as [|b m IH]; intros [|x p] q L; cbn in L; try lia; [reflexivity|]. injection L as L. cbn [where_from]. specialize (IH p (q ++ [x]) L). rewrite app_length in IH. cbn [length] in IH. replace (length q + 1) with (Datatypes.S (length q)) in IH by lia. rewrite <- app_assoc in IH. cbn [app] in IH. destruct b; cbn [select map]; rewrite IH; [f_equal|reflexivity]. rewrite app_nth2, Nat.sub_diag by lia. reflexivity. }
  exact (G m p [] L).
Qed.
Theorem visvalingam_spec : forall poly size, 2 <= length poly -> 3 <= size ->
  exists l first, visvalingam poly size = Some (map (fun i => nth i poly (0, 0)%Q) l ++ repeat first (size - length l)) /\
  incr l /\ shrinks poly (seq 0 (length poly)) l /\ length l = Nat.min (length poly) (size - 1) /\
  (exists i r, l = i :: r /\ first = nth i poly (0, 0)%Q).
Proof.
  intros poly size N2 S3. set (n := length poly) in *. destruct (init_heap poly n eq_refl N2) as (t & h & T & H & P). unfold visvalingam. fold n. rewrite T. cbn [bind]. rewrite H. cbn [bind].
  assert (LH : length h = n) by (rewrite (Permutation_length P), !map_length, seq_length; reflexivity).
  destruct (vis_loop_spec poly n size (seq 0 n) (4 * n + 1) (mkVis h (repeat None n) (repeat None n) (repeat false n) n) (seq 0 n)) as (s & l & E & I & IC & SH & LL); auto.
  - apply inv_start; auto.
  - assert (G : forall m k, incr (seq k m)) by (induction m as [|m IH]; intros k; cbn; constructor; auto; intros b B; apply in_seq in B; lia). apply G.
  - apply shrinks_done.
  - cbn [v_heap]. rewrite LH, seq_length. lia.
  - rewrite seq_length in LL. rewrite E. cbn [bind]. destruct (i_len _ _ _ _ I) as (LR & _). assert (W : where_ (map negb (v_removed s)) = l).
    { apply incr_ext; [apply incr_where|auto|]. intros i. rewrite In_where, nth_error_map, (i_left _ _ _ _ I). destruct (nth_error (v_removed s) i) as [[|]|]; cbn; split; congruence. }
    rewrite (select_where (0, 0)%Q) by (rewrite map_length; exact LR). rewrite W. destruct l as [|i r]; [cbn in LL; lia|]. exists (i :: r), (nth i poly (0, 0)%Q). cbn [map]. cbn [length]. rewrite map_length. cbn [length] in LL. replace (Datatypes.S (length r) <=? size) with true by (symmetry; apply Nat.leb_le; lia). split; [reflexivity|]. repeat (split; auto). exists i, r. auto.
Qed.
