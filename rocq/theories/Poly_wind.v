(** Lemmas on the winding number. *)
From Coq Require Import List Arith ZArith QArith Qabs Bool Lia Lqa Permutation.
From Verif Require Import Base Qaux Poly_model Poly_spec.
Import ListNotations.
Local Close Scope Q_scope.
Local Open Scope nat_scope.

(** Part of an edge in the winding number. *)
Definition cross (pt a b : point) : Z :=
  if Qle_bool (snd a) (snd pt) then
    if Qlt_bool (snd pt) (snd b) then if is_left a b pt then 1%Z else 0%Z else 0%Z
  else if Qle_bool (snd b) (snd pt) then if negb (is_left a b pt) then (-1)%Z else 0%Z else 0%Z.
Definition zsum (l : list Z) : Z := fold_right Z.add 0%Z l.
Lemma zsum_app : forall a b, zsum (a ++ b) = (zsum a + zsum b)%Z.
Proof. induction a as [|x a IH]; intros; cbn [app zsum fold_right] in *; [auto|]. fold (zsum (a ++ b)) (zsum a). rewrite IH. lia. Qed.

(** Edges of a path, then of a closed path. *)
Fixpoint path (first : point) (poly : list point) : list (point * point) :=
  match poly with [] => [] | p :: r => (p, match r with [] => first | q :: _ => q end) :: path first r end.
Lemma path_edges : forall poly first, path first poly = combine poly (tl poly ++ [first]).
Proof. induction poly as [|p [|q r] IH]; intros first; cbn [path tl app combine]; auto. f_equal. exact (IH first). Qed.
Lemma edges_path : forall a r, edges (a :: r) = path a (a :: r).
Proof. intros. rewrite path_edges. reflexivity. Qed.
Lemma winding_loop_sum : forall pt first poly wn, winding_loop pt first poly wn = (wn + zsum (map (fun e => cross pt (fst e) (snd e)) (path first poly)))%Z.
Proof.
  intros pt first. induction poly as [|p poly IH]; intros wn; [cbn; lia|]. cbn [winding_loop path map fst snd]. rewrite IH. cbn [zsum fold_right]. fold (zsum (map (fun e => cross pt (fst e) (snd e)) (path first poly))). set (q := match poly with [] => first | q :: _ => q end). unfold cross.
  destruct (Qle_bool (snd p) (snd pt)); [destruct (Qlt_bool (snd pt) (snd q)); [destruct (is_left p q pt)|]|destruct (Qle_bool (snd q) (snd pt)); [destruct (negb (is_left p q pt))|]]; lia.
Qed.
Lemma winding_sum : forall pt poly, winding_number_poly pt poly = zsum (map (fun e => cross pt (fst e) (snd e)) (edges poly)).
Proof. intros pt [|a r]; [reflexivity|]. unfold winding_number_poly. rewrite winding_loop_sum, <- edges_path. lia. Qed.

Lemma is_left_orient : forall a b p, is_left a b p = Qlt_bool 0 (orient a b p).
Proof. reflexivity. Qed.
Lemma Qle_bool_iff' : forall a b, reflect (a <= b)%Q (Qle_bool a b).
Proof. intros. destruct (Qle_bool a b) eqn:E; constructor; [apply Qle_bool_iff; auto|]. rewrite <- Qle_bool_iff. congruence. Qed.
Lemma Qlt_bool_iff' : forall a b, reflect (a < b)%Q (Qlt_bool a b).
Proof. intros. destruct (Qlt_bool a b) eqn:E; constructor; [apply Qlt_bool_iff; auto|]. rewrite <- Qlt_bool_iff. congruence. Qed.
Ltac qcase := match goal with
  | |- context [Qle_bool ?a ?b] => destruct (Qle_bool_iff' a b)
  | |- context [Qlt_bool ?a ?b] => destruct (Qlt_bool_iff' a b)
  end.

(** Edges which do not count. *)
Lemma cross_above : forall pt a b, (snd pt < snd a)%Q -> (snd pt < snd b)%Q -> cross pt a b = 0%Z.
Proof. intros pt a b A B. unfold cross. repeat qcase; cbn [negb]; auto; lra. Qed.
Lemma cross_below : forall pt a b, (snd a <= snd pt)%Q -> (snd b <= snd pt)%Q -> cross pt a b = 0%Z.
Proof. intros pt a b A B. unfold cross. repeat qcase; cbn [negb]; auto; lra. Qed.
Lemma cross_right : forall pt a b, (fst a < fst pt)%Q -> (fst b < fst pt)%Q -> cross pt a b = 0%Z.
Proof.
  intros pt a b A B. unfold cross. rewrite is_left_orient. unfold orient. qcase; qcase; auto; qcase; cbn [negb]; auto; exfalso; nra.
Qed.
(** On the left of the contour each edge counts as the change of side. *)
Definition above (pt a : point) : Z := if Qlt_bool (snd pt) (snd a) then 1%Z else 0%Z.
Lemma cross_left : forall pt a b, (fst pt < fst a)%Q -> (fst pt < fst b)%Q -> cross pt a b = (above pt b - above pt a)%Z.
Proof.
  intros pt a b A B. unfold cross, above. rewrite is_left_orient. unfold orient. repeat qcase; cbn [negb]; auto; try lia; exfalso; nra.
Qed.
Lemma edges_telescope : forall (f : point -> Z) poly, zsum (map (fun e => (f (snd e) - f (fst e))%Z) (edges poly)) = 0%Z.
Proof.
  intros f [|a r]; [reflexivity|]. rewrite edges_path. enough (H : forall l first, zsum (map (fun e => (f (snd e) - f (fst e))%Z) (path first l)) = match l with [] => 0%Z | x :: _ => (f first - f x)%Z end) by (rewrite H; lia).
  induction l as [|x l IH]; intros first; [reflexivity|]. cbn [path map zsum fold_right fst snd]. fold (zsum (map (fun e => (f (snd e) - f (fst e))%Z) (path first l))). rewrite IH. destruct l; lia.
Qed.
Lemma edges_In : forall poly e, In e (edges poly) -> In (fst e) poly /\ In (snd e) poly.
Proof.
  intros [|a r] [p q] I; [destruct I|]. unfold edges in I. split; [apply (in_combine_l _ _ _ _ I)|]. apply in_combine_r in I. cbn [snd]. apply in_app_or in I as [I|[<-|[]]]; [right; auto|left; auto].
Qed.
Lemma zsum_zero : forall {T} (f : T -> Z) l, (forall x, In x l -> f x = 0%Z) -> zsum (map f l) = 0%Z.
Proof. induction l as [|x l IH]; intros H; [reflexivity|]. cbn [map zsum fold_right]. fold (zsum (map f l)). rewrite (H x (or_introl eq_refl)), IH; [reflexivity|]. intros; apply H; right; auto. Qed.
Lemma zsum_ext : forall {T} (f g : T -> Z) l, (forall x, In x l -> f x = g x) -> zsum (map f l) = zsum (map g l).
Proof. intros T f g l H. rewrite (map_ext_in f g l H). auto. Qed.

Lemma winding_outside : forall poly pt, outside_box poly pt -> winding_number_poly pt poly = 0%Z.
Proof.
  intros poly pt O. rewrite winding_sum. destruct O as [O|[O|[O|O]]].
  - rewrite (zsum_ext _ (fun e => (above pt (snd e) - above pt (fst e))%Z)); [apply edges_telescope|]. intros e I. apply edges_In in I as [A B]. apply cross_left; auto.
  - apply zsum_zero. intros e I. apply edges_In in I as [A B]. apply cross_right; auto.
  - apply zsum_zero. intros e I. apply edges_In in I as [A B]. apply cross_above; auto.
  - apply zsum_zero. intros e I. apply edges_In in I as [A B]. apply cross_below; apply Qlt_le_weak; auto.
Qed.
(** The upper side of the box is outside too. *)
Lemma winding_top : forall poly pt, (forall v, In v poly -> (snd v <= snd pt)%Q) -> winding_number_poly pt poly = 0%Z.
Proof. intros poly pt O. rewrite winding_sum. apply zsum_zero. intros e I. apply edges_In in I as [A B]. apply cross_below; auto. Qed.

(** ** Turning the list of vertices, repeated vertices *)
Lemma cross_self : forall pt a, cross pt a a = 0%Z.
Proof. intros pt a. unfold cross. repeat qcase; auto; lra. Qed.
Lemma path_app : forall first l x r, path first (l ++ x :: r) = path x l ++ path first (x :: r).
Proof.
  intros first. induction l as [|p l IH]; intros x r; [reflexivity|]. cbn [app path]. rewrite IH. cbn [app]. f_equal. f_equal. destruct l; reflexivity.
Qed.
Lemma edges_rotate : forall a l, Permutation (edges (l ++ [a])) (edges (a :: l)).
Proof.
  intros a [|b l]; [apply Permutation_refl|]. cbn [app]. rewrite !edges_path. change (b :: l ++ [a]) with ((b :: l) ++ a :: []). rewrite (path_app b (b :: l) a []). change (path a (a :: b :: l)) with ((a, b) :: path a (b :: l)). cbn [path]. cbn [app]. apply Permutation_sym.
  change (((a, b) :: (b, match l with [] => a | q :: _ => q end) :: path a l)) with ((a, b) :: (path a (b :: l))). change ((b, match l with [] => a | q :: _ => q end) :: path a l ++ [(a, b)]) with (path a (b :: l) ++ [(a, b)]). apply Permutation_cons_append.
Qed.
Lemma zsum_perm : forall l l', Permutation l l' -> zsum l = zsum l'.
Proof. induction 1; cbn [zsum fold_right] in *; try fold (zsum l) in *; try fold (zsum l') in *; lia. Qed.
Lemma winding_rotate : forall pt a l, winding_number_poly pt (l ++ [a]) = winding_number_poly pt (a :: l).
Proof. intros. rewrite !winding_sum. apply zsum_perm. apply Permutation_map. apply edges_rotate. Qed.
Lemma winding_rotations : forall pt l r, winding_number_poly pt (l ++ r) = winding_number_poly pt (r ++ l).
Proof.
  intros pt l r. revert l. induction r as [|a r IH]; intros l; [rewrite app_nil_r; auto|]. replace (l ++ a :: r) with ((l ++ [a]) ++ r) by (rewrite <- app_assoc; auto). rewrite IH, app_assoc, winding_rotate. reflexivity.
Qed.

(** The value does not depend on the fractions used for the coordinates. *)
Lemma cross_comp : forall pt pt' a a' b b', same pt pt' -> same a a' -> same b b' -> cross pt a b = cross pt' a' b'.
Proof.
  intros pt pt' a a' b b' [X1 X2] [A1 A2] [B1 B2]. unfold cross. rewrite !is_left_orient. assert (E : (orient a b pt == orient a' b' pt')%Q) by (unfold orient; rewrite X1, X2, A1, A2, B1, B2; reflexivity).
  repeat qcase; cbn [negb]; auto; exfalso; lra.
Qed.
Lemma same_refl : forall p, same p p. Proof. split; reflexivity. Qed.
Lemma winding_comp : forall pt pt' poly, same pt pt' -> winding_number_poly pt poly = winding_number_poly pt' poly.
Proof. intros pt pt' poly S. rewrite !winding_sum. apply zsum_ext. intros e _. apply cross_comp; auto using same_refl. Qed.

(** Points equal to the first one at the end. *)
Lemma winding_repeat_one : forall pt a l q, same q a -> winding_number_poly pt (a :: l ++ [q]) = winding_number_poly pt (a :: l).
Proof.
  intros pt a l q S. rewrite !winding_sum, !edges_path. change (a :: l ++ [q]) with ((a :: l) ++ q :: []). rewrite (path_app a (a :: l) q []). rewrite map_app, zsum_app. cbn [path map zsum fold_right fst snd]. rewrite (cross_comp pt pt q a a a) by auto using same_refl. rewrite cross_self.
  assert (H : forall l, zsum (map (fun e => cross pt (fst e) (snd e)) (path q l)) = zsum (map (fun e => cross pt (fst e) (snd e)) (path a l))).
  { induction l0 as [|p l0 IH]; [reflexivity|]. cbn [path map zsum fold_right fst snd]. fold (zsum (map (fun e => cross pt (fst e) (snd e)) (path q l0))) (zsum (map (fun e => cross pt (fst e) (snd e)) (path a l0))). rewrite IH. f_equal. destruct l0; [apply cross_comp; auto using same_refl|auto]. }
  fold (zsum (map (fun e => cross pt (fst e) (snd e)) (path q l))) (zsum (map (fun e => cross pt (fst e) (snd e)) (path a l))). rewrite H. rewrite Z.add_0_r. f_equal. destruct l; [apply cross_comp; auto using same_refl|auto].
Qed.
Lemma winding_repeat : forall pt a l qs, (forall q, In q qs -> same q a) -> winding_number_poly pt (a :: l ++ qs) = winding_number_poly pt (a :: l).
Proof.
  intros pt a l qs. revert l. induction qs as [|q qs IH]; intros l H; [rewrite app_nil_r; auto|]. replace (l ++ q :: qs) with ((l ++ [q]) ++ qs) by (rewrite <- app_assoc; auto). rewrite IH by (intros; apply H; right; auto). apply winding_repeat_one. apply H. left. auto.
Qed.

(** ** reduce_size *)
Lemma same_point_iff : forall p q, same_point p q = true <-> same p q.
Proof. intros p q. unfold same_point, same. rewrite andb_true_iff, !Qeq_bool_iff. tauto. Qed.
Lemma last_other_spec : forall first poly i, i <= length poly ->
  match last_other first poly i with
  | Some k => 1 <= k <= i /\ (exists p, nth_error poly (k - 1) = Some p /\ ~ same p first) /\ forall j p, k <= j < i -> nth_error poly j = Some p -> same p first
  | None => forall j p, j < i -> nth_error poly j = Some p -> same p first
  end.
Proof.
  intros first poly. induction i as [|i IH]; intros L; cbn [last_other]; [intros; lia|]. destruct (nth_error_lt_Some poly i ltac:(lia)) as [p P]. rewrite P. cbn [bind]. destruct (same_point p first) eqn:SP; cbn [negb].
  - apply same_point_iff in SP. specialize (IH ltac:(lia)). destruct (last_other first poly i) as [k|].
    + destruct IH as (A & B & C). split; [lia|]. split; [auto|]. intros j q J N. destruct (Nat.eq_dec j i) as [->|]; [congruence|apply (C j q); [lia|auto]].
    + intros j q J N. destruct (Nat.eq_dec j i) as [->|]; [congruence|apply (IH j q); [lia|auto]].
  - split; [lia|]. split; [|intros; lia]. exists p. split; [replace (S i - 1) with i by lia; auto|]. intros H. apply same_point_iff in H. congruence.
Qed.
Lemma reduce_size_spec : forall first r, match reduce_size (first :: r) with
  | Some l => exists k rest, first :: r = l ++ rest /\ (forall q, In q rest -> same q first) /\ l = firstn (Nat.max 3 k) (first :: r) /\ 2 <= k <= length (first :: r) /\ exists p, nth_error (first :: r) (k - 1) = Some p /\ ~ same p first
  | None => forall q, In q r -> same q first
  end.
Proof.
  intros first r. unfold reduce_size. pose proof (last_other_spec first (first :: r) (length (first :: r)) (le_n _)) as H. destruct (last_other first (first :: r) (length (first :: r))) as [k|]; cbn [bind].
  - destruct H as (A & (p & P & NP) & C). exists k, (skipn (Nat.max 3 k) (first :: r)). split; [rewrite firstn_skipn; auto|]. split.
    + intros q I. apply In_nth_error in I as (j & J). assert (J' : nth_error (first :: r) (Nat.max 3 k + j) = Some q). { rewrite <- J. clear. revert r first. induction (Nat.max 3 k) as [|n IH]; intros r first; [auto|]. destruct r as [|b r]; [cbn [skipn plus nth_error]; destruct (n + j); destruct j; cbn; destruct n; auto|]. cbn [plus skipn nth_error]. apply IH. }
      apply (C (Nat.max 3 k + j) q); [|auto]. apply nth_error_Some_lt in J'. lia.
    + split; [auto|]. split; [|eauto]. split; [|lia]. destruct (Nat.eq_dec k 1) as [->|]; [|lia]. cbn in P. injection P as <-. exfalso. apply NP. apply same_refl.
  - intros q I. apply In_nth_error in I as (j & J). apply (H (S j) q); [|auto]. cbn [length]. apply nth_error_Some_lt in J. lia.
Qed.
Lemma winding_reduce : forall pt poly l, reduce_size poly = Some l -> winding_number_poly pt l = winding_number_poly pt poly.
Proof.
  intros pt [|first r] l E; [discriminate|]. pose proof (reduce_size_spec first r) as H. rewrite E in H. destruct H as (k & rest & A & B & C & _ & _). rewrite A. destruct l as [|a l]; [destruct (Nat.max 3 k) eqn:M in C; [lia|discriminate]|]. cbn [app] in A. injection A as -> _. cbn [app]. symmetry. apply winding_repeat. auto.
Qed.

(** ** Reversal *)
Lemma orient_swap : forall a b p, (orient b a p == - orient a b p)%Q.
Proof. intros. unfold orient. ring. Qed.
Lemma cross_swap : forall pt a b, ~ on_segment a b pt -> cross pt b a = (- cross pt a b)%Z.
Proof.
  intros pt a b N. unfold cross. rewrite !is_left_orient. pose proof (orient_swap a b pt) as E.
  assert (NZ : ((snd a <= snd pt /\ snd pt < snd b) \/ (snd b <= snd pt /\ snd pt < snd a))%Q -> ~ (orient a b pt == 0)%Q).
  { intros H Z. apply N. exists ((snd pt - snd a) / (snd b - snd a))%Q. unfold orient in Z. assert (D : ~ (snd b - snd a == 0)%Q) by lra.
    assert (T : ((snd pt - snd a) / (snd b - snd a) * (snd b - snd a) == snd pt - snd a)%Q) by (field; auto). set (t := ((snd pt - snd a) / (snd b - snd a))%Q) in *. clearbody t.
    split; [split; destruct H as [[H1 H2]|[H1 H2]]; nra|]. split; [|lra]. assert (Q : ((fst pt - fst a - t * (fst b - fst a)) * (snd b - snd a) == 0)%Q) by nra. apply Qmult_integral in Q as [Q|Q]; [lra|contradiction]. }
  repeat qcase; cbn [negb]; auto; exfalso; try lra; (assert (M : ~ (orient a b pt == 0)%Q) by (apply NZ; lra)); apply M; lra.
Qed.
(** Consecutive pairs of an open path. *)
Fixpoint steps (l : list point) : list (point * point) :=
  match l with a :: (b :: _) as r => (a, b) :: steps r | _ => [] end.
Lemma steps_cons : forall a b r, steps (a :: b :: r) = (a, b) :: steps (b :: r).
Proof. reflexivity. Qed.
Lemma path_steps : forall l first, path first l = steps (l ++ [first]).
Proof. induction l as [|a [|b r] IH]; intros first; [reflexivity|reflexivity|]. change ((a :: b :: r) ++ [first]) with (a :: b :: (r ++ [first])). rewrite steps_cons. cbn [path]. f_equal. exact (IH first). Qed.
Lemma steps_app : forall l x r, steps (l ++ x :: r) = steps (l ++ [x]) ++ steps (x :: r).
Proof.
  induction l as [|a [|b l] IH]; intros x r; [reflexivity| |].
  - cbn [app]. rewrite !steps_cons. reflexivity.
  - cbn [app] in *. rewrite !steps_cons. rewrite IH. reflexivity.
Qed.
Definition swap (e : point * point) : point * point := (snd e, fst e).
Lemma steps_rev : forall l, steps (rev l) = rev (map swap (steps l)).
Proof.
  induction l as [|a [|b r] IH]; [reflexivity|reflexivity|]. rewrite steps_cons. cbn [map rev] in *. rewrite <- IH, <- app_assoc. cbn [app]. rewrite (steps_app (rev r) b [a]). reflexivity.
Qed.
Lemma edges_steps : forall a r, edges (a :: r) = steps (a :: r ++ [a]).
Proof. intros. rewrite edges_path, path_steps. reflexivity. Qed.
Lemma edges_rev : forall poly, Permutation (edges (rev poly)) (map swap (edges poly)).
Proof.
  intros [|a r]; [apply Permutation_refl|]. cbn [rev]. eapply perm_trans; [apply edges_rotate|]. rewrite !edges_steps. replace (a :: rev r ++ [a]) with (rev (a :: r ++ [a])) by (cbn [rev]; rewrite rev_app_distr; reflexivity). rewrite steps_rev. apply Permutation_sym, Permutation_rev.
Qed.
Lemma zsum_opp : forall {T} (f : T -> Z) l, zsum (map (fun x => (- f x)%Z) l) = (- zsum (map f l))%Z.
Proof. induction l as [|x l IH]; [reflexivity|]. cbn [map zsum fold_right]. fold (zsum (map f l)) (zsum (map (fun x => (- f x)%Z) l)). rewrite IH. lia. Qed.
Lemma winding_rev : forall pt poly, (forall e, In e (edges poly) -> ~ on_segment (fst e) (snd e) pt) -> winding_number_poly pt (rev poly) = (- winding_number_poly pt poly)%Z.
Proof.
  intros pt poly N. rewrite !winding_sum. rewrite (zsum_perm _ _ (Permutation_map _ (edges_rev poly))). rewrite map_map. rewrite <- zsum_opp. apply zsum_ext. intros e I. apply cross_swap. auto.
Qed.

(** ** Triangles *)
Lemma winding_triangle_sum : forall pt a b c, winding_number_poly pt [a; b; c] = (cross pt a b + cross pt b c + cross pt c a)%Z.
Proof. intros. rewrite winding_sum. cbn. lia. Qed.
Lemma not_on_cross : forall pt a b, ~ on_segment a b pt -> ((snd a <= snd pt /\ snd pt < snd b) \/ (snd b <= snd pt /\ snd pt < snd a))%Q -> ~ (orient a b pt == 0)%Q.
Proof.
  intros pt a b N H Z. apply N. exists ((snd pt - snd a) / (snd b - snd a))%Q. unfold orient in Z. assert (D : ~ (snd b - snd a == 0)%Q) by lra.
  assert (T : ((snd pt - snd a) / (snd b - snd a) * (snd b - snd a) == snd pt - snd a)%Q) by (field; auto). set (t := ((snd pt - snd a) / (snd b - snd a))%Q) in *. clearbody t.
  split; [split; destruct H as [[H1 H2]|[H1 H2]]; nra|]. split; [|lra]. assert (Q : ((fst pt - fst a - t * (fst b - fst a)) * (snd b - snd a) == 0)%Q) by nra. apply Qmult_integral in Q as [Q|Q]; [lra|contradiction].
Qed.
Lemma barycentric : forall a b c p, (orient b c p * (snd a - snd p) + orient c a p * (snd b - snd p) + orient a b p * (snd c - snd p) == 0)%Q.
Proof. intros. unfold orient. ring. Qed.
Lemma level_off : forall a b c p, ~ on_segment a b p -> (snd a == snd p)%Q -> (snd b == snd p)%Q -> (orient b c p * orient c a p <= 0)%Q.
Proof.
  intros a b c p N A B. assert (H : (0 < (fst p - fst a) * (fst p - fst b))%Q).
  { apply Qnot_le_lt. intros H. apply N. destruct (Qeq_dec (fst a) (fst b)) as [E|E].
    - exists 0%Q. split; [lra|]. split; [|rewrite A, B; ring]. assert (Q : ((fst p - fst a) * (fst p - fst a) == 0)%Q) by (rewrite <- E in H; apply Qle_antisym; [exact H|]; set (d := (fst p - fst a)%Q); clearbody d; nra). apply Qmult_integral in Q as [Q|Q]; lra.
    - exists ((fst p - fst a) / (fst b - fst a))%Q. assert (D : ~ (fst b - fst a == 0)%Q) by lra.
      assert (T : ((fst p - fst a) / (fst b - fst a) * (fst b - fst a) == fst p - fst a)%Q) by (field; auto). set (t := ((fst p - fst a) / (fst b - fst a))%Q) in *. clearbody t.
      split; [|split; [lra|rewrite A, B; ring]].
      assert (P : (fst p == fst a + t * (fst b - fst a))%Q) by lra. rewrite P in H. assert (Y : (0 < (fst b - fst a) * (fst b - fst a))%Q) by (destruct (Q_dec (fst a) (fst b)) as [[D1|D1]|D1]; [nra|nra|contradiction]).
      assert (W : (t * (t - 1) * ((fst b - fst a) * (fst b - fst a)) <= 0)%Q) by lra. clear - Y W. split; apply Qnot_lt_le; intros X; [assert (0 < t * (t - 1))%Q by nra|assert (0 < t * (t - 1))%Q by nra]; nra. }
  assert (R : (orient b c p * orient c a p == - ((fst p - fst a) * (fst p - fst b)) * ((snd c - snd p) * (snd c - snd p)))%Q).
  { unfold orient. rewrite A, B. ring. }
  rewrite R. clear R. set (u := ((fst p - fst a) * (fst p - fst b))%Q) in *. set (d := (snd c - snd p)%Q). clearbody u d. assert (0 <= d * d)%Q by nra. nra.
Qed.
Lemma third_sign : forall p q r u v w, (0 < p -> 0 < q -> u <= 0 -> v <= 0 -> 0 < w -> p * u + q * v + r * w == 0 -> (u == 0 -> v == 0 -> p * q <= 0) -> 0 < r)%Q.
Proof.
  intros p q r u v w P Q U V W E L. assert (PQ : (0 < p * q)%Q) by nra. assert (pu : (p * u <= 0)%Q) by nra. assert (qv : (q * v <= 0)%Q) by nra.
  apply Qnot_le_lt. intros R. assert (rw : (r * w <= 0)%Q) by nra. assert (Z1 : (p * u == 0)%Q) by lra. assert (Z2 : (q * v == 0)%Q) by lra.
  apply Qmult_integral in Z1 as [Z1|Z1]; [lra|]. apply Qmult_integral in Z2 as [Z2|Z2]; [lra|]. specialize (L Z1 Z2). lra.
Qed.
Lemma third_sign_neg : forall p q r u v w, (p < 0 -> q < 0 -> u <= 0 -> v <= 0 -> 0 < w -> p * u + q * v + r * w == 0 -> (u == 0 -> v == 0 -> p * q <= 0) -> r < 0)%Q.
Proof.
  intros p q r u v w P Q U V W E L. enough (0 < - r)%Q by lra. apply (third_sign (- p) (- q) (- r) u v w); try lra.
Qed.
Lemma two_up : forall p q r u v w, (0 < p -> 0 < q -> 0 < u -> 0 < v -> w <= 0 -> p * u + q * v + r * w == 0 -> 0 < r)%Q.
Proof. intros p q r u v w P Q U V W E. assert (0 < p * u)%Q by nra. assert (0 < q * v)%Q by nra. apply Qnot_le_lt. intros R. assert (0 <= r * w)%Q by nra. lra. Qed.
Lemma two_up_neg : forall p q r u v w, (p < 0 -> q < 0 -> 0 < u -> 0 < v -> w <= 0 -> p * u + q * v + r * w == 0 -> r < 0)%Q.
Proof. intros p q r u v w P Q U V W E. enough (0 < - r)%Q by lra. apply (two_up (- p) (- q) (- r) u v w); lra. Qed.
Lemma winding_triangle : forall pt a b c, ~ on_segment a b pt -> ~ on_segment b c pt -> ~ on_segment c a pt -> inside_triangle a b c pt (winding_number_poly pt [a; b; c]).
Proof.
  intros pt a b c NA NB NC. rewrite winding_triangle_sum. unfold inside_triangle. pose proof (not_on_cross pt a b NA) as A. pose proof (not_on_cross pt b c NB) as B. pose proof (not_on_cross pt c a NC) as C. pose proof (barycentric a b c pt) as E.
  pose proof (level_off a b c pt NA) as LA. pose proof (level_off b c a pt NB) as LB. pose proof (level_off c a b pt NC) as LC.
  assert (F : (snd a == snd pt)%Q -> (snd b == snd pt)%Q -> (orient a b pt == 0)%Q) by (intros F1 F2; unfold orient; rewrite F1, F2; ring).
  unfold cross. rewrite !is_left_orient. set (oa := orient a b pt) in *. set (ob := orient b c pt) in *. set (oc := orient c a pt) in *. clearbody oa ob oc. clear NA NB NC. destruct pt as [x y], a as [ax ay], b as [bx b_y], c as [cx cy]. cbn [fst snd] in *.
  destruct (Qle_bool_iff' ay y); destruct (Qle_bool_iff' b_y y); destruct (Qle_bool_iff' cy y);
  destruct (Qlt_bool_iff' y ay); try (exfalso; lra); destruct (Qlt_bool_iff' y b_y); try (exfalso; lra); destruct (Qlt_bool_iff' y cy); try (exfalso; lra).
  { right; right. split; [reflexivity|].
    assert (H : (0 < oa /\ 0 < ob /\ 0 < oc)%Q \/ (oa < 0 /\ ob < 0 /\ oc < 0)%Q -> False).
    { intros H. assert (ay == y /\ b_y == y)%Q as [H1 H2]. { destruct H as [(X & Y & Z)|(X & Y & Z)]; split; apply Qle_antisym; auto; apply Qnot_lt_le; intros H; nra. } specialize (F H1 H2). destruct H as [(X & _)|(X & _)]; lra. }
    split; intros X; apply H; auto. }
  all: try (assert (ZA : ~ (oa == 0)%Q) by (apply A; lra)); try (assert (ZB : ~ (ob == 0)%Q) by (apply B; lra)); try (assert (ZC : ~ (oc == 0)%Q) by (apply C; lra)); clear A B C F.
  all: repeat qcase; cbn [negb].
  all: try (right; right; split; [reflexivity|]; split; intros (X & Y & Z); lra).
  all: try (right; right; split; [reflexivity|]; split; intros (X & Y & Z); nra).
  all: assert (LA' : (ay - y == 0 -> b_y - y == 0 -> ob * oc <= 0)%Q) by (intros; apply LA; lra); assert (LB' : (b_y - y == 0 -> cy - y == 0 -> oc * oa <= 0)%Q) by (intros; apply LB; lra); assert (LC' : (cy - y == 0 -> ay - y == 0 -> oa * ob <= 0)%Q) by (intros; apply LC; lra).
  all: try (left; split; [reflexivity|]; repeat split; try lra;
    first [ apply (third_sign ob oc oa (ay - y) (b_y - y) (cy - y)); (lra || assumption) | apply (third_sign oc oa ob (b_y - y) (cy - y) (ay - y)); (lra || assumption) | apply (third_sign oa ob oc (cy - y) (ay - y) (b_y - y)); (lra || assumption)
          | apply (two_up ob oc oa (ay - y) (b_y - y) (cy - y)); lra | apply (two_up oc oa ob (b_y - y) (cy - y) (ay - y)); lra | apply (two_up oa ob oc (cy - y) (ay - y) (b_y - y)); lra ]).
  all: try (right; left; split; [reflexivity|]; repeat split; try lra;
    first [ apply (third_sign_neg ob oc oa (ay - y) (b_y - y) (cy - y)); (lra || assumption) | apply (third_sign_neg oc oa ob (b_y - y) (cy - y) (ay - y)); (lra || assumption) | apply (third_sign_neg oa ob oc (cy - y) (ay - y) (b_y - y)); (lra || assumption)
          | apply (two_up_neg ob oc oa (ay - y) (b_y - y) (cy - y)); lra | apply (two_up_neg oc oa ob (b_y - y) (cy - y) (ay - y)); lra | apply (two_up_neg oa ob oc (cy - y) (ay - y) (b_y - y)); lra ]).
Qed.

(** ** Fan of triangles *)
Lemma zsum_add : forall {T} (f g : T -> Z) l, zsum (map (fun x => (f x + g x)%Z) l) = (zsum (map f l) + zsum (map g l))%Z.
Proof. induction l as [|x l IH]; [reflexivity|]. cbn [map zsum fold_right]. fold (zsum (map f l)) (zsum (map g l)) (zsum (map (fun x => (f x + g x)%Z) l)). rewrite IH. lia. Qed.
Lemma winding_fan : forall pt o poly, (forall v, In v poly -> ~ on_segment o v pt) ->
  winding_number_poly pt poly = zsum (map (fun e => winding_number_poly pt [o; fst e; snd e]) (edges poly)).
Proof.
  intros pt o poly N. rewrite winding_sum.
  rewrite (zsum_ext (fun e => winding_number_poly pt [o; fst e; snd e]) (fun e => (cross pt (fst e) (snd e) + - (cross pt o (snd e) - cross pt o (fst e)))%Z) (edges poly)).
  - rewrite zsum_add, zsum_opp, (edges_telescope (fun v => cross pt o v)). lia.
  - intros e I. rewrite winding_triangle_sum. apply edges_In in I as [I1 I2]. rewrite (cross_swap pt o (snd e)) by auto. lia.
Qed.
