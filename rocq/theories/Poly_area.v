(** Lemmas on the area of contours. *)
From Coq Require Import List Arith ZArith QArith Qabs Bool Lia Lqa Permutation.
From Verif Require Import Base TrackObs_more Qaux Poly_model Poly_spec Poly_wind.
Import ListNotations.
Local Close Scope Q_scope.
Local Open Scope nat_scope.

Lemma qsum_cons : forall x l, qsum (x :: l) = (x + qsum l)%Q. Proof. reflexivity. Qed.
Lemma qsum_app : forall a b, (qsum (a ++ b) == qsum a + qsum b)%Q.
Proof. induction a as [|x a IH]; intros b; cbn [app]; [cbn; lra|]. rewrite !qsum_cons, IH. lra. Qed.
Lemma qsum_perm : forall a b, Permutation a b -> (qsum a == qsum b)%Q.
Proof. induction 1; rewrite ?qsum_cons; [reflexivity|rewrite IHPermutation; reflexivity|lra|rewrite IHPermutation1; auto]. Qed.
Lemma qsum_ext : forall {T} (f g : T -> Q) l, (forall x, In x l -> f x == g x)%Q -> (qsum (map f l) == qsum (map g l))%Q.
Proof. induction l as [|x l IH]; intros H; [reflexivity|]. cbn [map]. rewrite !qsum_cons, IH, (H x); [reflexivity|left; auto|intros; apply H; right; auto]. Qed.
Lemma qsum_scale : forall {T} (f : T -> Q) k l, (qsum (map (fun x => k * f x) l) == k * qsum (map f l))%Q.
Proof. induction l as [|x l IH]; [cbn; lra|]. cbn [map]. rewrite !qsum_cons, IH. lra. Qed.
Lemma qsum_add : forall {T} (f g : T -> Q) l, (qsum (map (fun x => f x + g x) l) == qsum (map f l) + qsum (map g l))%Q.
Proof. induction l as [|x l IH]; [cbn; lra|]. cbn [map]. rewrite !qsum_cons, IH. lra. Qed.

Definition prod (e : point * point) : Q := (fst (fst e) * snd (snd e) - fst (snd e) * snd (fst e))%Q.
Lemma shoelace_eq : forall poly, shoelace poly = qsum (map prod (edges poly)). Proof. reflexivity. Qed.
Lemma shoelace_rotate : forall l r, (shoelace (l ++ r) == shoelace (r ++ l))%Q.
Proof.
  enough (H : forall a l, (shoelace (l ++ [a]) == shoelace (a :: l))%Q).
  { intros l; induction l as [|x l IH]; intros r; [rewrite app_nil_r; reflexivity|]. cbn [app]. rewrite <- H, <- app_assoc, IH, <- app_assoc. reflexivity. }
  intros a l. unfold shoelace. apply qsum_perm, Permutation_map, edges_rotate.
Qed.
Lemma shoelace_rev : forall poly, (shoelace (rev poly) == - shoelace poly)%Q.
Proof.
  intros poly. rewrite !shoelace_eq. rewrite (qsum_perm _ _ (Permutation_map prod (edges_rev poly))). rewrite map_map.
  rewrite (qsum_ext (fun e => prod (swap e)) (fun e => (-1) * prod e)%Q); [rewrite qsum_scale; lra|]. intros e _. unfold prod, swap. cbn [fst snd]. ring.
Qed.
Lemma edges_qtelescope : forall (f : point -> Q) poly, (qsum (map (fun e => f (snd e) - f (fst e)) (edges poly)) == 0)%Q.
Proof.
  intros f [|a r]; [reflexivity|]. rewrite edges_path. enough (H : forall l first, (qsum (map (fun e => f (snd e) - f (fst e)) (path first l)) == match l with [] => 0 | x :: _ => f first - f x end)%Q) by (rewrite H; lra).
  induction l as [|x l IH]; intros first; [reflexivity|]. cbn [path map fst snd]. rewrite qsum_cons, IH. destruct l; lra.
Qed.
(** The sum of the signed areas of the triangles seen from any point. *)
Lemma shoelace_fan : forall o poly, (shoelace poly == qsum (map (fun e => orient o (fst e) (snd e)) (edges poly)))%Q.
Proof.
  intros o poly. rewrite shoelace_eq.
  rewrite (qsum_ext (fun e => orient o (fst e) (snd e)) (fun e => prod e + ((snd o * fst (snd e) - fst o * snd (snd e)) - (snd o * fst (fst e) - fst o * snd (fst e))))%Q).
  - rewrite qsum_add, (edges_qtelescope (fun p => snd o * fst p - fst o * snd p)%Q). lra.
  - intros e _. unfold orient, prod. ring.
Qed.
Lemma edges_map : forall f poly, edges (map f poly) = map (fun e : point * point => (f (fst e), f (snd e))) (edges poly).
Proof.
  intros f [|a r]; [reflexivity|]. cbn [map]. rewrite !edges_path. replace (f a :: map f r) with (map f (a :: r)) by reflexivity.
  enough (H : forall l, path (f a) (map f l) = map (fun e : point * point => (f (fst e), f (snd e))) (path a l)) by apply H.
  clear. induction l as [|x l IH]; [reflexivity|]. cbn [map path fst snd]. rewrite IH. destruct l; reflexivity.
Qed.
Lemma shoelace_translate : forall dx dy poly, (shoelace (map (fun p => (fst p + dx, snd p + dy)) poly) == shoelace poly)%Q.
Proof.
  intros. rewrite (shoelace_fan (dx, dy)), (shoelace_fan (0, 0)%Q). rewrite edges_map, map_map. apply qsum_ext. intros e _. unfold orient. cbn [fst snd]. ring.
Qed.
Lemma shoelace_scale : forall k m poly, (shoelace (map (fun p => (k * fst p, m * snd p)) poly) == k * m * shoelace poly)%Q.
Proof. intros. rewrite !shoelace_eq, edges_map, map_map, <- qsum_scale. apply qsum_ext. intros e _. unfold prod. cbn [fst snd]. ring. Qed.
Lemma shoelace_repeat_one : forall a l q, same q a -> (shoelace (a :: l ++ [q]) == shoelace (a :: l))%Q.
Proof.
  intros a l q [S1 S2]. rewrite !shoelace_eq, !edges_steps, <- app_assoc. cbn [app]. replace (a :: l ++ [q; a]) with ((a :: l) ++ q :: [a]) by reflexivity. rewrite steps_app, map_app, qsum_app.
  cbn [app]. replace (qsum (map prod (steps [q; a]))) with (prod (q, a) + 0)%Q by reflexivity.
  assert (H : forall l b, (qsum (map prod (steps (b :: l ++ [q]))) == qsum (map prod (steps (b :: l ++ [a]))))%Q).
  { induction l0 as [|x l0 IH]; intros b; cbn [app]; rewrite !steps_cons; cbn [map]; rewrite !qsum_cons; [cbn; unfold prod; cbn [fst snd]; rewrite S1, S2; reflexivity|]. rewrite IH. reflexivity. }
  rewrite H. unfold prod at 2. cbn [fst snd]. rewrite S1, S2. ring.
Qed.
Lemma shoelace_repeat : forall a l qs, (forall q, In q qs -> same q a) -> (shoelace (a :: l ++ qs) == shoelace (a :: l))%Q.
Proof.
  intros a l qs. induction qs as [|q qs IH] using rev_ind; intros H; [rewrite app_nil_r; reflexivity|].
  rewrite app_assoc, shoelace_repeat_one; [apply IH; intros; apply H, in_or_app; auto|apply H, in_or_app; right; left; auto].
Qed.

(** ** The loop *)
Fixpoint tsum (p c : point) (rest : list point) : Q :=
  match rest with [] => 0%Q | n :: r => (fst c * (snd n - snd p) + tsum c n r)%Q end.
Lemma nth_middle : forall {T} (l : list T) x r, nth_error (l ++ x :: r) (length l) = Some x.
Proof. intros. rewrite nth_error_app2, Nat.sub_diag; auto. Qed.
Lemma area_loop_sum : forall rest pre p c acc, exists q, area_loop (pre ++ p :: c :: rest) (seq (length pre + 1) (length rest)) acc = Some q /\ (q == acc + tsum p c rest)%Q.
Proof.
  induction rest as [|n rest IH]; intros pre p c acc; cbn [length seq area_loop tsum].
  - exists acc. split; [reflexivity|lra].
  - replace (length pre + 1 - 1) with (length pre) by lia. rewrite nth_middle.
    replace (length pre + 1) with (length (pre ++ [p])) by (rewrite app_length; reflexivity).
    replace (nth_error (pre ++ p :: c :: n :: rest) (length (pre ++ [p]))) with (Some c) by (symmetry; replace (pre ++ p :: c :: n :: rest) with ((pre ++ [p]) ++ c :: n :: rest) by (rewrite <- app_assoc; reflexivity); apply nth_middle).
    replace (1 + length (pre ++ [p])) with (length (pre ++ [p; c])) by (rewrite !app_length; cbn; lia).
    replace (nth_error (pre ++ p :: c :: n :: rest) (length (pre ++ [p; c]))) with (Some n) by (symmetry; replace (pre ++ p :: c :: n :: rest) with ((pre ++ [p; c]) ++ n :: rest) by (rewrite <- app_assoc; reflexivity); apply nth_middle).
    cbn [bind]. destruct (IH (pre ++ [p]) c n (acc + fst c * (snd n - snd p))%Q) as [q [E1 E2]].
    replace (length (pre ++ [p]) + 1) with (S (length (pre ++ [p]))) in E1 by lia. rewrite <- app_assoc in E1. cbn [app] in E1. exists q. split; [exact E1|]. rewrite E2. lra.
Qed.
Lemma last_default : forall {T} (l : list T) x d d', last (x :: l) d = last (x :: l) d'.
Proof. induction l as [|y l IH]; intros; [reflexivity|]. change (last (x :: y :: l) d) with (last (y :: l) d). change (last (x :: y :: l) d') with (last (y :: l) d'). apply IH. Qed.
Lemma tsum_steps : forall rest p c z, (tsum p c (rest ++ [z]) == qsum (map prod (steps (c :: rest ++ [z]))) + fst z * snd (last (c :: rest) c) - fst c * snd p)%Q.
Proof.
  induction rest as [|n rest IH]; intros p c z; cbn [app].
  - cbn. unfold prod. cbn [fst snd]. ring.
  - cbn [tsum]. rewrite steps_cons. cbn [map]. rewrite qsum_cons, IH. change (last (c :: n :: rest) c) with (last (n :: rest) c). rewrite (last_default rest n c n). unfold prod at 2. cbn [fst snd]. ring.
Qed.
Lemma poly_area_eq : forall a m z, exists q, poly_area (a :: m ++ [z]) = Some q /\
  (q == Qabs (qsum (map prod (steps (a :: m ++ [z]))) + (fst z - fst a) * snd (last (a :: m) a)) * (1 # 2))%Q.
Proof.
  intros a m z. unfold poly_area.
  replace (pyget (a :: m ++ [z]) 0) with (Some a) by reflexivity.
  assert (L2 : pyget (a :: m ++ [z]) (-2) = Some (last (a :: m) a)).
  { change (a :: m ++ [z]) with ((a :: m) ++ [z]). destruct (exists_last (l := a :: m)) as [f [x E]]; [discriminate|]. rewrite E, last_last, <- app_assoc. unfold pyget, pyidx. cbn [app].
    assert (LL : length (f ++ [x; z]) = length f + 2) by (rewrite app_length; reflexivity). rewrite LL. change (0 <=? -2)%Z with false. cbv iota.
    replace (- Z.of_nat (length f + 2) <=? -2)%Z with true by (symmetry; apply Z.leb_le; lia). replace (Z.to_nat (-2 + Z.of_nat (length f + 2))) with (length f) by lia. cbn [bind]. apply nth_middle. }
  rewrite L2. destruct m as [|b m].
  - cbn [app bind]. replace (pyget [a; z] 1) with (Some z) by reflexivity. cbn [bind length seq Nat.sub area_loop]. eexists. split; [reflexivity|]. apply Qmult_comp; [|reflexivity]. apply Qabs_wd. cbn. unfold prod. cbn [fst snd]. ring.
  - replace (pyget (a :: (b :: m) ++ [z]) 1) with (Some b) by (symmetry; apply (pyget_of_nat (a :: (b :: m) ++ [z]) 1)). cbn [bind app].
    destruct (area_loop_sum (m ++ [z]) [] a b (fst a * (snd b - snd (last (a :: b :: m) a)))%Q) as [q [E1 E2]]. cbn [length app] in *. replace (S (S (length (m ++ [z]))) - 1 - 1) with (length (m ++ [z])) by lia. change (0 + 1) with 1 in E1. rewrite E1. cbn [bind].
    eexists. split; [reflexivity|]. apply Qmult_comp; [|reflexivity]. apply Qabs_wd. rewrite E2, tsum_steps, steps_cons. cbn [map]. rewrite qsum_cons. change (last (a :: b :: m) a) with (last (b :: m) a). rewrite (last_default m b a b). unfold prod at 2. cbn [fst snd]. ring.
Qed.
Lemma poly_area_closed : forall a m z, same z a -> exists q, poly_area (a :: m ++ [z]) = Some q /\ (q == Qabs (shoelace (a :: m)) * (1 # 2))%Q.
Proof.
  intros a m z [S1 S2]. destruct (poly_area_eq a m z) as [q [E1 E2]]. exists q. split; [exact E1|]. rewrite E2. apply Qmult_comp; [|reflexivity]. apply Qabs_wd. rewrite S1, shoelace_eq, edges_steps.
  assert (H : forall l b, (qsum (map prod (steps (b :: l ++ [z]))) == qsum (map prod (steps (b :: l ++ [a]))))%Q).
  { induction l as [|x l IH]; intros b; cbn [app]; rewrite !steps_cons; cbn [map]; rewrite !qsum_cons; [cbn; unfold prod; cbn [fst snd]; rewrite S1, S2; reflexivity|]. rewrite IH. reflexivity. }
  rewrite H. ring.
Qed.
