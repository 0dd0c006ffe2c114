(** Property C124: convex hull of a contour. *)
From Coq Require Import List Arith QArith Bool Lia Lqa.
From Verif Require Import Base Qaux Poly_model Hull_model.
Import ListNotations.
Local Open Scope nat_scope.

(** ** Specification *)
(** Some of the vertices, in the same order. *)
Inductive Subseq {A} : list A -> list A -> Prop :=
| SubNil : forall l, Subseq [] l
| SubKeep : forall a k l, Subseq k l -> Subseq (a :: k) (a :: l)
| SubDrop : forall a k l, Subseq k l -> Subseq k (a :: l).
(** Vertices (the last one repeats the first one), seen from the first of the leftmost. *)
Definition from_left (poly : list point) (f : point) (others : list point) : Prop :=
  exists a t, removelast poly = a ++ f :: t /\ others = t ++ a /\
    (forall p, In p a -> fst f < fst p)%Q /\ (forall p, In p t -> fst f <= fst p)%Q.

(** ** The search on the list seen from the leftmost vertex *)
Inductive wraps (f : point) : point -> point -> list point -> list point -> Prop :=
| W_end : forall p0 p1, wraps f p0 p1 [] (if is_left p0 p1 f then [p1] else [])
| W_out : forall p0 p1 l q r out, Forall (fun p => is_left p0 p1 p = true) l -> is_left p0 p1 q = false -> wraps f p0 q r out -> wraps f p0 p1 (l ++ q :: r) out
| W_keep : forall p0 p1 q r out, Forall (fun p => is_left p0 p1 p = true) (q :: r) -> wraps f p1 q r out -> wraps f p0 p1 (q :: r) (p1 :: out).

Lemma Qlt_irr : forall x, Qlt_bool x x = false.
Proof. intros x. apply not_true_is_false. intros H. apply Qlt_bool_iff in H. lra. Qed.
Lemma Qlt_bool_ext : forall a b c d, (a == c)%Q -> (b == d)%Q -> Qlt_bool a b = Qlt_bool c d.
Proof. intros a b c d E F. apply eq_true_iff_eq. rewrite !Qlt_bool_iff. rewrite E, F. tauto. Qed.
Lemma is_left_self : forall p q, is_left p q p = false.
Proof. intros p q. unfold is_left. rewrite (Qlt_bool_ext _ _ 0 0); [apply Qlt_irr|lra|ring]. Qed.
Lemma is_left_cycle : forall p q r, is_left p q r = is_left q r p.
Proof. intros p q r. unfold is_left. apply Qlt_bool_ext; [reflexivity|ring]. Qed.

Section Search.
Variable poly : list point.
Variables nb i_first : nat.
Hypothesis HN : 1 <= nb.
Hypothesis HL : length poly = nb + 1.
Hypothesis HF : i_first < nb.
(** position at offset [k] *)
Definition off (k : nat) : nat := (i_first + k) mod nb.
Definition pt (k : nat) : point := at_ poly (off k).
Lemma off_lt : forall k, off k < nb.
Proof. intros. apply Nat.mod_upper_bound. lia. Qed.
Lemma off_next : forall k, (off k + 1) mod nb = off (S k).
Proof. intros k. unfold off. rewrite Nat.add_mod_idemp_l by lia. f_equal. lia. Qed.
Lemma off_val : forall k, k <= nb -> off k = if i_first + k <? nb then i_first + k else i_first + k - nb.
Proof.
  intros k K. unfold off. destruct (Nat.ltb_spec (i_first + k) nb) as [L|L]; [apply Nat.mod_small; exact L|]. symmetry. apply (Nat.mod_unique _ _ 1); lia.
Qed.
Lemma off_inj : forall j k, j < nb -> k < nb -> off j = off k -> j = k.
Proof. intros j k J K. rewrite !off_val by lia. destruct (Nat.ltb_spec (i_first + j) nb), (Nat.ltb_spec (i_first + k) nb); lia. Qed.
Lemma off_first : forall k, 1 <= k <= nb -> (off k =? i_first) = (k =? nb).
Proof. intros k K. rewrite off_val by lia. destruct (Nat.ltb_spec (i_first + k) nb); apply eq_true_iff_eq; rewrite !Nat.eqb_eq; lia. Qed.
Lemma off_last : forall k, k < nb -> (off k =? (i_first + nb - 1) mod nb) = (k =? nb - 1).
Proof.
  intros k K. replace ((i_first + nb - 1) mod nb) with (off (nb - 1)) by (unfold off; f_equal; lia). apply eq_true_iff_eq. rewrite !Nat.eqb_eq. split; [apply off_inj; lia|intros ->; reflexivity].
Qed.
Definition rest (k : nat) : list point := map pt (seq k (nb - k)).
Lemma rest_cons : forall k, k < nb -> rest k = pt k :: rest (S k).
Proof. intros k K. unfold rest. replace (nb - k) with (S (nb - S k)) by lia. reflexivity. Qed.
Lemma rest_nil : forall k, nb <= k -> rest k = [].
Proof. intros k K. unfold rest. replace (nb - k) with 0 by lia. reflexivity. Qed.

Lemma scan_spec : forall fuel p0 p1 j, 1 <= j < nb -> nb - j <= fuel ->
  (scan poly nb i_first fuel p0 p1 (off j) = Some None /\ Forall (fun p => is_left p0 p1 p = true) (rest j)) \/
  exists m l, j <= m < nb /\ scan poly nb i_first fuel p0 p1 (off j) = Some (Some (off m)) /\ rest j = l ++ pt m :: rest (S m) /\
    Forall (fun p => is_left p0 p1 p = true) l /\ is_left p0 p1 (pt m) = false.
Proof.
  induction fuel as [|fuel IH]; intros p0 p1 j J F; [lia|]. cbn [scan]. fold (pt j). destruct (is_left p0 p1 (pt j)) eqn:E.
  - rewrite off_next, off_first by lia. destruct (Nat.eqb_spec (S j) nb) as [Q|Q].
    + left. split; [reflexivity|]. rewrite rest_cons by lia. rewrite (rest_nil (S j)) by lia. repeat constructor. exact E.
    + destruct (IH p0 p1 (S j)) as [[A B]|(m & l & M & A & R & FL & NL)]; [lia|lia| |].
      * left. split; [exact A|]. rewrite rest_cons by lia. constructor; [exact E|exact B].
      * right. exists m, (pt j :: l). split; [lia|]. split; [exact A|]. split; [rewrite rest_cons, R by lia; reflexivity|]. split; [constructor; [exact E|exact FL]|exact NL].
  - right. exists j, []. split; [lia|]. split; [reflexivity|]. split; [apply rest_cons; lia|]. split; [constructor|exact E].
Qed.
Lemma turns_spec : forall fuel p0 k, 1 <= k -> S k < nb -> nb - k <= fuel ->
  exists l, turns poly nb i_first fuel p0 (pt k) (off k) = Some l /\ wraps (at_ poly i_first) p0 (pt k) (rest (S k)) (map (at_ poly) l).
Proof.
  induction fuel as [|fuel IH]; intros p0 k K1 K F; [lia|]. cbn [turns]. rewrite off_next. destruct (scan_spec nb p0 (pt k) (S k)) as [[A B]|(m & l & M & A & R & FL & NL)]; [lia|lia| |]; rewrite A; cbn [bind].
  - rewrite off_last by lia. fold (pt (S k)). rewrite (rest_cons (S k)) in * by lia. destruct (Nat.eqb_spec (S k) (nb - 1)) as [Q|Q].
    + eexists. split; [reflexivity|]. cbn [app map]. fold (pt k). apply W_keep; [exact B|]. rewrite (rest_nil (S (S k))) by lia. replace (map (at_ poly) (if is_left (pt k) (pt (S k)) (at_ poly i_first) then [off (S k)] else [])) with (if is_left (pt k) (pt (S k)) (at_ poly i_first) then [pt (S k)] else []) by (match goal with |- context [if ?b then _ else _] => destruct b end; reflexivity). apply W_end.
    + destruct (IH (pt k) (S k)) as (out & E & W); [lia|lia|lia|]. rewrite E. cbn [bind]. eexists. split; [reflexivity|]. cbn [app map]. fold (pt k). apply W_keep; [exact B|exact W].
  - rewrite off_first by lia. destruct (Nat.eqb_spec m nb) as [Z|_]; [lia|]. cbn [negb]. rewrite off_last by lia. fold (pt m). rewrite R. destruct (Nat.eqb_spec m (nb - 1)) as [Q|Q].
    + eexists. split; [reflexivity|]. cbn [app]. apply W_out; [exact FL|exact NL|]. rewrite (rest_nil (S m)) by lia. replace (map (at_ poly) (if is_left p0 (pt m) (at_ poly i_first) then [off m] else [])) with (if is_left p0 (pt m) (at_ poly i_first) then [pt m] else []) by (match goal with |- context [if ?b then _ else _] => destruct b end; reflexivity). apply W_end.
    + destruct (IH p0 m) as (out & E & W); [lia|lia|lia|]. rewrite E. cbn [bind]. eexists. split; [reflexivity|]. cbn [app]. apply W_out; assumption.
Qed.
(** the whole search *)
Lemma search_spec : exists l, turns poly nb i_first (nb + 1) (at_ poly i_first) (at_ poly (off 1)) (off 1) = Some l /\
  match rest 1 with [] => l = [] | p1 :: r => wraps (at_ poly i_first) (at_ poly i_first) p1 r (map (at_ poly) l) end.
Proof.
  assert (S0 : forall p1, scan poly nb i_first nb (at_ poly i_first) p1 i_first = Some (Some i_first)). { intros p1. destruct nb as [|n] eqn:E; [lia|]. cbn [scan]. rewrite is_left_self. reflexivity. }
  destruct (Nat.eq_dec nb 1) as [E1|N1].
  - exists []. rewrite (rest_nil 1) by lia. split; [|reflexivity]. rewrite Nat.add_1_r. cbn [turns]. assert (O : forall k, off k = i_first) by (intros k; pose proof (off_lt k); lia). rewrite off_next, !O. rewrite S0. cbn [bind]. rewrite Nat.eqb_refl. cbn [negb]. assert (P : (i_first =? (i_first + nb - 1) mod nb) = true). { apply Nat.eqb_eq. assert ((i_first + nb - 1) mod nb < nb) by (apply Nat.mod_upper_bound; lia). lia. } rewrite P. rewrite is_left_self. reflexivity.
  - rewrite (rest_cons 1) by lia. fold (pt 1). destruct (Nat.eq_dec nb 2) as [E2|N2].
    + exists []. rewrite (rest_nil 2) by lia. split.
      * rewrite Nat.add_1_r. cbn [turns]. rewrite off_next. assert (O : off 2 = i_first) by (apply Nat.eqb_eq; rewrite off_first by lia; apply Nat.eqb_eq; lia). rewrite O, S0. cbn [bind]. rewrite Nat.eqb_refl. cbn [negb]. rewrite off_last by lia. replace (1 =? nb - 1) with true by (symmetry; apply Nat.eqb_eq; lia). fold (pt 1). rewrite is_left_self. reflexivity.
      * replace (map (at_ poly) []) with (if is_left (at_ poly i_first) (pt 1) (at_ poly i_first) then [pt 1] else []) by (rewrite is_left_self; reflexivity). constructor.
    + apply (turns_spec (nb + 1) (at_ poly i_first) 1); lia.
Qed.
End Search.

Lemma argmin_loop_spec : forall l i best m, best < i ->
  (argmin_loop i best m l = best /\ (forall p, In p l -> m <= fst p)%Q) \/
  exists a f t, l = a ++ f :: t /\ argmin_loop i best m l = i + length a /\ (fst f < m)%Q /\ (forall p, In p a -> fst f < fst p)%Q /\ (forall p, In p t -> fst f <= fst p)%Q.
Proof.
  induction l as [|p l IH]; intros i best m B; cbn [argmin_loop]; [left; split; [reflexivity|intros p []]|].
  destruct (Qlt_bool (fst p) m) eqn:E.
  - apply Qlt_bool_iff in E. right. destruct (IH (S i) i (fst p)) as [[A M]|(a & f & t & -> & A & L & LA & LT)]; [lia| |].
    + exists [], p, l. split; [reflexivity|]. split; [rewrite A; cbn; lia|]. split; [exact E|]. split; [intros q []|exact M].
    + exists (p :: a), f, t. split; [reflexivity|]. split; [rewrite A; cbn; lia|]. split; [lra|]. split; [|exact LT]. intros q [<-|Q]; [exact L|exact (LA q Q)].
  - apply Qlt_bool_false in E. destruct (IH (S i) best m) as [[A M]|(a & f & t & -> & A & L & LA & LT)]; [lia| |].
    + left. split; [exact A|]. intros q [<-|Q]; [exact E|exact (M q Q)].
    + right. exists (p :: a), f, t. split; [reflexivity|]. split; [rewrite A; cbn; lia|]. split; [exact L|]. split; [|exact LT]. intros q [<-|Q]; [lra|exact (LA q Q)].
Qed.
Lemma argmin_x_spec : forall l, l <> [] -> exists a f t, l = a ++ f :: t /\ argmin_x l = Some (length a) /\ (forall p, In p a -> fst f < fst p)%Q /\ (forall p, In p t -> fst f <= fst p)%Q.
Proof.
  intros [|p l] N; [congruence|]. unfold argmin_x. destruct (argmin_loop_spec l 1 0 (fst p)) as [[A M]|(a & f & t & -> & A & L & LA & LT)]; [lia| |].
  - exists [], p, l. rewrite A. split; [reflexivity|]. split; [reflexivity|]. split; [intros q []|exact M].
  - exists (p :: a), f, t. rewrite A. split; [reflexivity|]. split; [reflexivity|]. split; [|exact LT]. intros q [<-|Q]; [exact L|exact (LA q Q)].
Qed.
Lemma removelast_firstn' : forall (l : list point), removelast l = firstn (length l - 1) l.
Proof.
  induction l as [|a l IH]; [reflexivity|]. destruct l as [|b l]; [reflexivity|]. change (removelast (a :: b :: l)) with (a :: removelast (b :: l)). rewrite IH. cbn [length]. replace (S (S (length l)) - 1) with (S (S (length l) - 1)) by lia. reflexivity.
Qed.
(** rotation of the list and offsets *)
Lemma rest_rotation : forall (poly : list point) nb a f t, length poly = nb + 1 -> firstn nb poly = a ++ f :: t -> rest poly nb (length a) 1 = t ++ a /\ at_ poly (length a) = f /\ length a < nb.
Proof.
  intros poly nb a f t HL E. assert (LN : length (firstn nb poly) = nb) by (rewrite firstn_length; lia). assert (LS : length a + S (length t) = nb) by (rewrite <- LN, E, app_length; reflexivity).
  assert (AT : forall i, i < nb -> at_ poly i = nth i (a ++ f :: t) (0, 0)%Q). { intros i I. rewrite <- E. unfold at_. rewrite <- (firstn_skipn nb poly) at 1. rewrite app_nth1 by (rewrite LN; exact I). reflexivity. }
  split; [|split; [|lia]].
  - apply (nth_ext _ _ (pt poly nb (length a) 0) (0, 0)%Q); unfold rest; rewrite map_length, seq_length; [rewrite app_length; lia|]. intros k K. rewrite map_nth with (d := 0). rewrite seq_nth by exact K. unfold pt. rewrite (off_val poly) by lia. destruct (Nat.ltb_spec (length a + (1 + k)) nb) as [L|L].
    + rewrite AT by exact L. rewrite app_nth2 by lia. replace (length a + (1 + k) - length a) with (S k) by lia. cbn [nth]. rewrite app_nth1 by lia. reflexivity.
    + rewrite AT by lia. rewrite app_nth1 by lia. rewrite app_nth2 by lia. f_equal. lia.
  - rewrite AT by lia. rewrite app_nth2 by lia. rewrite Nat.sub_diag. reflexivity.
Qed.
(** the function is this search *)
Lemma hull_wraps : forall poly, 2 <= length poly -> exists f others out, from_left poly f others /\ get_convex_hull poly = Some (f :: out ++ [f]) /\
  match others with [] => out = [] | p1 :: r => wraps f f p1 r out end.
Proof.
  intros poly L. set (nb := length poly - 1). assert (HL : length poly = nb + 1) by (unfold nb; lia). assert (NE : firstn nb poly <> []). { intros Q. apply (f_equal (@length _)) in Q. rewrite firstn_length in Q. cbn in Q. lia. }
  destruct (argmin_x_spec _ NE) as (a & f & t & E & A & LA & LT). destruct (rest_rotation poly nb a f t HL E) as (R & F & I). destruct (search_spec poly nb (length a) ltac:(lia) HL I) as (l & S & W).
  exists f, (t ++ a), (map (at_ poly) l). split; [exists a, t; rewrite removelast_firstn'; fold nb; auto|]. split.
  - unfold get_convex_hull, hull_indices. fold nb. rewrite A. cbn [bind]. change ((length a + 1) mod nb) with (off nb (length a) 1). rewrite S. cbn [bind]. rewrite map_cons, map_app. cbn [map]. rewrite F. reflexivity.
  - rewrite R, F in W. destruct (t ++ a); [subst l; reflexivity|exact W].
Qed.
Lemma from_left_unique : forall poly f others f' others', from_left poly f others -> from_left poly f' others' -> f = f' /\ others = others'.
Proof.
  intros poly f o f' o' (a & t & E & -> & LA & LT) (a' & t' & E' & -> & LA' & LT'). rewrite E in E'. assert (LL : length a = length a').
  { destruct (Nat.lt_trichotomy (length a) (length a')) as [X|[X|X]]; [exfalso|exact X|exfalso].
    - assert (In f a'). { apply (f_equal (fun l => nth (length a) l (0, 0)%Q)) in E'. rewrite app_nth2, Nat.sub_diag in E' by lia. cbn in E'. rewrite app_nth1 in E' by lia. rewrite E'. apply nth_In. exact X. }
      assert (In f' t). { assert (Y : nth_error (a ++ f :: t) (length a') = Some f') by (rewrite E', nth_error_app2, Nat.sub_diag by lia; reflexivity). rewrite nth_error_app2 in Y by lia. destruct (length a' - length a) as [|n] eqn:Z; [lia|]. apply (nth_error_In t n). exact Y. }
      specialize (LA' f H). specialize (LT f' H0). lra.
    - assert (In f' a). { apply (f_equal (fun l => nth (length a') l (0, 0)%Q)) in E'. rewrite (app_nth2 a'), Nat.sub_diag in E' by lia. cbn in E'. rewrite app_nth1 in E' by lia. rewrite <- E'. apply nth_In. exact X. }
      assert (In f t'). { assert (Y : nth_error (a' ++ f' :: t') (length a) = Some f) by (rewrite <- E', nth_error_app2, Nat.sub_diag by lia; reflexivity). rewrite nth_error_app2 in Y by lia. destruct (length a - length a') as [|n] eqn:Z; [lia|]. apply (nth_error_In t' n). exact Y. }
      specialize (LA f' H). specialize (LT' f H0). lra. }
  assert (a = a' /\ f :: t = f' :: t') as [-> Q]. { clear - E' LL. revert a' LL E'. induction a as [|x a IH]; intros [|y a'] LL E'; try discriminate LL; [split; [reflexivity|exact E']|]. injection E' as -> E'. injection LL as LL. destruct (IH a' LL E') as [-> Q]. auto. }
  injection Q as -> ->. auto.
Qed.

(** ** Theorems *)
Lemma Subseq_refl : forall {A} (l : list A), Subseq l l.
Proof. induction l; constructor; assumption. Qed.
Lemma Subseq_app : forall {A} (k l m : list A), Subseq k m -> Subseq k (l ++ m).
Proof. intros A k l m H. induction l; [exact H|]. cbn. constructor. assumption. Qed.
Lemma wraps_sub : forall f p0 p1 r out, wraps f p0 p1 r out -> Subseq out (p1 :: r).
Proof.
  intros f p0 p1 r out W. induction W as [p0 p1|p0 p1 l q r out FL NL W IH|p0 p1 q r out FL W IH].
  - destruct (is_left p0 p1 f); repeat constructor.
  - apply SubDrop. apply Subseq_app. exact IH.
  - apply SubKeep. exact IH.
Qed.
Lemma wraps_edges : forall f p0 p1 r out, wraps f p0 p1 r out -> forall o1 u v o2, p0 :: out = o1 ++ u :: v :: o2 ->
  exists b c, p1 :: r = b ++ v :: c /\ Forall (fun p => is_left u v p = true) c /\ (c = [] -> is_left u v f = true) /\ Subseq o2 c.
Proof.
  intros f p0 p1 r out W. induction W as [p0 p1|p0 p1 l q r out FL NL W IH|p0 p1 q r out FL W IH]; intros o1 u v o2 E.
  - destruct (is_left p0 p1 f) eqn:L.
    + destruct o1 as [|x [|y o1]]; cbn in E; try discriminate E; [|destruct o1; discriminate E]. injection E as <- <- <-. exists [], []. split; [reflexivity|]. split; [constructor|]. split; [intros _; exact L|constructor].
    + destruct o1 as [|x [|y o1]]; discriminate E.
  - destruct (IH _ _ _ _ E) as (b & c & Q & F & LC & SU). exists (p1 :: l ++ b), c. split; [cbn; rewrite <- app_assoc, <- Q; reflexivity|]. auto.
  - destruct o1 as [|x o1].
    + injection E as <- <- E. subst o2. exists [], (q :: r). split; [reflexivity|]. split; [exact FL|]. split; [discriminate|]. exact (wraps_sub _ _ _ _ _ W).
    + injection E as <- E. destruct (IH _ _ _ _ E) as (b & c & Q & F & LC & SU). exists (p1 :: b), c. split; [rewrite Q; reflexivity|]. auto.
Qed.
(** The search always ends; it fails only without vertex.  The result starts and ends
    on the first of the leftmost vertices, its other positions are vertices of the
    contour, in the order of the contour; every vertex of the contour which comes after
    an edge of the result is strictly on the left of this edge. *)
Theorem C124_vertices : forall poly,
  (get_convex_hull poly = None <-> length poly < 2) /\
  forall f others, 2 <= length poly -> from_left poly f others ->
  exists out, get_convex_hull poly = Some (f :: out ++ [f]) /\ Subseq out others /\
    forall o1 u v o2, f :: out = o1 ++ u :: v :: o2 ->
      exists b c, others = b ++ v :: c /\ Forall (fun p => is_left u v p = true) c /\ (c = [] -> is_left u v f = true) /\ Subseq o2 c.
Proof.
  intros poly. split.
  - split.
    + intros H. destruct (le_lt_dec 2 (length poly)) as [L|L]; [|exact L]. destruct (hull_wraps poly L) as (f & o & out & _ & E & _). rewrite E in H. discriminate H.
    + intros L. destruct poly as [|p [|q poly]]; [reflexivity|reflexivity|cbn in L; lia].
  - intros f others L FL. destruct (hull_wraps poly L) as (f' & o' & out & FL' & E & W). destruct (from_left_unique _ _ _ _ _ FL FL') as [<- <-]. exists out. split; [exact E|]. destruct others as [|p1 r].
    + subst out. split; [constructor|]. intros o1 u v o2 Q. destruct o1 as [|x [|y o1]]; discriminate Q.
    + split; [exact (wraps_sub _ _ _ _ _ W)|]. exact (wraps_edges _ _ _ _ _ W).
Qed.
Print Assumptions C124_vertices.

(** Contours which always turn to the left (strictly), seen from any vertex. *)
Definition all_left (v : list point) : Prop := forall i j k p q r, i < j < k -> nth_error v i = Some p -> nth_error v j = Some q -> nth_error v k = Some r -> is_left p q r = true.
Definition never_left (v : list point) : Prop := forall i j k p q r, i < j < k -> nth_error v i = Some p -> nth_error v j = Some q -> nth_error v k = Some r -> is_left p q r = false.
Lemma rotate_triples : forall (b : bool) (a t : list point) f,
  (forall i j k p q r, i < j < k -> nth_error (a ++ f :: t) i = Some p -> nth_error (a ++ f :: t) j = Some q -> nth_error (a ++ f :: t) k = Some r -> is_left p q r = b) ->
  forall i j k p q r, i < j < k -> nth_error (f :: t ++ a) i = Some p -> nth_error (f :: t ++ a) j = Some q -> nth_error (f :: t ++ a) k = Some r -> is_left p q r = b.
Proof.
  intros b a t f H i j k p q r IJ P Q R. set (n := length a). set (m := S (length t)).
  assert (G : forall x y, nth_error (f :: t ++ a) x = Some y -> (x < m /\ nth_error (a ++ f :: t) (n + x) = Some y) \/ (m <= x /\ x - m < n /\ nth_error (a ++ f :: t) (x - m) = Some y)).
  { intros x y X. change (f :: t ++ a) with ((f :: t) ++ a) in X. destruct (le_lt_dec m x) as [L|L].
    - right. rewrite nth_error_app2 in X by exact L. assert (x - m < n) by (apply nth_error_Some; unfold m; cbn [length] in X; rewrite X; discriminate). split; [exact L|]. split; [exact H0|]. rewrite nth_error_app1 by exact H0. exact X.
    - left. split; [exact L|]. rewrite nth_error_app1 in X by exact L. rewrite nth_error_app2 by (unfold n; lia). replace (n + x - length a) with x by (unfold n; lia). exact X. }
  destruct (G _ _ P) as [(A & P')|(A & A' & P')], (G _ _ Q) as [(B & Q')|(B & B' & Q')], (G _ _ R) as [(C & R')|(C & C' & R')]; try lia.
  - apply (H (n + i) (n + j) (n + k)); auto; lia.
  - rewrite is_left_cycle, is_left_cycle. apply (H (k - m) (n + i) (n + j)); auto; lia.
  - rewrite is_left_cycle. apply (H (j - m) (k - m) (n + i)); auto; lia.
  - apply (H (i - m) (j - m) (k - m)); auto; lia.
Qed.
Lemma wraps_all : forall f p0 p1 r out, wraps f p0 p1 r out -> forall d, d ++ p0 :: p1 :: r = f :: tl (d ++ p0 :: p1 :: r) -> all_left (d ++ p0 :: p1 :: r) -> 3 <= length (d ++ p0 :: p1 :: r) -> out = p1 :: r.
Proof.
  intros f p0 p1 r out W. induction W as [p0 p1|p0 p1 l q r out FL NL W IH|p0 p1 q r out FL W IH]; intros d HD AL L3.
  - replace (is_left p0 p1 f) with true; [reflexivity|]. symmetry. rewrite app_length in L3. cbn in L3. rewrite <- is_left_cycle. apply (AL 0 (length d) (S (length d))); [lia|rewrite HD; reflexivity| |].
    + rewrite nth_error_app2, Nat.sub_diag by lia. reflexivity.
    + rewrite nth_error_app2 by lia. replace (S (length d) - length d) with 1 by lia. reflexivity.
  - exfalso. enough (is_left p0 p1 q = true) by congruence. apply (AL (length d) (S (length d)) (S (S (length d)) + length l)); [lia| | |].
    + rewrite nth_error_app2, Nat.sub_diag by lia. reflexivity.
    + rewrite nth_error_app2 by lia. replace (S (length d) - length d) with 1 by lia. reflexivity.
    + rewrite nth_error_app2 by lia. replace (S (S (length d)) + length l - length d) with (S (S (length l))) by lia. cbn [nth_error]. rewrite nth_error_app2, Nat.sub_diag by lia. reflexivity.
  - f_equal. apply (IH (d ++ [p0])); rewrite <- app_assoc; cbn [app]; assumption.
Qed.
Lemma wraps_none : forall f p1 r out, wraps f f p1 r out -> never_left (f :: p1 :: r) -> out = [].
Proof.
  intros f p1 r out W. remember f as p0 eqn:E in W at 2. revert E. induction W as [p0 p1|p0 p1 l q r out FL NL W IH|p0 p1 q r out FL W IH]; intros -> AL.
  - rewrite is_left_self. reflexivity.
  - apply (IH eq_refl). intros i j k p q' r' IJ P Q R. destruct i as [|i].
    + apply (AL 0 (S j + length l) (S k + length l)); [lia|exact P| |].
      * destruct j as [|j]; [lia|]. cbn [nth_error] in *. change (S (S j) + length l) with (S (S (j + length l))). cbn [nth_error]. rewrite nth_error_app2 by lia. rewrite Nat.add_sub. exact Q.
      * destruct k as [|k]; [lia|]. cbn [nth_error] in *. change (S (S k) + length l) with (S (S (k + length l))). cbn [nth_error]. rewrite nth_error_app2 by lia. rewrite Nat.add_sub. exact R.
    + destruct j as [|j]; [lia|]. destruct k as [|k]; [lia|]. apply (AL (S (S i) + length l) (S (S j) + length l) (S (S k) + length l)); [lia| | |].
      * change (S (S i) + length l) with (S (S (i + length l))). cbn [nth_error] in *. rewrite nth_error_app2 by lia. rewrite Nat.add_sub. exact P.
      * change (S (S j) + length l) with (S (S (j + length l))). cbn [nth_error] in *. rewrite nth_error_app2 by lia. rewrite Nat.add_sub. exact Q.
      * change (S (S k) + length l) with (S (S (k + length l))). cbn [nth_error] in *. rewrite nth_error_app2 by lia. rewrite Nat.add_sub. exact R.
  - exfalso. inversion FL as [|? ? X _]; subst. rewrite (AL 0 1 2 f p1 q) in X by (try lia; reflexivity). discriminate X.
Qed.
(** A contour which is already convex and described anticlockwise comes back with all its
    vertices, from the first of the leftmost. *)
Theorem C124_convex : forall poly f others, 4 <= length poly -> all_left (removelast poly) -> from_left poly f others ->
  get_convex_hull poly = Some (f :: others ++ [f]).
Proof.
  intros poly f others L AL FL. destruct (hull_wraps poly ltac:(lia)) as (f' & o' & out & FL' & E & W). destruct (from_left_unique _ _ _ _ _ FL FL') as [<- <-]. destruct FL as (a & t & RL & -> & LA & LT). rewrite RL in AL.
  assert (LN : length (t ++ a) >= 2). { apply (f_equal (@length _)) in RL. rewrite removelast_firstn', firstn_length in RL. rewrite app_length in RL |- *. cbn in RL. lia. }
  pose proof (rotate_triples true a t f AL) as AR. rewrite E. destruct (t ++ a) as [|p1 r] eqn:O; [cbn in LN; lia|]. rewrite (wraps_all f f p1 r out W []); [reflexivity|reflexivity|exact AR|cbn in *; lia].
Qed.
Print Assumptions C124_convex.
(** A contour which never turns to the left (a convex contour described clockwise, or
    vertices on a line): nothing is kept but the leftmost vertex, twice. *)
Theorem C124_clockwise_refuted : forall poly f others, 2 <= length poly -> never_left (removelast poly) -> from_left poly f others ->
  get_convex_hull poly = Some [f; f].
Proof.
  intros poly f others L AL FL. destruct (hull_wraps poly L) as (f' & o' & out & FL' & E & W). destruct (from_left_unique _ _ _ _ _ FL FL') as [<- <-]. destruct FL as (a & t & RL & -> & LA & LT). rewrite RL in AL. rewrite E. destruct (t ++ a) as [|p1 r] eqn:O; [rewrite W; reflexivity|].
  rewrite (wraps_none f p1 r out W); [reflexivity|]. rewrite <- O. exact (rotate_triples false a t f AL).
Qed.
Print Assumptions C124_clockwise_refuted.
(** An anticlockwise contour with a hollow before its leftmost vertex: the result is not
    convex; the same contour seen in a mirror ([x] changed of sign, order reversed) gives
    a convex contour. *)
Definition hollow : list point := [(0, 0); (5, -5); (10, 0); (5, 5); (3, 2); (5 # 2, 1 # 2); (0, 0)]%Q.
Definition mirrored (l : list point) : list point := rev (map (fun p => ((- fst p)%Q, snd p)) l).
Theorem C124_hollow_refuted :
  get_convex_hull hollow = Some [(0, 0); (5, -5); (10, 0); (5, 5); (3, 2); (0, 0)]%Q /\
  (match get_convex_hull hollow with Some h => convex h | None => None end) = Some false /\
  (match get_convex_hull (mirrored hollow) with Some h => convex h | None => None end) = Some true.
Proof. vm_compute. auto. Qed.
Print Assumptions C124_hollow_refuted.
(** The contour of the test suite is clockwise: the result is one vertex, and the test of
    convexity of the suite is about it. *)
Definition tested : list point := [(2, -10); (2, -9); (5 # 2, -19 # 2); (3, -9); (3, -10); (2, -10)]%Q.
Theorem C124_tested_refuted : get_convex_hull tested = Some [(2, -10); (2, -10)]%Q /\ convex [(2, -10); (2, -10)]%Q = Some true /\
  get_convex_hull (rev tested) = Some [(2, -10); (3, -10); (3, -9); (2, -9); (2, -10)]%Q.
Proof. vm_compute. auto. Qed.
Print Assumptions C124_tested_refuted.
(** A square from its third vertex, in both directions. *)
Definition square : list point := [(1, 1); (0, 1); (0, 0); (1, 0); (1, 1)]%Q.
Lemma triples_check : forall b (v : list point), (forallb (fun i => forallb (fun j => forallb (fun k => if (i <? j) && (j <? k) then Bool.eqb (is_left (nth i v (0, 0)%Q) (nth j v (0, 0)%Q) (nth k v (0, 0)%Q)) b else true) (seq 0 (length v))) (seq 0 (length v))) (seq 0 (length v)) = true) ->
  forall i j k p q r, i < j < k -> nth_error v i = Some p -> nth_error v j = Some q -> nth_error v k = Some r -> is_left p q r = b.
Proof.
  intros b v H i j k p q r IJ P Q R. assert (k < length v) by (apply nth_error_Some; rewrite R; discriminate). rewrite forallb_forall in H. specialize (H i ltac:(apply in_seq; lia)). rewrite forallb_forall in H. specialize (H j ltac:(apply in_seq; lia)). rewrite forallb_forall in H. specialize (H k ltac:(apply in_seq; lia)).
  rewrite (proj2 (Nat.ltb_lt i j)), (proj2 (Nat.ltb_lt j k)) in H by lia. cbn in H. apply eqb_prop in H. rewrite (nth_error_nth v i (0, 0)%Q P), (nth_error_nth v j (0, 0)%Q Q), (nth_error_nth v k (0, 0)%Q R) in H. exact H.
Qed.
Example C124_square : get_convex_hull square = Some [(0, 1); (0, 0); (1, 0); (1, 1); (0, 1)]%Q /\ get_convex_hull (rev square) = Some [(0, 0); (0, 0)]%Q.
Proof.
  split.
  - apply (C124_convex square (0, 1)%Q [(0, 0); (1, 0); (1, 1)]%Q); [cbn; lia|exact (triples_check true (removelast square) eq_refl)|]. exists [(1, 1)]%Q, [(0, 0); (1, 0)]%Q. split; [reflexivity|]. split; [reflexivity|]. split; intros p P; cbn in P; repeat (destruct P as [<-|P]; [cbn; lra|]); contradiction.
  - apply (C124_clockwise_refuted (rev square) (0, 0)%Q [(0, 1); (1, 1); (1, 0)]%Q); [cbn; lia|exact (triples_check false (removelast (rev square)) eq_refl)|]. exists [(1, 1); (1, 0)]%Q, [(0, 1)]%Q. split; [reflexivity|]. split; [reflexivity|]. split; intros p P; cbn in P; repeat (destruct P as [<-|P]; [cbn; lra|]); contradiction.
Qed.
