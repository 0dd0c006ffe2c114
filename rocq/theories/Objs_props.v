(** C154: datasets as objects: who shares what, the period which is kept, equality. *)
From Coq Require Import List Arith ZArith Bool QArith Lia Lqa.
Import ListNotations.
From Verif Require Import Base Objs_model.
Local Close Scope Q_scope.
Local Open Scope nat_scope.

(** ** Specification *)
(** Object changed by an operation. *)
Definition target (o : op) : option nat := match o with Append i _ => Some i | Write i _ _ => Some i | _ => None end.
(** No dataset is appended to one without rows. *)
Definition careful (h : heap) (o : op) : Prop := match o with Append i _ => rows h i <> Some [] | _ => True end.
(** States reached by programs which never append to a dataset without rows. *)
Inductive reached : heap -> Prop :=
| reached_start : reached (Heap [] [])
| reached_step : forall h o h', reached h -> careful h o -> step h o = Some h' -> reached h'.
(** Every object has an array. *)
Definition valid (h : heap) : Prop := forall i o, nth_error (objs h) i = Some o -> o_buf o < length (bufs h).
Definition is_extent (l : list row) (p : option (Q * Q)) : Prop :=
  match p with
  | None => l = []
  | Some (a, b) => (exists x, In x l /\ r_time x = a) /\ (exists x, In x l /\ r_time x = b) /\ forall x, In x l -> (a <= r_time x <= b)%Q
  end.

(** ** Lemmas *)
Lemma some_lt {A} (l : list A) i a : nth_error l i = Some a -> i < length l.
Proof. intros E. apply nth_error_Some. congruence. Qed.
Lemma nth_snoc {A} (l : list A) a i : nth_error (l ++ [a]) i = if i =? length l then Some a else nth_error l i.
Proof.
  destruct (Nat.eqb_spec i (length l)) as [->|N]; [rewrite nth_error_app2, Nat.sub_diag by lia; reflexivity|].
  destruct (Nat.ltb_spec i (length l)); [now apply nth_error_app1|]. rewrite (proj2 (nth_error_None l i)) by lia. apply nth_error_None. rewrite app_length. cbn. lia.
Qed.
Lemma nth_upd {A} (l : list A) k a i : k < length l -> nth_error (upd l k a) i = if i =? k then Some a else nth_error l i.
Proof. intros B. destruct (Nat.eqb_spec i k) as [->|N]; [now apply nth_error_upd_eq|apply nth_error_upd_neq; auto]. Qed.
Lemma valid_step h o h' : valid h -> step h o = Some h' -> valid h' /\ length (objs h) <= length (objs h') /\ length (bufs h) <= length (bufs h').
Proof.
  intros V E. assert (CR : forall l s, valid (create h l s) /\ length (objs h) <= length (objs (create h l s)) /\ length (bufs h) <= length (bufs (create h l s))).
  { intros l s. unfold create. cbn [objs bufs]. rewrite !app_length. split; [|lia]. intros i o' N. cbn [objs bufs] in *. rewrite app_length. cbn [length]. rewrite nth_snoc in N. destruct (i =? _); [injection N as <-; cbn; lia|apply V in N; lia]. }
  destruct o as [l s|i|i j|i k r|i]; cbn [step] in E.
  - injection E as <-. apply CR.
  - destruct (nth_error (objs h) i) as [a|]; [cbn [bind] in E|discriminate]. destruct (nth_error (bufs h) (o_buf a)) as [l|]; [cbn [bind] in E|discriminate]. injection E as <-. apply CR.
  - unfold append in E. destruct (nth_error (objs h) i) as [a|] eqn:A; [cbn [bind] in E|discriminate]. destruct (nth_error (objs h) j) as [b|] eqn:B; [cbn [bind] in E|discriminate].
    destruct (nth_error (bufs h) (o_buf a)) as [la|]; [cbn [bind] in E|discriminate]. destruct (nth_error (bufs h) (o_buf b)) as [lb|] eqn:LB; [cbn [bind] in E|discriminate].
    pose proof (some_lt _ _ _ A) as HA. destruct (length la =? 0); [|destruct (length lb =? 0); [injection E as <-; split; [exact V|lia]|]]; injection E as <-; cbn [objs bufs]; rewrite length_upd; (split; [|rewrite ?app_length; lia]).
    + intros x o N. cbn [objs bufs] in *. rewrite nth_upd in N by exact HA. destruct (x =? i); [injection N as <-; cbn; now apply some_lt in LB|now apply V in N].
    + intros x o N. cbn [objs bufs] in *. rewrite app_length. cbn [length]. rewrite nth_upd in N by exact HA. destruct (x =? i); [injection N as <-; cbn; lia|apply V in N; lia].
  - unfold write in E. destruct (nth_error (objs h) i) as [a|]; [cbn [bind] in E|discriminate]. destruct (nth_error (bufs h) (o_buf a)) as [la|]; [cbn [bind] in E|discriminate].
    destruct (store la k r) as [la'|]; [cbn [bind] in E|discriminate]. injection E as <-. cbn [objs bufs]. rewrite length_upd. split; [|lia]. intros x o N. cbn [objs bufs] in *. rewrite length_upd. now apply V in N.
  - unfold period in E. destruct (nth_error (objs h) i) as [a|] eqn:A; [cbn [bind] in E|discriminate]. pose proof (some_lt _ _ _ A) as HA.
    destruct (o_period a) as [p|]; [cbn [bind fst] in E; injection E as <-; split; [exact V|lia]|]. destruct (nth_error (bufs h) (o_buf a)) as [la|] eqn:LA; [cbn [bind fst] in E|discriminate].
    injection E as <-. cbn [objs bufs]. rewrite length_upd. split; [|lia]. intros x o N. cbn [objs bufs] in *. rewrite nth_upd in N by exact HA. destruct (x =? i); [injection N as <-; cbn; now apply some_lt in LA|now apply V in N].
Qed.
Lemma rows_create h l s k : valid h -> k < length (objs h) -> rows (create h l s) k = rows h k.
Proof.
  intros V B. unfold rows, create. cbn [objs bufs]. rewrite nth_snoc. destruct (Nat.eqb_spec k (length (objs h))); [lia|]. destruct (nth_error (objs h) k) as [o|] eqn:N; [cbn [bind]|reflexivity].
  rewrite nth_snoc. apply V in N. destruct (Nat.eqb_spec (o_buf o) (length (bufs h))); [lia|reflexivity].
Qed.
Definition separate (h : heap) : Prop := forall i j a b, nth_error (objs h) i = Some a -> nth_error (objs h) j = Some b -> o_buf a = o_buf b -> i = j.
Lemma separate_step h o h' : valid h -> separate h -> careful h o -> step h o = Some h' -> separate h'.
Proof.
  intros V S C E.
  assert (FRESH : forall b, b < length (bufs h) -> b <> length (bufs h)) by (intros; lia).
  assert (CR : forall l s, separate (create h l s)).
  { intros l s i j a b A B Q. unfold create in A, B. cbn [objs] in A, B. rewrite nth_snoc in A, B. destruct (Nat.eqb_spec i (length (objs h))) as [Ei|Ni], (Nat.eqb_spec j (length (objs h))) as [Ej|Nj]; [lia| | |now apply (S i j a b)].
    - injection A as <-. apply V in B. cbn in Q. lia.
    - injection B as <-. apply V in A. cbn in Q. lia. }
  destruct o as [l s|i|i j|i k r|i]; cbn [step] in E.
  - injection E as <-. apply CR.
  - destruct (nth_error (objs h) i) as [a|]; [cbn [bind] in E|discriminate]. destruct (nth_error (bufs h) (o_buf a)) as [l|]; [cbn [bind] in E|discriminate]. injection E as <-. apply CR.
  - unfold append in E. cbn [careful] in C. unfold rows in C. destruct (nth_error (objs h) i) as [a|] eqn:A; [cbn [bind] in *|discriminate]. destruct (nth_error (objs h) j) as [b|] eqn:B; [cbn [bind] in E|discriminate].
    destruct (nth_error (bufs h) (o_buf a)) as [la|]; [cbn [bind] in *|discriminate]. destruct (nth_error (bufs h) (o_buf b)) as [lb|] eqn:LB; [cbn [bind] in E|discriminate].
    pose proof (some_lt _ _ _ A) as HA. destruct la as [|ra la]; [congruence|]. cbn [length Nat.eqb] in E. destruct (length lb =? 0); injection E as <-; [exact S|].
    intros x y ax ay X Y Q. cbn [objs] in X, Y. rewrite nth_upd in X, Y by exact HA. destruct (Nat.eqb_spec x i) as [Ex|Nx], (Nat.eqb_spec y i) as [Ey|Ny]; [lia| | |now apply (S x y ax ay)].
    + injection X as <-. apply V in Y. cbn in Q. lia.
    + injection Y as <-. apply V in X. cbn in Q. lia.
  - unfold write in E. destruct (nth_error (objs h) i) as [a|]; [cbn [bind] in E|discriminate]. destruct (nth_error (bufs h) (o_buf a)) as [la|]; [cbn [bind] in E|discriminate].
    destruct (store la k r) as [la'|]; [cbn [bind] in E|discriminate]. injection E as <-. exact S.
  - unfold period in E. destruct (nth_error (objs h) i) as [a|] eqn:A; [cbn [bind] in E|discriminate]. pose proof (some_lt _ _ _ A) as HA.
    destruct (o_period a) as [p|]; [cbn [bind fst] in E; injection E as <-; exact S|]. destruct (nth_error (bufs h) (o_buf a)) as [la|] eqn:LA; [cbn [bind fst] in E|discriminate].
    injection E as <-. intros x y ax ay X Y Q. cbn [objs] in X, Y. rewrite nth_upd in X, Y by exact HA. destruct (Nat.eqb_spec x i) as [->|Nx], (Nat.eqb_spec y i) as [->|Ny]; [reflexivity| | |now apply (S x y ax ay)].
    + injection X as <-. now apply (S i y a ay).
    + injection Y as <-. now apply (S x i ax a).
Qed.
Lemma reached_ok h : reached h -> valid h /\ separate h.
Proof.
  induction 1 as [|h o h' R [V S] C E]; [split; [intros [|i] o|intros [|i] j a b]; discriminate|]. split; [apply (valid_step h o h' V E)|now apply (separate_step h o h')].
Qed.

(** ** Theorems *)
(** In a program which never appends to a dataset without rows, an operation changes no
    other dataset than the one it is done on; so a copy and its original live apart. *)
Theorem C154_isolation : forall h o h' k, reached h -> step h o = Some h' -> k < length (objs h) -> target o <> Some k -> rows h' k = rows h k.
Proof.
  intros h o h' k R E B T. destruct (reached_ok h R) as [V S]. destruct o as [l s|i|i j|i x r|i]; cbn [step target] in *.
  - injection E as <-. now apply rows_create.
  - destruct (nth_error (objs h) i) as [a|]; [cbn [bind] in E|discriminate]. destruct (nth_error (bufs h) (o_buf a)) as [l|]; [cbn [bind] in E|discriminate]. injection E as <-. now apply rows_create.
  - assert (N : k <> i) by congruence. unfold append in E. destruct (nth_error (objs h) i) as [a|] eqn:A; [cbn [bind] in *|discriminate]. destruct (nth_error (objs h) j) as [b|]; [cbn [bind] in E|discriminate].
    destruct (nth_error (bufs h) (o_buf a)) as [la|]; [cbn [bind] in *|discriminate]. destruct (nth_error (bufs h) (o_buf b)) as [lb|]; [cbn [bind] in E|discriminate].
    pose proof (some_lt _ _ _ A) as HA. apply Nat.eqb_neq in N.
    destruct (length la =? 0); [|destruct (length lb =? 0); [now injection E as <-|]]; injection E as <-; unfold rows; cbn [objs bufs]; rewrite nth_upd by exact HA; rewrite N; [reflexivity|].
    destruct (nth_error (objs h) k) as [ok|] eqn:K; [cbn [bind]|reflexivity]. rewrite nth_snoc. apply V in K. destruct (Nat.eqb_spec (o_buf ok) (length (bufs h))); [lia|reflexivity].
  - assert (N : k <> i) by congruence. unfold write in E. destruct (nth_error (objs h) i) as [a|] eqn:A; [cbn [bind] in E|discriminate]. destruct (nth_error (bufs h) (o_buf a)) as [la|] eqn:LA; [cbn [bind] in E|discriminate].
    destruct (store la x r) as [la'|]; [cbn [bind] in E|discriminate]. injection E as <-. unfold rows. cbn [objs bufs]. destruct (nth_error (objs h) k) as [ok|] eqn:K; [cbn [bind]|reflexivity].
    rewrite nth_upd by (now apply some_lt in LA). destruct (Nat.eqb_spec (o_buf ok) (o_buf a)) as [Q|_]; [elim N; now apply (S k i ok a)|reflexivity].
  - unfold period in E. destruct (nth_error (objs h) i) as [a|] eqn:A; [cbn [bind] in E|discriminate]. pose proof (some_lt _ _ _ A) as HA.
    destruct (o_period a) as [p|]; [cbn [bind fst] in E; now injection E as <-|]. destruct (nth_error (bufs h) (o_buf a)) as [la|] eqn:LA; [cbn [bind fst] in E|discriminate].
    injection E as <-. unfold rows. cbn [objs bufs]. rewrite nth_upd by exact HA. destruct (Nat.eqb_spec k i) as [->|N]; [now rewrite A|reflexivity].
Qed.
Print Assumptions C154_isolation.

(** append: the object has its rows followed by those of the other one, and no other object
    changes, in any state. *)
Theorem C154_append : forall h i j a b, valid h -> rows h i = Some a -> rows h j = Some b ->
  exists h', step h (Append i j) = Some h' /\ rows h' i = Some (a ++ b) /\ forall k, k <> i -> rows h' k = rows h k.
Proof.
  intros h i j a b V RA RB. unfold rows in RA, RB. destruct (nth_error (objs h) i) as [oa|] eqn:A; [cbn [bind] in RA|discriminate]. destruct (nth_error (objs h) j) as [ob|] eqn:B; [cbn [bind] in RB|discriminate].
  cbn [step]. unfold append. rewrite A, B. cbn [bind]. rewrite RA, RB. cbn [bind]. pose proof (some_lt _ _ _ A) as HA. destruct a as [|ra a].
  - cbn [length Nat.eqb]. eexists. split; [reflexivity|]. unfold rows. cbn [objs bufs]. split.
    + rewrite nth_upd by exact HA. rewrite Nat.eqb_refl. cbn [bind with_buf o_buf]. exact RB.
    + intros k N. rewrite nth_upd by exact HA. apply Nat.eqb_neq in N. now rewrite N.
  - cbn [length Nat.eqb]. destruct b as [|rb b].
    + cbn [length Nat.eqb]. exists h. split; [reflexivity|]. split; [unfold rows; rewrite A; cbn [bind]; now rewrite app_nil_r|auto].
    + cbn [length Nat.eqb]. eexists. split; [reflexivity|]. unfold rows. cbn [objs bufs]. split.
      * rewrite nth_upd by exact HA. rewrite Nat.eqb_refl. cbn [bind with_buf o_buf]. rewrite nth_snoc. now rewrite Nat.eqb_refl.
      * intros k N. rewrite nth_upd by exact HA. apply Nat.eqb_neq in N. rewrite N. destruct (nth_error (objs h) k) as [ok|] eqn:K; [cbn [bind]|reflexivity].
        rewrite nth_snoc. apply V in K. destruct (Nat.eqb_spec (o_buf ok) (length (bufs h))); [lia|reflexivity].
Qed.
Print Assumptions C154_append.

(** What the code does when the object has no rows: it takes the array of the other one, so
    a row changed in one is changed in the other. *)
Theorem C154_shared_refuted : forall h i j b x r, rows h i = Some [] -> rows h j = Some b -> x < length b ->
  exists h1 h2, step h (Append i j) = Some h1 /\ step h1 (Write i x r) = Some h2 /\ rows h2 i = Some (upd b x r) /\ rows h2 j = Some (upd b x r).
Proof.
  intros h i j b x r RA RB B. destruct (Nat.eq_dec j i) as [->|NE]; [rewrite RA in RB; injection RB as <-; cbn in B; lia|].
  unfold rows in RA, RB. destruct (nth_error (objs h) i) as [oa|] eqn:A; [cbn [bind] in RA|discriminate]. destruct (nth_error (objs h) j) as [ob|] eqn:J; [cbn [bind] in RB|discriminate].
  pose proof (some_lt _ _ _ A) as HA. pose proof (some_lt _ _ _ RB) as HB.
  exists (Heap (bufs h) (upd (objs h) i (with_buf oa (o_buf ob)))), (Heap (upd (bufs h) (o_buf ob) (upd b x r)) (upd (objs h) i (with_buf oa (o_buf ob)))).
  apply Nat.eqb_neq in NE. split; [|split; [|split]].
  - cbn [step]. unfold append. rewrite A, J. cbn [bind]. rewrite RA, RB. reflexivity.
  - cbn [step]. unfold write. cbn [objs bufs]. rewrite nth_upd by exact HA. rewrite Nat.eqb_refl. cbn [bind with_buf o_buf]. rewrite RB. cbn [bind]. unfold store. apply Nat.ltb_lt in B. now rewrite B.
  - unfold rows. cbn [objs bufs]. rewrite nth_upd by exact HA. rewrite Nat.eqb_refl. cbn [bind with_buf o_buf]. rewrite nth_upd by exact HB. now rewrite Nat.eqb_refl.
  - unfold rows. cbn [objs bufs]. rewrite nth_upd by exact HA. rewrite NE, J. cbn [bind]. rewrite nth_upd by exact HB. now rewrite Nat.eqb_refl.
Qed.
Print Assumptions C154_shared_refuted.

(** A copy has the rows and the sign of its original, a period not yet asked, and an array
    of its own. *)
Theorem C154_copy : forall h i o l, valid h -> nth_error (objs h) i = Some o -> rows h i = Some l ->
  exists h' c, step h (Copy i) = Some h' /\ nth_error (objs h') (length (objs h)) = Some c /\ rows h' (length (objs h)) = Some l /\ o_sign c = o_sign o /\ o_period c = None
    /\ forall k, k < length (objs h) -> nth_error (objs h') k = nth_error (objs h) k /\ rows h' k = rows h k /\ forall ok, nth_error (objs h) k = Some ok -> o_buf ok <> o_buf c.
Proof.
  intros h i o l V O L. exists (create h l (o_sign o)), (Obj (length (bufs h)) (o_sign o) None). unfold rows in L. rewrite O in L. cbn [bind] in L. cbn [step]. rewrite O. cbn [bind]. rewrite L. cbn [bind].
  split; [reflexivity|]. assert (N : nth_error (objs (create h l (o_sign o))) (length (objs h)) = Some (Obj (length (bufs h)) (o_sign o) None)) by (unfold create; cbn [objs]; rewrite nth_snoc; now rewrite Nat.eqb_refl).
  split; [exact N|]. split; [unfold rows; rewrite N; cbn [bind o_buf create bufs]; rewrite nth_snoc; now rewrite Nat.eqb_refl|]. split; [reflexivity|]. split; [reflexivity|].
  intros k B. split; [unfold create; cbn [objs]; rewrite nth_snoc; destruct (Nat.eqb_spec k (length (objs h))); [lia|reflexivity]|]. split; [now apply rows_create|].
  intros ok K. apply V in K. cbn. lia.
Qed.
Print Assumptions C154_copy.

Lemma fold_min l : forall m, let v := fold_left (fun m x => if Qle_bool (r_time x) m then r_time x else m) l m in (v <= m)%Q /\ (v = m \/ exists x, In x l /\ r_time x = v) /\ forall x, In x l -> (v <= r_time x)%Q.
Proof.
  induction l as [|a l IH]; intros m; cbn [fold_left]; [split; [apply Qle_refl|split; [now left|now intros x []]]|].
  destruct (Qle_bool (r_time a) m) eqn:C; [apply Qle_bool_iff in C|assert (C' : ~ (r_time a <= m)%Q) by (intros Z; apply Qle_bool_iff in Z; congruence)].
  - destruct (IH (r_time a)) as (P1 & P2 & P3). split; [eapply Qle_trans; eauto|]. split.
    + right. destruct P2 as [->|(x & I & X)]; [exists a; split; [now left|reflexivity]|exists x; split; [now right|exact X]].
    + intros x [<-|I]; [exact P1|now apply P3].
  - destruct (IH m) as (P1 & P2 & P3). split; [exact P1|]. split.
    + destruct P2 as [P2|(x & I & X)]; [now left|right; exists x; split; [now right|exact X]].
    + intros x [<-|I]; [|now apply P3]. apply Qnot_le_lt, Qlt_le_weak in C'. eapply Qle_trans; eauto.
Qed.
Lemma fold_max l : forall m, let v := fold_left (fun m x => if Qle_bool m (r_time x) then r_time x else m) l m in (m <= v)%Q /\ (v = m \/ exists x, In x l /\ r_time x = v) /\ forall x, In x l -> (r_time x <= v)%Q.
Proof.
  induction l as [|a l IH]; intros m; cbn [fold_left]; [split; [apply Qle_refl|split; [now left|now intros x []]]|].
  destruct (Qle_bool m (r_time a)) eqn:C; [apply Qle_bool_iff in C|assert (C' : ~ (m <= r_time a)%Q) by (intros Z; apply Qle_bool_iff in Z; congruence)].
  - destruct (IH (r_time a)) as (P1 & P2 & P3). split; [eapply Qle_trans; eauto|]. split.
    + right. destruct P2 as [->|(x & I & X)]; [exists a; split; [now left|reflexivity]|exists x; split; [now right|exact X]].
    + intros x [<-|I]; [exact P1|now apply P3].
  - destruct (IH m) as (P1 & P2 & P3). split; [exact P1|]. split.
    + destruct P2 as [P2|(x & I & X)]; [now left|right; exists x; split; [now right|exact X]].
    + intros x [<-|I]; [|now apply P3]. apply Qnot_le_lt, Qlt_le_weak in C'. eapply Qle_trans; eauto.
Qed.
Lemma extent_ok l : is_extent l (extent l).
Proof.
  destruct l as [|a l]; [reflexivity|]. cbn [extent is_extent]. destruct (fold_min l (r_time a)) as (A1 & A2 & A3), (fold_max l (r_time a)) as (B1 & B2 & B3).
  split; [destruct A2 as [A2|(x & I & X)]; [exists a; split; [now left|now rewrite A2]|exists x; split; [now right|exact X]]|].
  split; [destruct B2 as [B2|(x & I & X)]; [exists a; split; [now left|now rewrite B2]|exists x; split; [now right|exact X]]|].
  intros x [<-|I]; split; auto.
Qed.
Lemma kept_step h o h' i p : step h o = Some h' -> (exists a, nth_error (objs h) i = Some a /\ o_period a = Some p) -> exists a, nth_error (objs h') i = Some a /\ o_period a = Some p.
Proof.
  intros E (a & A & P). pose proof (some_lt _ _ _ A) as HA.
  assert (CR : forall l s, exists a, nth_error (objs (create h l s)) i = Some a /\ o_period a = Some p).
  { intros l s. exists a. split; [|exact P]. unfold create. cbn [objs]. rewrite nth_snoc. destruct (Nat.eqb_spec i (length (objs h))); [lia|exact A]. }
  destruct o as [l s|k|k j|k x r|k]; cbn [step] in E.
  - injection E as <-. apply CR.
  - destruct (nth_error (objs h) k) as [ok|]; [cbn [bind] in E|discriminate]. destruct (nth_error (bufs h) (o_buf ok)) as [l|]; [cbn [bind] in E|discriminate]. injection E as <-. apply CR.
  - unfold append in E. destruct (nth_error (objs h) k) as [ok|] eqn:K; [cbn [bind] in E|discriminate]. destruct (nth_error (objs h) j) as [ob|] eqn:B; [cbn [bind] in E|discriminate].
    destruct (nth_error (bufs h) (o_buf ok)) as [la|]; [cbn [bind] in E|discriminate]. destruct (nth_error (bufs h) (o_buf ob)) as [lb|] eqn:LB; [cbn [bind] in E|discriminate].
    pose proof (some_lt _ _ _ K) as HK. assert (U : forall b, exists a', nth_error (upd (objs h) k (with_buf ok b)) i = Some a' /\ o_period a' = Some p).
    { intros b. rewrite nth_upd by exact HK. destruct (Nat.eqb_spec i k) as [->|N]; [|exists a; auto]. eexists. split; [reflexivity|]. rewrite K in A. injection A as ->. exact P. }
    destruct (length la =? 0); [injection E as <-; apply U|]. destruct (length lb =? 0); injection E as <-; [exists a; auto|apply U].
  - unfold write in E. destruct (nth_error (objs h) k) as [ok|]; [cbn [bind] in E|discriminate]. destruct (nth_error (bufs h) (o_buf ok)) as [la|]; [cbn [bind] in E|discriminate].
    destruct (store la x r) as [la'|]; [cbn [bind] in E|discriminate]. injection E as <-. exists a. auto.
  - unfold period in E. destruct (nth_error (objs h) k) as [ok|] eqn:K; [cbn [bind] in E|discriminate]. pose proof (some_lt _ _ _ K) as HK.
    destruct (o_period ok) as [q|] eqn:Q; [cbn [bind fst] in E; injection E as <-; exists a; auto|]. destruct (nth_error (bufs h) (o_buf ok)) as [la|] eqn:LA; [cbn [bind fst] in E|discriminate].
    injection E as <-. cbn [objs]. rewrite nth_upd by exact HK. destruct (Nat.eqb_spec i k) as [->|N]; [congruence|exists a; auto].
Qed.
Lemma kept_run ops : forall h h' i p, run h ops = Some h' -> (exists a, nth_error (objs h) i = Some a /\ o_period a = Some p) -> exists a, nth_error (objs h') i = Some a /\ o_period a = Some p.
Proof.
  induction ops as [|o ops IH]; intros h h' i p E K; cbn [run] in E; [now injection E as <-|]. destruct (step h o) as [h1|] eqn:S1; [cbn [bind] in E|discriminate]. eapply IH; [exact E|]. eapply kept_step; eauto.
Qed.

(** The first time it is asked, the period is the first and the last time of the rows (none
    without rows), and the number of days follows from it. *)
Theorem C154_period : forall h i o l, nth_error (objs h) i = Some o -> o_period o = None -> rows h i = Some l ->
  exists h' p, period h i = Some (h', p) /\ is_extent l p /\ nb_days h i = Some (match p with Some (a, b) => Some (b - a + 1)%Q | None => None end) /\ forall k, rows h' k = rows h k.
Proof.
  intros h i o l O P L. unfold rows in L. rewrite O in L. cbn [bind] in L. unfold nb_days, period. rewrite O. cbn [bind]. rewrite P, L. cbn [bind]. eexists. exists (extent l). split; [reflexivity|]. split; [apply extent_ok|].
  split; [cbn [snd]; destruct (extent l) as [[a b]|]; reflexivity|]. intros k. unfold rows. cbn [objs bufs]. rewrite nth_upd by (now apply some_lt in O). destruct (Nat.eqb_spec k i) as [->|N]; [now rewrite O|reflexivity].
Qed.
Print Assumptions C154_period.

(** After that it never changes, whatever the program does, to this dataset or to others. *)
Theorem C154_period_kept : forall h i h1 p ops h2, period h i = Some (h1, p) -> run h1 ops = Some h2 -> period h2 i = Some (h2, p).
Proof.
  intros h i h1 p ops h2 E R. assert (K : exists a, nth_error (objs h1) i = Some a /\ o_period a = Some p).
  { unfold period in E. destruct (nth_error (objs h) i) as [a|] eqn:A; [cbn [bind] in E|discriminate]. destruct (o_period a) as [q|] eqn:Q; [injection E as <- <-; exists a; auto|].
    destruct (nth_error (bufs h) (o_buf a)) as [l|]; [cbn [bind] in E|discriminate]. injection E as <- <-. cbn [objs]. rewrite nth_upd by (now apply some_lt in A). rewrite Nat.eqb_refl. eexists. split; [reflexivity|reflexivity]. }
  destruct (kept_run _ _ _ _ _ R K) as (a & A & P). unfold period. rewrite A. cbn [bind]. now rewrite P.
Qed.
Print Assumptions C154_period_kept.

(** So it is wrong as soon as rows later than the last one are appended after it was asked. *)
Theorem C154_period_stale_refuted : forall h i j h1 a b l m x, valid h1 -> period h i = Some (h1, Some (a, b)) -> rows h1 i = Some l -> rows h1 j = Some m -> In x m -> (b < r_time x)%Q ->
  exists h2, step h1 (Append i j) = Some h2 /\ rows h2 i = Some (l ++ m) /\ period h2 i = Some (h2, Some (a, b)) /\ ~ is_extent (l ++ m) (Some (a, b)).
Proof.
  intros h i j h1 a b l m x V E L M I B. destruct (C154_append h1 i j l m V L M) as (h2 & S2 & R2 & _). exists h2. split; [exact S2|]. split; [exact R2|]. split.
  - apply (C154_period_kept h i h1 (Some (a, b)) [Append i j] h2 E). cbn [run]. rewrite S2. reflexivity.
  - intros (_ & _ & X). destruct (X x (in_or_app _ _ _ (or_intror I))) as [_ Y]. exact (Qlt_not_le _ _ B Y).
Qed.
Print Assumptions C154_period_stale_refuted.

(** ** Equality *)
Definition same_cell (a b : option Q) : Prop := match a, b with Some x, Some y => (x == y)%Q | _, _ => False end.
Definition same_line (a b : row) : Prop := (r_time a == r_time b)%Q /\ Forall2 same_cell (r_rest a) (r_rest b).
Lemma same_values_iff a : forall b, same_values a b = true <-> Forall2 same_cell a b.
Proof.
  induction a as [|x a IH]; intros [|y b]; cbn [same_values]; try (split; [discriminate|inversion 1]); [split; [constructor|reflexivity]|].
  rewrite andb_true_iff, IH. assert (H : same_value x y = true <-> same_cell x y) by (destruct x, y; cbn; [apply Qeq_bool_iff| | |]; split; (discriminate || now intros [])).
  rewrite H. split; [intros [P1 P2]; now constructor|inversion 1; auto].
Qed.
Lemma same_rows_iff a : forall b, same_rows a b = true <-> Forall2 same_line a b.
Proof.
  induction a as [|x a IH]; intros [|y b]; cbn [same_rows]; try (split; [discriminate|inversion 1]); [split; [constructor|reflexivity]|].
  unfold same_row. rewrite !andb_true_iff, IH, same_values_iff, Qeq_bool_iff. split; [intros [P1 P2]; now constructor|inversion 1; auto].
Qed.
(** Two datasets are equal when they have the same sign and, row by row, the same values,
    none of them being nan. *)
Theorem C154_equal : forall h i j a b la lb, nth_error (objs h) i = Some a -> nth_error (objs h) j = Some b -> rows h i = Some la -> rows h j = Some lb ->
  exists e, equal h i j = Some e /\ (e = true <-> o_sign a = o_sign b /\ Forall2 same_line la lb).
Proof.
  intros h i j a b la lb A B LA LB. unfold rows in LA, LB. rewrite A in LA. rewrite B in LB. cbn [bind] in LA, LB. unfold equal. rewrite A, B. cbn [bind]. rewrite LA, LB. cbn [bind]. eexists. split; [reflexivity|].
  rewrite andb_true_iff, same_rows_iff. destruct (o_sign a) as [x|], (o_sign b) as [y|]; try (split; [intros [? _]; discriminate|intros [? _]; discriminate]); [|tauto].
  rewrite Z.eqb_eq. split; intros [P1 P2]; (split; [congruence|exact P2]).
Qed.
Print Assumptions C154_equal.
(** So a dataset is equal to itself, and to its copy, exactly when it holds no nan. *)
Theorem C154_equal_copy : forall h i o l h', valid h -> nth_error (objs h) i = Some o -> rows h i = Some l -> step h (Copy i) = Some h' ->
  exists e, equal h i i = Some e /\ equal h' i (length (objs h)) = Some e /\ (e = true <-> forall r, In r l -> ~ In None (r_rest r)).
Proof.
  intros h i o l h' V O L E. destruct (C154_copy h i o l V O L) as (h2 & c & E2 & C & LC & SC & _ & K). rewrite E in E2. injection E2 as <-. destruct (K i (some_lt _ _ _ O)) as (O' & L' & _). rewrite O in O'. rewrite L in L'.
  destruct (C154_equal h i i o o l l O O L L) as (e & E1 & I1). destruct (C154_equal h' i (length (objs h)) o c l l O' C L' LC) as (e' & E1' & I1').
  assert (e' = e) as -> by (apply eq_true_iff_eq; rewrite I1, I1', SC; tauto). exists e. split; [exact E1|]. split; [exact E1'|]. rewrite I1. clear - l. 
  assert (CELL : forall v, Forall2 same_cell v v <-> ~ In None v).
  { induction v as [|[x|] v IH]; cbn [In]; [split; [auto|constructor]| |split; [inversion 1; contradiction|intros N; elim N; auto]].
    split; [intros F; inversion F; subst; intros [Z|Z]; [discriminate|now apply IH in Z]|intros N; constructor; [apply Qeq_refl|apply IH; tauto]]. }
  assert (LINE : Forall2 same_line l l <-> forall r, In r l -> ~ In None (r_rest r)).
  { induction l as [|r l IH]; [split; [intros _ x []|constructor]|]. split.
    - intros F. inversion F as [|? ? ? ? [F1 F2] F3]; subst. intros x [<-|I]; [now apply CELL|now apply IH].
    - intros N. constructor; [split; [apply Qeq_refl|apply CELL, N; now left]|apply IH; intros x I; apply N; now right]. }
  rewrite LINE. tauto.
Qed.
Print Assumptions C154_equal_copy.

(** ** Cases *)
Definition ra := Row 3 [Some 1; None]%Q.
Definition rb := Row 5 [Some 2; Some 7]%Q.
Definition rc := Row 9 [Some 4; Some 4]%Q.
(** Three datasets, with one row, one row and none. *)
Definition ex := create (create (create (Heap [] []) [rb] (Some 1%Z)) [ra; rc] (Some 1%Z)) [] None.
Example C154_isolation_ex : exists h', reached ex /\ step ex (Write 0 0 rc) = Some h' /\ 1 < length (objs ex) /\ target (Write 0 0 rc) <> Some 1 /\ rows h' 0 = Some [rc] /\ rows h' 1 = Some [ra; rc].
Proof.
  eexists. split; [|split; [reflexivity|split; [cbn; lia|split; [discriminate|split; reflexivity]]]].
  apply (reached_step (create (create (Heap [] []) [rb] (Some 1%Z)) [ra; rc] (Some 1%Z)) (Create [] None)); [|exact I|reflexivity].
  apply (reached_step (create (Heap [] []) [rb] (Some 1%Z)) (Create [ra; rc] (Some 1%Z))); [|exact I|reflexivity].
  apply (reached_step (Heap [] []) (Create [rb] (Some 1%Z))); [constructor|exact I|reflexivity].
Qed.
Lemma ex_valid : valid ex.
Proof. intros [|[|[|[|i]]]] o N; cbn in N; try discriminate; injection N as <-; cbn; lia. Qed.
Example C154_append_ex : valid ex /\ rows ex 0 = Some [rb] /\ rows ex 1 = Some [ra; rc] /\ option_map (fun h => rows h 0) (step ex (Append 0 1)) = Some (Some [rb; ra; rc]).
Proof. split; [apply ex_valid|]. split; [|split]; reflexivity. Qed.
Example C154_shared_ex : rows ex 2 = Some [] /\ rows ex 1 = Some [ra; rc] /\ 1 < length [ra; rc]
  /\ option_map (fun h => (rows h 1, rows h 2)) (run ex [Append 2 1; Write 2 1 rb]) = Some (Some [ra; rb], Some [ra; rb]).
Proof. split; [|split; [|split]]; (reflexivity || (cbn; lia)). Qed.
Example C154_copy_ex : valid ex /\ rows ex 1 = Some [ra; rc] /\ option_map (fun h => (rows h 1, rows h 3)) (run ex [Copy 1; Write 1 0 rb]) = Some (Some [rb; rc], Some [ra; rc]).
Proof. split; [apply ex_valid|]. split; reflexivity. Qed.
Example C154_period_ex : rows ex 1 = Some [ra; rc] /\ option_map snd (period ex 1) = Some (Some (3%Q, 9%Q)) /\ nb_days ex 1 = Some (Some (9 - 3 + 1)%Q) /\ nb_days ex 2 = Some None.
Proof. split; [|split; [|split]]; reflexivity. Qed.
Example C154_stale_ex : exists h1, period ex 0 = Some (h1, Some (5, 5)%Q) /\ valid h1 /\ rows h1 0 = Some [rb] /\ rows h1 1 = Some [ra; rc] /\ In rc [ra; rc] /\ (5 < r_time rc)%Q.
Proof.
  eexists. split; [reflexivity|]. split; [intros [|[|[|[|i]]]] o N; cbn in N; try discriminate; injection N as <-; cbn; lia|]. split; [reflexivity|]. split; [reflexivity|]. split; [cbn; auto|reflexivity].
Qed.
Example C154_equal_ex : equal ex 0 0 = Some true /\ equal ex 1 1 = Some false /\ equal ex 0 1 = Some false /\ equal ex 2 2 = Some true.
Proof. split; [|split; [|split]]; reflexivity. Qed.
