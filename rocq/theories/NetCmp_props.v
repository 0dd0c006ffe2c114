(** Properties C46 and C47: comparison of atlases and cache of contours. *)
From Coq Require Import List Arith ZArith Bool Lia Permutation.
From Verif Require Import Base Sort NetCmp_model NetCmp_spec NetCmp_proofs.
Import ListNotations.

(** ** C46: equal items are found, each once *)
Theorem C46_same_position : forall argsort self other n, sorts_pos argsort ->
  (forall b, In b self -> length b = n) -> (forall b, In b other -> length b = n) ->
  exists r, same_position (concat self) (concat other) (items_of argsort self) (items_of argsort other) = Some r /\ length r = length self /\
    (forall k z, nth_error r k = Some z -> z = (-1)%Z \/ (0 <= z < Z.of_nat (length other))%Z) /\
    (forall k j a b, nth_error r k = Some (Z.of_nat j) -> nth_error self k = Some a -> nth_error other j = Some b -> same_content a b) /\
    (forall k l j, nth_error r k = Some (Z.of_nat j) -> nth_error r l = Some (Z.of_nat j) -> k = l) /\
    (forall k a j b, nth_error self k = Some a -> nth_error other j = Some b -> same_content a b -> nth_error r k = Some (-1)%Z ->
       exists l, l < k /\ nth_error r l = Some (Z.of_nat j)).
Proof. exact same_position_spec. Qed.
Print Assumptions C46_same_position.
Definition pos_leb (a b : pos) : bool :=
  match a, b with (t0, x0, y0), (t1, x1, y1) => (t0 <? t1)%Z || ((t0 =? t1)%Z && ((x0 <? x1)%Z || ((x0 =? x1)%Z && (y0 <=? y1)%Z))) end.
Lemma pos_leb_le : forall a b, pos_leb a b = true <-> pos_le a b.
Proof.
  intros [[t0 x0] y0] [[t1 x1] y1]. unfold pos_leb, pos_le.
  rewrite orb_true_iff, andb_true_iff, orb_true_iff, andb_true_iff, !Z.ltb_lt, !Z.eqb_eq, Z.leb_le. tauto.
Qed.
Definition pos_argsort : list pos -> list nat := stable_argsort pos_leb.
Lemma pos_argsort_sorts : sorts_pos pos_argsort.
Proof.
  intros l. split; [apply stable_argsort_perm|]. intros p q i j a b L I J A B. apply pos_leb_le.
  apply (stable_argsort_order pos_leb) with (l := l) (p := p) (q := q) (i := i) (j := j); auto.
  - intros x y. rewrite !pos_leb_le. destruct x as [[t0 x0] y0], y as [[t1 x1] y1]. unfold pos_le. lia.
  - intros x y z. rewrite !pos_leb_le. destruct x as [[t0 x0] y0], y as [[t1 x1] y1], z as [[t2 x2] y2]. unfold pos_le. lia.
Qed.
(** The first item is the second of the other atlas in another order; the
    second and the third are equal but the other atlas has only one of them. *)
Example C46_example :
  let self := [[(1, 5, 5); (2, 6, 6); (1, 4, 4)]; [(7, 0, 0); (8, 0, 0); (9, 0, 0)]; [(7, 0, 0); (8, 0, 0); (9, 0, 0)]]%Z in
  let other := [[(9, 0, 0); (8, 0, 0); (7, 0, 0)]; [(2, 6, 6); (1, 4, 4); (1, 5, 5)]]%Z in
  sorts_pos pos_argsort /\ (forall b, In b self -> length b = 3) /\ (forall b, In b other -> length b = 3) /\
  same_position (concat self) (concat other) (items_of pos_argsort self) (items_of pos_argsort other) = Some [1; 0; -1]%Z.
Proof.
  split; [exact pos_argsort_sorts|]. split; [intros b [<-|[<-|[<-|[]]]]; reflexivity|]. split; [intros b [<-|[<-|[]]]; reflexivity|]. vm_compute. reflexivity.
Qed.
(** With items of different sizes the comparison stops with the shortest. *)
Theorem C46_sizes_refuted : exists self other, ~ same_content self other /\
  same_position self other (items_of pos_argsort [self]) (items_of pos_argsort [other]) = Some [0]%Z.
Proof.
  exists [(1, 5, 5)]%Z, [(1, 5, 5); (2, 6, 6)]%Z. split; [|vm_compute; reflexivity]. intros H. apply Permutation_length in H. discriminate.
Qed.
Print Assumptions C46_sizes_refuted.

(** ** C47: the cache is transparent *)
(** In any history of requests from the empty cache, some of which fail because
    the file can not be read, every result is the content of the file. *)
Theorem C47_transparent : forall (contour : Type) (load : bool -> nat -> option contour) kind buffersize requests, (0 <= buffersize)%Z ->
  fst (load_all load kind buffersize requests (Cache [] [])) = map (load kind) requests.
Proof.
  intros contour load kind bs rq B. rewrite <- (Z2Nat.id bs) by lia. destruct (load_all_spec load kind (Z.to_nat bs) rq _ (valid_empty load kind (Z.to_nat bs))) as (s & E & _). rewrite E. auto.
Qed.
Print Assumptions C47_transparent.
(** After any history: at most [buffersize + 1] files are held, each once, the
    files listed are those with data, and the data is the content of the file. *)
Theorem C47_bounded : forall (contour : Type) (load : bool -> nat -> option contour) kind buffersize requests, (0 <= buffersize)%Z ->
  let s := snd (load_all load kind buffersize requests (Cache [] [])) in
  (Z.of_nat (length (flist s)) <= buffersize + 1)%Z /\ NoDup (flist s) /\ NoDup (map fst (data s)) /\
  (forall f, In f (flist s) <-> exists c, In (f, c) (data s)) /\ (forall f c, In (f, c) (data s) -> load kind f = Some c).
Proof.
  intros contour load kind bs rq B. rewrite <- (Z2Nat.id bs) by lia. destruct (load_all_spec load kind (Z.to_nat bs) rq _ (valid_empty load kind (Z.to_nat bs))) as (s & E & V). rewrite E.
  destruct V as (ND & LEN & SYNC & NDD & OK). cbv zeta. cbn [snd]. split; [lia|]. split; [auto|]. split; [auto|]. split; [|auto].
  intros f. rewrite SYNC, in_map_iff. split; [intros ([g c] & E1 & I); simpl in E1; subst; eauto|]. intros (c & I). exists (f, c). auto.
Qed.
Print Assumptions C47_bounded.
(** One request after any history: a file held is not read again and nothing
    changes; otherwise only the oldest file may be dropped, and the file asked
    is held afterwards when it can be read. *)
Theorem C47_one_request : forall (contour : Type) (load : bool -> nat -> option contour) kind buffersize requests f, (0 <= buffersize)%Z ->
  let s := snd (load_all load kind buffersize requests (Cache [] [])) in
  let '(r, s') := load_contour load kind buffersize f s in
  r = load kind f /\ (In f (flist s) -> s' = s) /\ (load kind f <> None -> In f (flist s')) /\
  (forall g, In g (flist s') -> g = f \/ In g (flist s)) /\
  (forall g, In g (flist s) -> In g (flist s') \/ nth_error (flist s) 0 = Some g).
Proof.
  intros contour load kind bs rq f B. rewrite <- (Z2Nat.id bs) by lia. destruct (load_all_spec load kind (Z.to_nat bs) rq _ (valid_empty load kind (Z.to_nat bs))) as (s & E & V). rewrite E. cbn [snd].
  destruct (load_contour_spec load kind (Z.to_nat bs) f s V) as (s' & E' & V' & H1 & H2 & H3 & H4). cbv zeta. rewrite E'. split; [auto|]. split; [auto|]. split; [auto|]. split; [|auto].
  intros g G. destruct (in_dec Nat.eq_dec f (flist s)) as [I|I]; [|auto]. rewrite (H1 I) in G. auto.
Qed.
Print Assumptions C47_one_request.
(** A file just read is still held after any [buffersize] further requests: the
    file dropped is the one read first. *)
Theorem C47_first_in_first_out : forall (contour : Type) (load : bool -> nat -> option contour) kind buffersize before f after, (0 <= buffersize)%Z ->
  ~ (exists c, In (f, c) (data (snd (load_all load kind buffersize before (Cache [] []))))) -> load kind f <> None -> (Z.of_nat (length after) <= buffersize)%Z ->
  exists c, In (f, c) (data (snd (load_all load kind buffersize (before ++ f :: after) (Cache [] [])))).
Proof.
  intros contour load kind bs before f after B NF LF L. rewrite <- (Z2Nat.id bs) in * by lia. set (n := Z.to_nat bs) in *.
  destruct (load_all_spec load kind n before _ (valid_empty load kind n)) as (s & E & V).
  assert (APP : forall a b t, snd (load_all load kind (Z.of_nat n) (a ++ b) t) = snd (load_all load kind (Z.of_nat n) b (snd (load_all load kind (Z.of_nat n) a t)))).
  { induction a as [|x a IH]; intros b t; [reflexivity|]. cbn [load_all app]. destruct (load_contour load kind (Z.of_nat n) x t) as [c t1]. specialize (IH b t1).
    destruct (load_all load kind (Z.of_nat n) (a ++ b) t1). destruct (load_all load kind (Z.of_nat n) a t1). cbn [snd] in *. auto. }
  rewrite APP, E. rewrite E in NF. cbn [snd] in *.
  assert (SY : forall t, valid load kind n t -> forall g, In g (flist t) <-> exists c, In (g, c) (data t)).
  { intros t (_ & _ & SYNC & _) g. rewrite SYNC, in_map_iff. split; [intros ([h c] & E1 & I); simpl in E1; subst; eauto|]. intros (c & I). exists (g, c). auto. }
  destruct (load_all_spec load kind n (f :: after) s V) as (s2 & E2 & V2). rewrite E2. cbn [snd]. apply (SY s2 V2).
  pose proof (kept_spec load kind n f after s V) as K. rewrite E2 in K. apply K; auto; [|lia]. rewrite (SY s V). auto.
Qed.
Print Assumptions C47_first_in_first_out.
Definition example_load (kind : bool) (f : nat) : option Z := if f =? 9 then None else Some (Z.of_nat f + if kind then 100 else 0)%Z.
Example C47_example :
  load_all example_load true 1 [3; 4; 3; 9; 5; 3; 4; 4] (Cache [] []) =
    ([Some 103; Some 104; Some 103; None; Some 105; Some 103; Some 104; Some 104]%Z, Cache [3; 4] [(4, 104%Z); (3, 103%Z)]).
Proof. reflexivity. Qed.
Example C47_first_in_first_out_example :
  let held s := map fst (data s) in
  held (snd (load_all example_load true 2 [1; 2; 3] (Cache [] []))) = [3; 2; 1] /\
  held (snd (load_all example_load true 2 ([1; 2; 3] ++ 4 :: [2; 5]) (Cache [] []))) = [5; 4; 3].
Proof. split; reflexivity. Qed.
(** A negative size makes the first request fail. *)
Theorem C47_negative_size_refuted : fst (load_all example_load true (-1) [3] (Cache [] [])) = [None] /\ example_load true 3 <> None.
Proof. split; [reflexivity|discriminate]. Qed.
Print Assumptions C47_negative_size_refuted.
(** The kind of contour of a second object is ignored: it is given the contours
    of the kind of the first one. *)
Theorem C47_second_object_refuted :
  let first := construct None (true, 3%Z) in
  let second := construct (Some first) (false, 3%Z) in
  fst (load_all example_load (fst second) (snd second) [4] (Cache [] [])) = [example_load true 4] /\ example_load true 4 <> example_load false 4.
Proof. split; [reflexivity|discriminate]. Qed.
Print Assumptions C47_second_object_refuted.
