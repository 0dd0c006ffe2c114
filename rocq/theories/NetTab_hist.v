(** C104: answers of a network after any history of calls; C105: methods mapped
    on segments and networks. *)
From Coq Require Import List Arith ZArith Bool Lia.
From Verif Require Import Base Spec Generic_model Generic_proofs Corr_model NetGroup_spec NetGroup_model NetGroup_more NetGroup_props Obs_model Obs_proofs Net_model Net_links NetSeg_proofs NetTab_model NetTab_proofs NetTab_cache.
Import ListNotations.
Local Open Scope nat_scope.

(** ** C104 *)
(** What a network with the present columns and no table kept would answer,
    call after call. *)
Fixpoint afresh (t s : list nat) (cs : list call) : option (list (list Z) * (list nat * list nat)) :=
  match cs with
  | [] => Some ([], (t, s))
  | c :: cs' => let! (a, n1) := step (fresh t s) c in let! (l, e) := afresh (tr n1) (sg n1) cs' in Some (a :: l, e)
  end.
(** Histories in which the networks are never renumbered once their table has
    been asked for, unless the rows are sorted in between. *)
Definition asks (c : call) : bool := match c with Size _ | Sizes | NbNetwork | Slice_ _ => true | _ => false end.
Fixpoint careful (asked : bool) (cs : list call) : Prop :=
  match cs with
  | [] => True
  | NumberNetworks _ :: cs' => asked = false /\ careful asked cs'
  | SortRows _ :: cs' => careful false cs'
  | c :: cs' => careful (asked || asks c) cs'
  end.
(** Each sort puts the networks in order. *)
Fixpoint orders (t s : list nat) (cs : list call) : Prop :=
  match cs with
  | [] => True
  | c :: cs' => (forall o t', c = SortRows o -> gather t o = Some t' -> nsorted t') /\ (forall a n1, step (fresh t s) c = Some (a, n1) -> orders (tr n1) (sg n1) cs')
  end.

Definition right (n : net) : Prop := (forall t, c_net n = Some t -> of_network (tr n) = Some t) /\
  (forall u, c_arr n = Some u -> build_unique_array (sg n) (tr n) = Some u) /\
  (forall t, c_seg n = Some t -> exists u, build_unique_array (sg n) (tr n) = Some u /\ of_segment u = Some t).
Lemma net_same : forall n, right n -> match index_network n, index_network (fresh (tr n) (sg n)) with
  | Some (t, n1), Some (t', n2) => t = t' /\ tr n1 = tr n /\ sg n1 = sg n /\ right n1 /\ tr n2 = tr n /\ sg n2 = sg n
  | None, None => True | _, _ => False end.
Proof.
  intros [t s cn ca cs] (R1 & R2 & R3). cbn [c_net c_arr c_seg tr sg] in *. unfold index_network, fresh. cbn [c_net c_arr c_seg tr sg]. destruct cn as [x|].
  - rewrite (R1 x eq_refl). cbn [bind tr sg]. repeat (split; [first [reflexivity|assumption]|]). split; [|split; reflexivity]. repeat split; assumption.
  - destruct (of_network t) as [x|] eqn:E; cbn [bind tr sg]; [|exact I]. repeat (split; [reflexivity|]). split; [|split; reflexivity]. split; [|split; assumption]. cbn [c_net tr]. intros y Y. rewrite <- Y. exact E.
Qed.
Lemma seg_same : forall n, right n -> match index_segment n, index_segment (fresh (tr n) (sg n)) with
  | Some (t, n1), Some (t', n2) => t = t' /\ tr n1 = tr n /\ sg n1 = sg n /\ c_net n1 = c_net n /\ right n1 /\ tr n2 = tr n /\ sg n2 = sg n
  | None, None => True | _, _ => False end.
Proof.
  intros [t s cn ca cs] (R1 & R2 & R3). cbn [c_net c_arr c_seg tr sg] in *. unfold index_segment, segment_array, fresh. cbn [c_net c_arr c_seg tr sg]. destruct cs as [x|].
  - destruct (R3 x eq_refl) as (u & U & O). rewrite U. cbn [bind tr sg c_net c_arr]. rewrite O. cbn [bind tr sg]. repeat (split; [reflexivity|]). split; [|split; reflexivity]. repeat split; assumption.
  - destruct ca as [u|].
    + rewrite (R2 u eq_refl). cbn [bind tr sg c_net c_arr]. destruct (of_segment u) as [x|] eqn:O; cbn [bind tr sg]; [|exact I]. repeat (split; [reflexivity|]). split; [|split; reflexivity]. split; [exact R1|]. split; [exact R2|]. cbn [c_seg sg tr]. intros y Y. exists u. split; [apply R2; reflexivity|rewrite <- Y; exact O].
    + destruct (build_unique_array s t) as [u|] eqn:U; cbn [bind tr sg c_net c_arr]; [|exact I]. destruct (of_segment u) as [x|] eqn:O; cbn [bind tr sg]; [|exact I]. repeat (split; [reflexivity|]). split; [|split; reflexivity]. split; [exact R1|]. cbn [c_seg c_arr sg tr]. rewrite U. split; [intros v V; exact V|]. intros y Y. exists u. split; [reflexivity|rewrite <- Y; exact O].
Qed.
(** The answer, the columns and the tables after one call. *)
Definition agree (n : net) (keep : bool) (r r' : option (list Z * net)) : Prop := match r, r' with
  | Some (a, n1), Some (a', n2) => a = a' /\ tr n1 = tr n2 /\ sg n1 = sg n2 /\ right n1 /\ (keep = true -> c_net n1 = c_net n)
  | None, None => True | _, _ => False end.
Lemma step_same : forall n c, right n -> length (sg n) = length (tr n) -> nsorted (tr n) -> (forall k, c = NumberNetworks k -> c_net n = None) ->
  agree n (negb (asks c)) match c with SortRows _ => None | _ => step n c end match c with SortRows _ => None | _ => step (fresh (tr n) (sg n)) c end.
Proof.
  intros n c R L SO HN. pose proof (net_same n R) as NS. pose proof (seg_same n R) as SS.
  destruct c; cbn [step asks negb]; unfold agree, network_size, nb_network, network_sizes, network_slice, segment_sizes, nb_segment, network_segment_size, unique_segment_to_id; try exact I.
  1-4: destruct (index_network n) as [[[[f l] r] n1]|]; destruct (index_network (fresh (tr n) (sg n))) as [[[[f' l'] r'] n2]|]; cbn [bind]; try contradiction; try exact I;
    destruct NS as (TE & T1 & G1 & R1 & T2 & G2); injection TE as <- <- <-.
  5-8: destruct (index_segment n) as [[[[f l] r] n1]|]; destruct (index_segment (fresh (tr n) (sg n))) as [[[[f' l'] r'] n2]|]; cbn [bind]; try contradiction; try exact I;
    destruct SS as (TE & T1 & G1 & C1 & R1 & T2 & G2); injection TE as <- <- <-.
  - destruct (sequence (map (size_at (f, l, r)) ids)); cbn [bind]; [|exact I]. repeat split; try congruence; apply R1.
  - repeat split; try congruence; apply R1.
  - repeat split; try congruence; apply R1.
  - destruct (pyget f (id - r)); cbn [bind]; [|exact I]. destruct (pyget l (id - r)); cbn [bind]; [|exact I]. repeat split; try congruence; apply R1.
  - repeat split; try congruence; apply R1.
  - repeat split; try congruence; apply R1.
  - rewrite T1, T2. destruct (gather (tr n) f); cbn [bind]; [|exact I]. destruct (build_index (map Z.of_nat l0)) as [t3|]; cbn [bind]; [|exact I]. destruct (sequence (map (size_at t3) ids)); cbn [bind]; [|exact I]. repeat split; try congruence; apply R1.
  - rewrite T1, T2, G1, G2. match goal with |- context [sequence ?x] => destruct (sequence x) end; cbn [bind]; [|exact I]. repeat split; try congruence; apply R1.
  - destruct (tr n) as [|t0 ts] eqn:TN.
    + unfold numbering_segment, fresh. cbn [tr sg]. rewrite TN. destruct (segment_slices []) as [sl|] eqn:E; cbn [bind]; [|exact I]. destruct (sg n) as [|s0 ss] eqn:SN; [|discriminate L].
      destruct (number_slices start sl []) as [s'|] eqn:E2; cbn [bind tr sg c_net c_arr c_seg]; [|exact I]. assert (sl = []) by (cbn in E; congruence). subst sl. cbn in E2. apply Some_inj in E2. subst s'. repeat (split; [reflexivity|]). split; [|reflexivity]. destruct R as (R1 & R2 & R3). unfold right. cbn [c_net c_arr c_seg tr sg]. rewrite TN, SN in *. repeat split; assumption.
    + rewrite <- TN in *. assert (NE : tr n <> []) by (rewrite TN; discriminate). destruct (numbering_segment n start) as [n'|] eqn:E.
      * destruct (numbering_segment_unique n n' start L NE SO E) as (H1 & H2 & H3 & H4 & H5 & H6). unfold numbering_segment in E |- *. cbn [fresh tr sg]. destruct (segment_slices (tr n)) as [sl|]; cbn [bind] in E |- *; [|discriminate E]. destruct (number_slices start sl (sg n)) as [s'|]; cbn [bind] in E |- *; [|discriminate E]. apply Some_inj in E. subst n'. cbn [tr sg c_net c_arr c_seg] in *.
        repeat (split; [reflexivity|]). split; [|reflexivity]. destruct R as (R1 & R2 & R3). unfold right. cbn [c_net c_arr c_seg tr sg]. rewrite H6. repeat split; assumption.
      * cbn [bind]. unfold numbering_segment in E |- *. cbn [fresh tr sg]. destruct (segment_slices (tr n)) as [sl|]; cbn [bind] in E |- *; [|exact I]. destruct (number_slices start sl (sg n)) as [s'|]; cbn [bind] in E |- *; [discriminate E|exact I].
  - specialize (HN start eq_refl). destruct (numbering_network n start) as [n'|] eqn:E.
    + destruct (numbering_network_unique n n' start L SO E) as (H1 & H2 & H3 & H4 & H5 & H6 & H7). unfold numbering_network in E |- *. cbn [fresh tr sg]. destruct (new_numbering (tr n) start) as [t'|]; cbn [bind] in E |- *; [|discriminate E]. apply Some_inj in E. subst n'. cbn [tr sg c_net c_arr c_seg] in *.
      repeat (split; [reflexivity|]). split; [|reflexivity]. destruct R as (R1 & R2 & R3). unfold right. cbn [c_net c_arr c_seg tr sg]. rewrite H7, HN. split; [discriminate|]. split; assumption.
    + cbn [bind]. unfold numbering_network in E |- *. cbn [fresh tr sg]. destruct (new_numbering (tr n) start); cbn [bind] in E |- *; [discriminate E|exact I].
Qed.
(** Lengths and order of the columns after one call. *)
Lemma step_cols : forall t s c a n1, length s = length t -> nsorted t -> (forall o t', c = SortRows o -> gather t o = Some t' -> nsorted t') -> step (fresh t s) c = Some (a, n1) -> length (sg n1) = length (tr n1) /\ nsorted (tr n1).
Proof.
  intros t s c a n1 L SO HO E. assert (R : right (fresh t s)) by (repeat split; discriminate). pose proof (net_same _ R) as NS. pose proof (seg_same _ R) as SS. cbn [fresh tr sg] in NS, SS. change (Net t s None None None) with (fresh t s) in *.
  destruct c; cbn [step] in E; unfold network_size, nb_network, network_sizes, network_slice, segment_sizes, nb_segment, network_segment_size, unique_segment_to_id in E.
  1-4: destruct (index_network (fresh t s)) as [[[[f l] r] n2]|]; cbn [bind] in E; [|discriminate E]; destruct NS as (_ & T1 & G1 & _).
  5-8: destruct (index_segment (fresh t s)) as [[[[f l] r] n2]|]; cbn [bind] in E; [|discriminate E]; destruct SS as (_ & T1 & G1 & _).
  - destruct (sequence (map (size_at (f, l, r)) ids)); cbn [bind] in E; [|discriminate E]. injection E as _ <-. rewrite T1, G1. split; assumption.
  - injection E as _ <-. rewrite T1, G1. split; assumption.
  - injection E as _ <-. rewrite T1, G1. split; assumption.
  - destruct (pyget f (id - r)); cbn [bind] in E; [|discriminate E]. destruct (pyget l (id - r)); cbn [bind] in E; [|discriminate E]. injection E as _ <-. rewrite T1, G1. split; assumption.
  - injection E as _ <-. rewrite T1, G1. split; assumption.
  - injection E as _ <-. rewrite T1, G1. split; assumption.
  - destruct (gather (tr n2) f); cbn [bind] in E; [|discriminate E]. destruct (build_index (map Z.of_nat l0)) as [t3|]; cbn [bind] in E; [|discriminate E]. destruct (sequence (map (size_at t3) ids)); cbn [bind] in E; [|discriminate E]. injection E as _ <-. rewrite T1, G1. split; assumption.
  - match type of E with context [sequence ?x] => destruct (sequence x) end; cbn [bind] in E; [|discriminate E]. injection E as _ <-. rewrite T1, G1. split; assumption.
  - destruct (numbering_segment (fresh t s) start) as [n'|] eqn:EN; cbn [bind] in E; [|discriminate E]. injection E as _ <-. destruct t as [|t0 ts].
    + unfold numbering_segment in EN. cbn [fresh tr sg] in EN. destruct s; [|discriminate L]. cbn in EN. first [discriminate EN|apply Some_inj in EN; subst n'; cbn [tr sg]; split; assumption].
    + destruct (numbering_segment_unique (fresh (t0 :: ts) s) n' start L ltac:(discriminate) SO EN) as (H1 & H2 & _). cbn [fresh tr] in H1, H2. rewrite H1. split; assumption.
  - destruct (numbering_network (fresh t s) start) as [n'|] eqn:EN; cbn [bind] in E; [|discriminate E]. injection E as _ <-. destruct (numbering_network_unique (fresh t s) n' start L SO EN) as (H1 & H2 & H3 & _). cbn [fresh tr sg] in H2, H3. split; [congruence|exact H1].
  - unfold sort_tables in E. cbn [fresh tr sg] in E. destruct (gather t order) as [t'|] eqn:GT; cbn [bind] in E; [|discriminate E]. destruct (gather s order) as [s'|] eqn:GS; cbn [bind] in E; [|discriminate E]. injection E as _ <-. cbn [fresh tr sg]. apply gather_Some in GS as [LS _]. pose proof (HO order t' eq_refl GT). apply gather_Some in GT as [LT _]. split; [congruence|assumption].
Qed.
Lemma history : forall cs n asked, right n -> length (sg n) = length (tr n) -> nsorted (tr n) -> (asked = false -> c_net n = None) -> careful asked cs -> orders (tr n) (sg n) cs ->
  (let! (l, n') := run n cs in Some (l, (tr n', sg n'))) = afresh (tr n) (sg n) cs.
Proof.
  induction cs as [|c cs IH]; intros n asked R L SO A C O; [reflexivity|]. destruct O as [O1 O2]. cbn [run afresh].
  assert (HN : forall k, c = NumberNetworks k -> c_net n = None) by (intros k ->; cbn in C; apply A; apply C).
  assert (ST : match step n c, step (fresh (tr n) (sg n)) c with Some (a, n1), Some (a', n2) => a = a' /\ tr n1 = tr n2 /\ sg n1 = sg n2 /\ right n1 /\ exists asked', (asked' = false -> c_net n1 = None) /\ careful asked' cs | None, None => True | _, _ => False end).
  { pose proof (step_same n c R L SO HN) as S1. unfold agree in S1. destruct c; try (destruct (step n _) as [[a n1]|]; destruct (step (fresh (tr n) (sg n)) _) as [[a' n2]|]; try contradiction; [|exact I]; destruct S1 as (E1 & E2 & E3 & E4 & E5); repeat (split; [assumption|]); cbn [careful asks orb negb] in C, E5).
    1-4: exists (asked || true); split; [rewrite orb_true_r; discriminate|exact C].
    1-4: exists (asked || false); split; [rewrite orb_false_r; intros Q; rewrite E5 by reflexivity; apply A; exact Q|exact C].
    - exists (asked || false); split; [rewrite orb_false_r; intros Q; rewrite E5 by reflexivity; apply A; exact Q|exact C].
    - exists asked. split; [intros Q; rewrite E5 by reflexivity; apply A; exact Q|exact (proj2 C)].
    - cbn [step]. unfold sort_tables. cbn [fresh tr sg]. destruct (gather (tr n) order) as [t'|]; cbn [bind]; [|exact I]. destruct (gather (sg n) order) as [s'|]; cbn [bind]; [|exact I]. repeat (split; [reflexivity|]). split; [repeat split; discriminate|]. exists false. split; [reflexivity|exact C]. }
  destruct (step n c) as [[a n1]|]; destruct (step (fresh (tr n) (sg n)) c) as [[a' n2]|] eqn:EF; try contradiction; [|reflexivity]. destruct ST as (<- & ET & ES & R1 & asked' & A1 & C1). cbn [bind].
  destruct (step_cols (tr n) (sg n) c a n2 L SO O1 EF) as [L2 SO2]. specialize (IH n1 asked' R1). rewrite ET, ES in IH. specialize (IH L2 SO2 A1 C1 (O2 a n2 eq_refl)). rewrite <- IH. destruct (run n1 cs) as [[l n3]|]; reflexivity.
Qed.
(** Whatever the calls made before, each call of a careful history answers as a network with the present columns and no table would. *)
Theorem C104_tables : forall t s cs, length s = length t -> nsorted t -> careful false cs -> orders t s cs ->
  (let! (l, n') := run (fresh t s) cs in Some (l, (tr n', sg n'))) = afresh t s cs.
Proof. intros t s cs L SO C O. apply (history cs (fresh t s) false); [repeat split; discriminate|exact L|exact SO|reflexivity|exact C|exact O]. Qed.
Print Assumptions C104_tables.
Definition a_history : list call := [SegmentSizes; NumberNetworks 1; Sizes; NumberSegments 4; ToId [0; 3]%Z; SortRows [0; 1; 2; 3; 5; 4]; NumberNetworks 7; Size [7; 8]%Z].
Lemma sorted_case : nsorted [1; 1; 1; 2; 2; 2].
Proof. intros i j a b I A B. do 6 (destruct i as [|i]; [do 6 (destruct j as [|j]; [cbn in A, B; apply Some_inj in A, B; subst; lia|]); destruct j; discriminate B|]). destruct i; discriminate A. Qed.
Example C104_tables_case : careful false a_history /\ orders [2; 2; 2; 5; 5; 5] [1; 1; 2; 1; 1; 3] a_history /\
  (let! (l, n') := run (fresh [2; 2; 2; 5; 5; 5] [1; 1; 2; 1; 1; 3]) a_history in Some (l, (tr n', sg n'))) =
    Some ([[2; 1; 2; 1]; []; [3; 3]; []; [1; 4; 2; 5]; []; []; [3; 3]]%Z, ([7; 7; 7; 8; 8; 8], [4; 4; 5; 4; 5; 4])).
Proof.
  split; [cbn; tauto|]. split; [|vm_compute; reflexivity]. unfold a_history. cbn [orders].
  do 5 (split; [discriminate|]; intros a1 n1 E; vm_compute in E; apply Some_inj in E; apply (f_equal snd) in E; cbn [snd] in E; rewrite <- E; clear a1 n1 E; cbn [tr sg]).
  split; [intros o t' Q H; injection Q as <-; vm_compute in H; apply Some_inj in H; subst t'; exact sorted_case|]. intros a1 n1 E; vm_compute in E; apply Some_inj in E; apply (f_equal snd) in E; cbn [snd] in E; rewrite <- E; clear a1 n1 E; cbn [tr sg].
  do 1 (split; [discriminate|]; intros a1 n1 E; vm_compute in E; apply Some_inj in E; apply (f_equal snd) in E; cbn [snd] in E; rewrite <- E; clear a1 n1 E; cbn [tr sg]). split; [discriminate|]. intros a1 n1 E. exact I.
Qed.

(** numbering_segment: in each network the segments are numbered one after the other from [start]. *)
Theorem C104_numbering : forall t s start, length s = length t -> t <> [] -> nsorted t -> exists s', numbering_segment (fresh t s) start = Some (fresh t s') /\ length s' = length t /\
  (forall i x, nth_error t i = Some x -> (i = 0 \/ nth_error t (i - 1) <> Some x) -> nth_error s' i = Some start) /\
  (forall i x v v' y, nth_error t i = Some x -> nth_error t (S i) = Some x -> nth_error s i = Some v -> nth_error s (S i) = Some v' -> nth_error s' i = Some y -> nth_error s' (S i) = Some (if v' =? v then y else S y)).
Proof. intros t s start L N SO. exact (numbering_segment_spec (fresh t s) start L N SO). Qed.
Print Assumptions C104_numbering.
Example C104_numbering_case : option_map sg (numbering_segment (fresh [2; 2; 2; 5; 5; 5] [3; 4; 4; 4; 4; 9]) 1) = Some [1; 2; 2; 1; 1; 2].
Proof. reflexivity. Qed.

(** Once the table of networks has been asked for, new numbers leave it as it was: sizes are still asked by the former numbers. *)
Theorem C104_stale : forall t s start a n1 n2 ids, step (fresh t s) Sizes = Some (a, n1) -> numbering_network n1 start = Some n2 ->
  option_map fst (network_size n2 ids) = option_map fst (network_size (fresh t s) ids) /\ new_numbering t start = Some (tr n2).
Proof.
  intros t s start a n1 n2 ids E N. cbn [step] in E. unfold network_sizes, network_size in *. unfold index_network in E |- *. cbn [fresh c_net tr sg c_arr c_seg] in *. destruct (of_network t) as [[[f l] r]|]; cbn [bind] in E |- *; [|discriminate E]. injection E as _ <-. unfold numbering_network in N. cbn [tr sg c_net c_arr c_seg] in N. destruct (new_numbering t start) as [t'|]; cbn [bind] in N; [|discriminate N]. apply Some_inj in N. subst n2. cbn [c_net]. cbn [bind tr]. split; [|reflexivity]. destruct (sequence (map (size_at (f, l, r)) ids)); reflexivity.
Qed.
Print Assumptions C104_stale.
(** Networks 2 and 5 with 2 and 3 rows, numbered 1 and 2 once their sizes are known: network 1 is then said to have 3 rows. *)
Theorem C104_stale_refuted : exists t s n, run (fresh t s) [Sizes; NumberNetworks 1] = Some ([[2; 0; 0; 3]; []]%Z, n) /\ tr n = [1; 1; 2; 2; 2] /\ option_map fst (network_size n [1; 2]%Z) = Some [3; 2]%Z /\ option_map fst (network_size (fresh (tr n) (sg n)) [1; 2]%Z) = Some [2; 3]%Z.
Proof. exists [2; 2; 5; 5; 5], [1; 1; 1; 2; 2]. eexists. split; [reflexivity|]. repeat split. Qed.
Print Assumptions C104_stale_refuted.
