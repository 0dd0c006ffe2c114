(** * C146: the file of correspondences *)
From Coq Require Import List Arith Bool ZArith QArith String Lia.
From Verif Require Import Base Corf_model.
Import ListNotations.
Local Close Scope Q_scope.
Local Open Scope nat_scope.

(** ** Specification *)
Fixpoint longest (links : list (list link)) : nat := match links with [] => 0 | c :: links' => Nat.max (length c) (longest links') end.
(** The values of a link are within their types; without virtual observations the
    two last fields are not used. *)
Definition typed (nbv : Z) (l : link) : Prop :=
  (0 <= l_in l < 65536 /\ 0 <= l_out l < 65536 /\ 0 <= l_id l < 4294967296 /\ 0 <= l_vlen l < 256)%Z /\ ((nbv <= 0)%Z -> l_virtual l = false /\ l_vlen l = 0%Z).
(** A run after the tracking: one step between two files.  65535 is the value of a
    cell which is not there. *)
Definition tracked (r : run) : Prop :=
  length (r_datasets r) = S (length (r_links r)) /\ r_max r = longest (r_links r) /\
  forall c, In c (r_links r) -> (Z.of_nat (length c) < 65535)%Z /\ forall l, In l c -> typed (r_nbv r) l.
Definition no_empty_step (r : run) : Prop := r_links r <> [] /\ forall c, In c (r_links r) -> c <> [].

(** ** Lemmas *)
Lemma longest_ge : forall links c, In c links -> length c <= longest links.
Proof. induction links as [|a l IH]; intros c I; [destruct I|]. cbn. destruct I as [<-|I]; [lia|]. specialize (IH c I). lia. Qed.
Lemma longest_zero : forall links, longest links = 0 <-> forall c, In c links -> c = [].
Proof.
  induction links as [|a l IH]; cbn; [split; [intros _ c []|reflexivity]|]. split.
  - intros H c [<-|I]; [apply length_zero_iff_nil; lia|]. apply IH; [lia|exact I].
  - intros H. rewrite (H a (or_introl eq_refl)). cbn. apply IH. auto.
Qed.
Lemma get_filename_const : forall d, get_filename d = "In memory file"%string.
Proof. intros [s|s|s]; reflexivity. Qed.
Lemma cells_pad : forall {A} (d : A) n l, cells d (pad n l) (Z.of_nat (length l)) = l.
Proof.
  intros A d n l. unfold cells, pad. rewrite Nat2Z.id. rewrite <- (map_length (@Some A) l) at 1. rewrite firstn_app, Nat.sub_diag, firstn_all. cbn [firstn]. rewrite app_nil_r, map_map. apply map_id.
Qed.
Lemma column_nth : forall {A} (g : link -> A) n s links i c, nth_error links i = Some c -> nth_error (column g n s links) i = Some (pad n (map g c)).
Proof.
  intros A g n s links i c H. unfold column. rewrite nth_error_app1; [rewrite nth_error_map, H; reflexivity|]. rewrite map_length. apply nth_error_Some. congruence.
Qed.
Lemma u2_small : forall z, (0 <= z < 65536)%Z -> u2 z = z.
Proof. intros z H. apply Z.mod_small. exact H. Qed.
Definition file_of (r : run) : file :=
  let nb_step := length (r_datasets r) - 1 in
  let virtual := (0 <? r_nbv r)%Z in
  {| f_in := map get_filename (removelast (r_datasets r)); f_out := map get_filename (tl (r_datasets r));
     f_nb := pad nb_step (map (fun c => u2 (Z.of_nat (length c))) (r_links r));
     v_in := column l_in (r_max r) nb_step (r_links r); v_out := column l_out (r_max r) nb_step (r_links r); v_id := column l_id (r_max r) nb_step (r_links r); v_cost := column l_cost (r_max r) nb_step (r_links r);
     v_virtual := if virtual then Some (column (fun l => if l_virtual l then 1 else 0)%Z (r_max r) nb_step (r_links r)) else None;
     v_vlen := if virtual then Some (column l_vlen (r_max r) nb_step (r_links r)) else None;
     f_nbv := r_nbv r; f_id := r_id r |}.
Lemma combine_map6 : forall {A} (ll : list A) (F : A -> link) (a b c v l : A -> Z) (q : A -> Q) (w : A -> bool),
  (forall x, In x ll -> mklink (a x) (b x) (c x) (q x) (w x) (l x) = F x) ->
  map (fun t => let '(((((a, b), c), q), v), l) := t in mklink a b c q v l) (combine (combine (combine (combine (combine (map a ll) (map b ll)) (map c ll)) (map q ll)) (map w ll)) (map l ll)) = map F ll.
Proof.
  intros A ll F a b c v l q w H. induction ll as [|x ll IH]; cbn; [reflexivity|]. rewrite (H x (or_introl eq_refl)). f_equal. apply IH. intros y Y. apply H. right. exact Y.
Qed.
Lemma links_back : forall r i c, nth_error (r_links r) i = Some c -> (forall l, In l c -> typed (r_nbv r) l) -> links_of (file_of r) i (Z.of_nat (length c)) = Some c.
Proof.
  intros r i c N T. unfold links_of, file_of. cbn [v_in v_out v_id v_cost v_virtual v_vlen f_nbv].
  rewrite !(column_nth _ _ _ _ _ _ N). cbn [bind].
  assert (CP : forall {A} (d : A) n (g : link -> A), cells d (pad n (map g c)) (Z.of_nat (length c)) = map g c) by (intros A d n g; pose proof (cells_pad d n (map g c)) as X; rewrite map_length in X; exact X).
  rewrite !CP. destruct (0 <? r_nbv r)%Z eqn:V.
  - cbn [bind]. rewrite !(column_nth _ _ _ _ _ _ N). cbn [bind]. rewrite !CP, map_map. f_equal.
    rewrite (combine_map6 c (fun l => l)); [apply map_id|exact l_in|]. intros [x1 x2 x3 x4 x5 x6] I. cbn. f_equal. destruct x5; reflexivity.
  - apply Z.ltb_ge in V. cbn [bind]. rewrite !map_map. f_equal. rewrite (combine_map6 c (fun l => l)); [apply map_id|exact l_in|]. intros [x1 x2 x3 x4 x5 x6] I. destruct (proj2 (T _ I) V) as [E1 E2]. cbn in *. subst. reflexivity.
Qed.
(** The links loaded one after the other. *)
Fixpoint highest (m : Z) (links : list (list link)) : Z :=
  match links with [] => m | c :: links' => highest (fold_left (fun m b => Z.max m (l_id b)) c m) links' end.
Lemma fold_max : forall l a m, Z.max m (fold_left (fun m b => Z.max m (l_id b)) l a) = fold_left (fun m b => Z.max m (l_id b)) l (Z.max m a).
Proof. induction l as [|b l IH]; intros a m; cbn; [reflexivity|]. rewrite IH. f_equal. lia. Qed.
Lemma max_id_fold : forall c m, c <> [] -> exists k, max_id c = Some k /\ Z.max m k = fold_left (fun m b => Z.max m (l_id b)) c m.
Proof. intros [|a c] m N; [congruence|]. eexists. split; [reflexivity|]. cbn [fold_left]. apply fold_max. Qed.
Lemma load_all : forall f links i m r, (forall k c, nth_error links k = Some c -> c <> [] /\ links_of f (i + k) (Z.of_nat (length c)) = Some c) ->
  exists r', load_steps f i (map (fun c => Some (Z.of_nat (length c))) links) m r = Some (r', highest m links) /\
    r_datasets r' = r_datasets r /\ r_links r' = r_links r ++ links /\ r_max r' = Nat.max (r_max r) (longest links) /\ r_nbv r' = r_nbv r.
Proof.
  intros f. induction links as [|c links IH]; intros i m r H; cbn [map load_steps highest].
  - exists r. rewrite app_nil_r. cbn. rewrite Nat.max_0_r. auto.
  - destruct (H 0 c eq_refl) as [N L]. rewrite Nat.add_0_r in L. cbn [bind]. rewrite L. cbn [bind]. destruct (max_id_fold c m N) as (k & K1 & K2). rewrite K1. cbn [bind]. rewrite K2.
    destruct (IH (S i) (fold_left (fun m b => Z.max m (l_id b)) c m) (append r c)) as (r' & A & B & C & D & E).
    { intros j d J. specialize (H (S j) d J). rewrite Nat.add_succ_r in H. exact H. }
    exists r'. split; [exact A|]. cbn [append r_datasets r_links r_max r_nbv] in *. split; [exact B|]. split; [rewrite C, <- app_assoc; reflexivity|]. split; [|exact E]. rewrite D. cbn [longest]. lia.
Qed.
Lemma save_ok : forall r, tracked r -> (exists c, In c (r_links r) /\ c <> []) -> to_netcdf r = Some (file_of r).
Proof.
  intros r (L & M & T) (c & I & N). unfold to_netcdf. rewrite L. replace (S (length (r_links r)) - 1) with (length (r_links r)) by lia.
  rewrite Nat.ltb_irrefl. assert (E : existsb (fun c => r_max r <? length c) (r_links r) = false).
  { destruct (existsb _ _) eqn:X; [|reflexivity]. apply existsb_exists in X. destruct X as (d & D & X). apply Nat.ltb_lt in X. pose proof (longest_ge _ _ D). lia. }
  rewrite E. assert (L1 : length (r_links r) <> 0) by (destruct (r_links r); [destruct I|discriminate]).
  assert (L2 : r_max r <> 0) by (rewrite M; intros X; apply N; eapply longest_zero; eauto).
  apply Nat.eqb_neq in L1, L2. rewrite L1, L2. cbn [orb]. unfold file_of. rewrite L. replace (S (length (r_links r)) - 1) with (length (r_links r)) by lia. reflexivity.
Qed.
Lemma highest_spec : forall links m, (forall c l, In c links -> In l c -> (l_id l <= highest m links)%Z) /\ (m <= highest m links)%Z /\ (highest m links = m \/ exists c l, In c links /\ In l c /\ highest m links = l_id l).
Proof.
  assert (F : forall c m, (forall l, In l c -> (l_id l <= fold_left (fun m b => Z.max m (l_id b)) c m)%Z) /\ (m <= fold_left (fun m b => Z.max m (l_id b)) c m)%Z /\
     (fold_left (fun m b => Z.max m (l_id b)) c m = m \/ exists l, In l c /\ fold_left (fun m b => Z.max m (l_id b)) c m = l_id l)).
  { induction c as [|a c IH]; intros m; cbn [fold_left]; [split; [intros l []|split; [lia|left; reflexivity]]|].
    destruct (IH (Z.max m (l_id a))) as (A & B & C). split; [intros l [<-|I]; [lia|apply A; exact I]|]. split; [lia|].
    destruct C as [C|(l & I & C)]; [|right; exists l; split; [right; exact I|exact C]]. rewrite C. destruct (Z.max_spec m (l_id a)) as [[_ X]|[_ X]]; rewrite X; [right; exists a; split; [left; reflexivity|reflexivity]|left; reflexivity]. }
  induction links as [|c links IH]; intros m; cbn [highest]; [split; [intros c l []|split; [lia|left; reflexivity]]|].
  destruct (F c m) as (A & B & C). destruct (IH (fold_left (fun m b => Z.max m (l_id b)) c m)) as (A' & B' & C'). split.
  - intros d l [<-|D] I; [specialize (A l I); lia|eapply A'; eauto].
  - split; [lia|]. destruct C' as [C'|(d & l & D & I & C')]; [|right; exists d, l; split; [right; exact D|auto]]. rewrite C'. destruct C as [C|(l & I & C)]; [left; exact C|right; exists c, l; split; [left; reflexivity|auto]].
Qed.

(** A run without empty step is saved and loaded with the same links, in the same
    order, each value in its field; the next number is that after the highest one.
    But each file has become "In memory file". *)
Theorem C146_round_trip : forall r, tracked r -> no_empty_step r ->
  exists f r', to_netcdf r = Some f /\ from_netcdf f = Some r' /\ r_links r' = r_links r /\ r_max r' = r_max r /\ r_nbv r' = r_nbv r /\ f_id f = r_id r /\
    (forall c l, In c (r_links r) -> In l c -> (l_id l < r_id r')%Z) /\ (exists c l, In c (r_links r) /\ In l c /\ r_id r' = l_id l + 1)%Z /\
    r_datasets r' = repeat (Name "In memory file") (length (r_datasets r)).
Proof.
  intros r TR (NE & NS). pose proof TR as (L & M & T). exists (file_of r).
  assert (SV : to_netcdf r = Some (file_of r)). { apply save_ok; [exact TR|]. destruct (r_links r) as [|c l] eqn:E; [congruence|]. exists c. split; [left; reflexivity|apply NS; left; reflexivity]. }
  assert (NB : f_nb (file_of r) = map (fun c => Some (Z.of_nat (length c))) (r_links r)).
  { unfold file_of. cbn [f_nb]. unfold pad. rewrite L, map_length. replace (S (length (r_links r)) - 1 - length (r_links r)) with 0 by lia. cbn [repeat]. rewrite app_nil_r, map_map. apply map_ext_in. intros c I. rewrite u2_small; [reflexivity|]. destruct (T c I). lia. }
  assert (LK : exists d0 d1 ds, r_datasets r = d0 :: d1 :: ds).
  { destruct (r_links r) as [|c l]; [congruence|]. cbn in L. destruct (r_datasets r) as [|d0 [|d1 ds]]; cbn in L; try lia. eauto. }
  set (r0 := {| r_datasets := map Name (f_in (file_of r) ++ [last (f_out (file_of r)) ""%string]); r_links := []; r_max := 0; r_nbv := f_nbv (file_of r); r_id := 0 |}).
  destruct (load_all (file_of r) (r_links r) 0 0 r0) as (r' & A & B & C & D & E).
  { intros k c K. split; [apply NS; eapply nth_error_In; exact K|]. apply links_back; [exact K|]. apply (T c). eapply nth_error_In. exact K. }
  exists (set_id r' (highest 0 (r_links r) + 1)%Z). split; [exact SV|]. split.
  { unfold from_netcdf. rewrite NB. fold r0. rewrite A. cbn [bind fst snd]. destruct LK as (d0 & d1 & ds & LK). unfold file_of at 1. cbn [f_out]. rewrite LK. reflexivity. }
  cbn [set_id r_links r_max r_nbv r_id r_datasets]. split; [rewrite C; reflexivity|]. split; [rewrite D, M; reflexivity|]. split; [rewrite E; reflexivity|]. split; [reflexivity|].
  destruct (highest_spec (r_links r) 0) as (H1 & H2 & H3). split; [intros c l I J; specialize (H1 c l I J); lia|]. split.
  { destruct H3 as [H3|(c & l & I & J & H3)]; [|exists c, l; rewrite H3; auto]. destruct (r_links r) as [|c l] eqn:RL; [congruence|]. assert (CN : c <> []) by (apply NS; left; reflexivity). destruct c as [|x c]; [congruence|].
    exists (x :: c), x. split; [left; reflexivity|]. split; [left; reflexivity|]. specialize (H1 (x :: c) x (or_introl eq_refl) (or_introl eq_refl)). destruct (T (x :: c) (or_introl eq_refl)) as [_ TT]. destruct (TT x (or_introl eq_refl)) as [(_ & _ & X & _) _]. lia. }
  rewrite B. subst r0. cbn [r_datasets]. unfold file_of. cbn [f_in f_out].
  assert (CN : forall l, map get_filename l = repeat "In memory file"%string (length l)) by (induction l as [|x l IH]; [reflexivity|]; cbn [map repeat length]; rewrite get_filename_const, IH; reflexivity).
  rewrite !CN. destruct LK as (d0 & d1 & ds & LK). rewrite LK.
  assert (RL : length (removelast (d0 :: d1 :: ds)) = S (length ds)).
  { clear. revert d0 d1. induction ds as [|x ds IH]; intros d0 d1; [reflexivity|]. change (length (removelast (d0 :: d1 :: x :: ds))) with (S (length (removelast (d1 :: x :: ds)))). rewrite IH. reflexivity. }
  rewrite RL. cbn [tl]. assert (LA : forall n (s : string), last (repeat s (S n)) ""%string = s) by (induction n as [|n IH]; intros s; [reflexivity|]; change (last (repeat s (S (S n))) ""%string) with (last (repeat s (S n)) ""%string); apply IH).
  cbn [length]. rewrite LA. assert (RA : forall n (s : string), repeat s n ++ [s] = repeat s (S n)) by (induction n as [|n IH]; intros s; [reflexivity|]; cbn [repeat app]; rewrite IH; reflexivity).
  rewrite RA. clear. generalize (S (S (length ds))) as n. induction n as [|n IH]; [reflexivity|]. cbn [repeat map]. rewrite IH. reflexivity.
Qed.
Print Assumptions C146_round_trip.

(** Two runs saved then loaded are never joined: the command which joins files
    fails on any two files. *)
Theorem C146_join_refuted : forall r1 r2 f1 f2 s1 s2, tracked r1 -> tracked r2 -> no_empty_step r1 -> no_empty_step r2 ->
  to_netcdf r1 = Some f1 -> to_netcdf r2 = Some f2 -> from_netcdf f1 = Some s1 -> from_netcdf f2 = Some s2 -> junction s1 s2 = None.
Proof.
  intros r1 r2 f1 f2 s1 s2 T1 T2 N1 N2 A1 A2 B1 B2. destruct (C146_round_trip r1 T1 N1) as (g1 & u1 & X1 & Y1 & _ & _ & _ & _ & _ & _ & D1). destruct (C146_round_trip r2 T2 N2) as (g2 & u2' & X2 & Y2 & _ & _ & _ & _ & _ & _ & D2).
  rewrite X1 in A1. injection A1 as <-. rewrite X2 in A2. injection A2 as <-. rewrite Y1 in B1. injection B1 as <-. rewrite Y2 in B2. injection B2 as <-.
  unfold junction. destruct (r_nbv u1 =? r_nbv u2')%Z; [|reflexivity]. cbn [negb]. rewrite D1, D2.
  destruct T2 as (L2 & _). destruct N2 as (NE2 & _). destruct (r_links r2) as [|c l]; [congruence|]. cbn in L2. rewrite L2.
  destruct (nth_error (rev (repeat (Name "In memory file") (length (r_datasets r1)))) 0) as [d|] eqn:E; [|reflexivity]. cbn [bind].
  assert (DN : d = Name "In memory file"). { apply nth_error_In in E. apply in_rev in E. apply repeat_spec in E. exact E. }
  subst d. cbn [repeat length seq combine filter snd]. reflexivity.
Qed.
Print Assumptions C146_join_refuted.

(** A step without link: the run is saved, but the file cannot be loaded; a run
    without any link cannot be saved. *)
Theorem C146_empty_step : forall r, tracked r -> (exists c, In c (r_links r) /\ c = []) ->
  ((exists c, In c (r_links r) /\ c <> []) -> exists f, to_netcdf r = Some f /\ from_netcdf f = None) /\
  ((forall c, In c (r_links r) -> c = []) -> to_netcdf r = None).
Proof.
  intros r TR (c & CI & CE). subst c. pose proof TR as (L & M & T). split.
  - intros X. exists (file_of r). split; [apply save_ok; assumption|]. unfold from_netcdf. destruct (f_out (file_of r)); [reflexivity|].
    assert (NB : f_nb (file_of r) = map (fun c => Some (Z.of_nat (length c))) (r_links r)).
    { unfold file_of. cbn [f_nb]. unfold pad. rewrite L, map_length. replace (S (length (r_links r)) - 1 - length (r_links r)) with 0 by lia. cbn [repeat]. rewrite app_nil_r, map_map. apply map_ext_in. intros c I. rewrite u2_small; [reflexivity|]. destruct (T c I). lia. }
    rewrite NB. match goal with |- (let! s := load_steps _ _ _ _ ?r0 in _) = None => generalize r0 end.
    assert (H : forall links i m q, (forall k c, nth_error links k = Some c -> links_of (file_of r) (i + k) (Z.of_nat (length c)) = Some c) -> In [] links ->
       load_steps (file_of r) i (map (fun c => Some (Z.of_nat (length c))) links) m q = None).
    { induction links as [|c links IH]; intros i m q H I; [destruct I|]. cbn [map load_steps bind]. pose proof (H 0 c eq_refl) as H0. rewrite Nat.add_0_r in H0. rewrite H0. cbn [bind].
      destruct I as [->|I]; [reflexivity|]. destruct (max_id c) as [k|]; [|reflexivity]. cbn [bind]. apply IH; [|exact I]. intros j d J. specialize (H (S j) d J). rewrite Nat.add_succ_r in H. exact H. }
    intros q. rewrite H; [reflexivity| |exact CI]. intros k c K. apply links_back; [exact K|]. apply (T c). eapply nth_error_In. exact K.
  - intros X. apply longest_zero in X. unfold to_netcdf. destruct (_ <? _); [reflexivity|]. destruct (existsb _ _); [reflexivity|]. rewrite M, X. cbn. rewrite orb_true_r. reflexivity.
Qed.
Print Assumptions C146_empty_step.

(** Runs joined in memory: when a step of the second one has more links than all
    those of the first one, the outcome cannot be saved. *)
Theorem C146_join_save : forall r steps names id, tracked r -> (exists c, In c steps /\ longest (r_links r) < length c) -> to_netcdf (extend r steps names id) = None.
Proof.
  intros r steps names id (L & M & T) (c & I & C). unfold to_netcdf, extend. cbn [r_datasets r_links r_max]. destruct (_ <? _); [reflexivity|].
  assert (E : existsb (fun c => r_max r <? length c) (r_links r ++ steps) = true). { apply existsb_exists. exists c. split; [apply in_or_app; right; exact I|]. apply Nat.ltb_lt. lia. }
  rewrite E. reflexivity.
Qed.
Print Assumptions C146_join_save.

(** The indices of a link are those of the observations if and only if they are
    below 65536. *)
Theorem C146_width : forall i j id q v n, (0 <= i)%Z -> (0 <= j)%Z ->
  (l_in (new_link i j id q v n) = i <-> (i < 65536)%Z) /\ (l_out (new_link i j id q v n) = j <-> (j < 65536)%Z) /\
  (0 <= l_in (new_link i j id q v n) < 65536 /\ 0 <= l_out (new_link i j id q v n) < 65536)%Z.
Proof.
  intros i j id q v n I J. cbn. unfold u2. pose proof (Z.mod_pos_bound i 65536 ltac:(lia)). pose proof (Z.mod_pos_bound j 65536 ltac:(lia)).
  repeat split; try lia; intros X; try lia; apply Z.mod_small; lia.
Qed.
Print Assumptions C146_width.

(** ** Case: three files, steps of one and two links. *)
Definition case_run : run :=
  {| r_datasets := [Name "a_1.nc"; Name "a_2.nc"; Name "a_3.nc"];
     r_links := [[mklink 4 2 0 (1#2) false 255]; [mklink 2 7 0 (1#4) false 255; mklink 9 1 1 1 true 3]]; r_max := 2; r_nbv := 4; r_id := 2 |}%Z.
Example C146_case : tracked case_run /\ no_empty_step case_run /\
  match to_netcdf case_run with
  | Some f => v_id f = [[Some 0; None]; [Some 0; Some 1]]%Z /\ from_netcdf f = Some {| r_datasets := repeat (Name "In memory file") 3; r_links := r_links case_run; r_max := 2; r_nbv := 4; r_id := 2 |}%Z
  | None => False
  end.
Proof.
  split; [|split; [|vm_compute; split; reflexivity]].
  - split; [reflexivity|]. split; [reflexivity|]. intros c I. cbn in I. destruct I as [<-|[<-|[]]]; (split; [reflexivity|]); intros l I; cbn in I; unfold typed; repeat destruct I as [<-|I]; try (cbn; lia); destruct I.
  - split; [discriminate|]. intros c I. cbn in I. destruct I as [<-|[<-|[]]]; discriminate.
Qed.
(** The same run in memory is joined with a second one at its last file. *)
Example C146_case_memory : junction case_run {| r_datasets := [Name "a_2.nc"; Name "a_3.nc"; Name "a_4.nc"]; r_links := []; r_max := 0; r_nbv := 4; r_id := 0 |}%Z = Some 1.
Proof. reflexivity. Qed.
