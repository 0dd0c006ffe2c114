(** C158: tables of correspondences which share their arrays. *)
From Coq Require Import List Arith Bool QArith Lia.
Import ListNotations.
From Verif Require Import Base Generic_model Generic_proofs Corr_model Cpy_model.
Local Close Scope Q_scope.
Local Open Scope nat_scope.

(** ** Specification *)
(** The table [i] has these counts by track, this number of tracks, and its arrays hold these
    correspondences. *)
Definition content (w : world) (i : nat) (nb : list nat) (id : nat) (ls : list (list corr)) : Prop :=
  exists t, nth_error (w_tables w) i = Some t /\ t_nb t = nb /\ t_id t = id /\ Forall2 (fun a l => nth_error (w_arrays w) a = Some l) (t_links t) ls.
(** The operation does not select in the table [j]. *)
Definition elsewhere (j : nat) (o : op) : Prop := match o with Copy _ => True | Longer i _ => i <> j | Shorter i _ => i <> j end.

(** ** Lemmas *)
Lemma held_links : forall arrays t ls, Forall2 (fun a l => nth_error arrays a = Some l) (t_links t) ls -> links arrays t = Some ls.
Proof. intros arrays t ls H. unfold links. induction H as [|a l la ll E _ IH]; [reflexivity|]. cbn [map sequence]. rewrite E. cbn [bind]. rewrite IH. reflexivity. Qed.
Lemma held_more : forall arrays more la ls, Forall2 (fun a (l : list corr) => nth_error arrays a = Some l) la ls -> Forall2 (fun a l => nth_error (arrays ++ more) a = Some l) la ls.
Proof. intros arrays more la ls H. induction H as [|a l la ls E _ IH]; constructor; [|exact IH]. rewrite nth_error_app1; [exact E|]. apply nth_error_Some. congruence. Qed.
Lemma loop_shared : forall keep tr la arrays ls, Forall2 (fun a l => nth_error arrays a = Some l) la ls ->
  match keep_loop keep tr ls with
  | Some ls' => exists more la', keep_loop_shared keep tr la arrays = Some (arrays ++ more, la') /\ Forall2 (fun a l => nth_error (arrays ++ more) a = Some l) la' ls'
  | None => keep_loop_shared keep tr la arrays = None
  end.
Proof.
  intros keep tr la. induction la as [|a la IH]; intros arrays ls H; inversion H as [|? l ? ls0 E H']; subst; cbn [keep_loop keep_loop_shared].
  - exists [], []. rewrite app_nil_r. split; [reflexivity|constructor].
  - rewrite E. cbn [bind]. remember (filter (fun c => mem (c_id c) keep) l) as kept. rewrite nth_error_app2, Nat.sub_diag by lia. cbn [nth_error bind]. destruct (gather tr (map c_id kept)) as [ids|]; [|reflexivity]. cbn [bind].
    remember (map (fun p => with_id (fst p) (snd p)) (combine kept ids)) as new. assert (U : upd (arrays ++ [kept]) (length arrays) new = arrays ++ [new]) by (rewrite <- (Nat.add_0_r (length arrays)), upd_app2; reflexivity). rewrite U.
    specialize (IH (arrays ++ [new]) ls0 (held_more _ _ _ _ H')). destruct (keep_loop keep tr ls0) as [r|]; cbn [bind]; [|rewrite IH; reflexivity].
    destruct IH as (more & la' & -> & F). cbn [bind fst snd]. exists (new :: more), (length arrays :: la'). rewrite <- app_assoc in *. cbn [app] in *. split; [reflexivity|]. constructor; [|exact F].
    rewrite nth_error_app2, Nat.sub_diag by lia. reflexivity.
Qed.
Lemma select_spec : forall w i t keep nb id ls, nth_error (w_tables w) i = Some t -> content w i nb id ls ->
  match (let! nb' := gather nb keep in let! ls' := keep_tracks keep ls in Some (nb', ls')) with
  | Some (nb', ls') => exists w', select w i t keep = Some w' /\ content w' i nb' (length nb') ls'
  | None => select w i t keep = None
  end.
Proof.
  intros w i t keep nb id ls T (t' & T' & N & _ & F). rewrite T in T'. injection T' as <-. unfold select. rewrite N. destruct (gather nb keep) as [nb'|]; [|reflexivity]. cbn [bind]. unfold keep_tracks. destruct keep as [|k keep]; [reflexivity|].
  destruct (stores _ _ _) as [tr|]; [|reflexivity]. cbn [bind]. pose proof (loop_shared (k :: keep) tr _ _ _ F) as L. destruct (keep_loop (k :: keep) tr ls) as [ls'|]; cbn [bind]; [|rewrite L; reflexivity].
  destruct L as (more & la' & -> & F'). cbn [bind fst snd]. eexists. split; [reflexivity|]. unfold content. cbn [w_tables w_arrays]. exists (Table la' nb' (length nb')). split; [apply nth_error_upd_eq, nth_error_Some; congruence|]. repeat split. exact F'.
Qed.
(** What an operation leaves: the arrays which were there, and the tables but its own. *)
Lemma select_frame : forall w i t keep w', select w i t keep = Some w' -> exists more t', w_arrays w' = w_arrays w ++ more /\ w_tables w' = upd (w_tables w) i t'.
Proof.
  assert (L : forall keep tr la arrays r, keep_loop_shared keep tr la arrays = Some r -> exists more, fst r = arrays ++ more).
  { intros keep tr la. induction la as [|a la IH]; intros arrays r H; cbn [keep_loop_shared] in H; [injection H as <-; exists []; cbn; now rewrite app_nil_r|].
    destruct (nth_error arrays a) as [l|]; [|discriminate]. cbn [bind] in H. remember (filter (fun c => mem (c_id c) keep) l) as kept. rewrite nth_error_app2, Nat.sub_diag in H by lia. cbn [nth_error bind] in H. destruct (gather tr (map c_id kept)) as [ids|]; [|discriminate]. cbn [bind] in H.
    remember (map (fun p => with_id (fst p) (snd p)) (combine kept ids)) as new. assert (U : upd (arrays ++ [kept]) (length arrays) new = arrays ++ [new]) by (rewrite <- (Nat.add_0_r (length arrays)), upd_app2; reflexivity). rewrite U in H.
    destruct (keep_loop_shared keep tr la (arrays ++ [new])) as [r'|] eqn:E; [|discriminate]. cbn [bind] in H. injection H as <-. cbn [fst]. destruct (IH _ _ E) as (more & ->). exists (new :: more). now rewrite <- app_assoc. }
  intros w i t keep w' H. unfold select in H. destruct (gather (t_nb t) keep) as [nb|]; [|discriminate]. cbn [bind] in H. destruct keep as [|k keep]; [discriminate|]. destruct (stores _ _ _) as [tr|]; [|discriminate]. cbn [bind] in H.
  destruct (keep_loop_shared _ _ _ _) as [r|] eqn:E; [|discriminate]. cbn [bind] in H. injection H as <-. destruct (L _ _ _ _ _ E) as (more & M). exists more. eexists. split; [exact M|reflexivity].
Qed.
Lemma content_frame : forall w w' i j more t' nb id ls, i <> j -> w_arrays w' = w_arrays w ++ more -> w_tables w' = upd (w_tables w) i t' -> content w j nb id ls -> content w' j nb id ls.
Proof.
  intros w w' i j more t' nb id ls N A T (t & H & H1 & H2 & H3). exists t. rewrite T, nth_error_upd_neq by congruence. rewrite A. repeat split; auto. now apply held_more.
Qed.
Lemma step_frame : forall w o w' j nb id ls, elsewhere j o -> step w o = Some w' -> content w j nb id ls -> content w' j nb id ls.
Proof.
  intros w o w' j nb id ls N E C. destruct o as [i|i n|i n]; cbn [step elsewhere] in *.
  - unfold copy in E. destruct (nth_error (w_tables w) i) as [t|]; [|discriminate]. cbn [bind] in E. destruct (prepare _ _ _) as [t'|]; [|discriminate]. cbn [bind] in E. injection E as <-. destruct C as (u & H & H1 & H2 & H3). exists u. cbn [w_tables w_arrays]. rewrite nth_error_app1 by (apply nth_error_Some; congruence). auto.
  - unfold longer in E. destruct (nth_error (w_tables w) i) as [t|]; [|discriminate]. cbn [bind] in E. destruct (negb _); [injection E as <-; exact C|]. destruct (select_frame _ _ _ _ _ E) as (more & t' & A & T). exact (content_frame _ _ _ _ _ _ _ _ _ N A T C).
  - unfold shorter in E. destruct (nth_error (w_tables w) i) as [t|]; [|discriminate]. cbn [bind] in E. destruct (select_frame _ _ _ _ _ E) as (more & t' & A & T). exact (content_frame _ _ _ _ _ _ _ _ _ N A T C).
Qed.

(** ** Theorems *)
(** A selection in a table gives what the selection on values gives,
    and fails exactly when it fails. *)
Theorem C158_selection : forall w i nb id ls n, content w i nb id ls ->
  match longer_than n nb ls with
  | Some (nb', ls') => exists w', longer w i n = Some w' /\ content w' i nb' (if existsb (fun k => n <=? k) nb then length nb' else id) ls'
  | None => longer w i n = None
  end /\
  match shorter_than n nb ls with
  | Some (nb', ls') => exists w', shorter w i n = Some w' /\ content w' i nb' (length nb') ls'
  | None => shorter w i n = None
  end.
Proof.
  intros w i nb id ls n C. destruct C as (t & T & N & I & F). assert (C : content w i nb id ls) by (exists t; auto). split.
  - unfold longer_than, longer. rewrite T. cbn [bind]. rewrite N. assert (X : existsb (fun b : bool => b) (map (fun k => n <=? k) nb) = existsb (fun k => n <=? k) nb) by (clear; induction nb as [|a l IH]; [reflexivity|]; cbn; now rewrite IH). rewrite X. destruct (existsb (fun k => n <=? k) nb); cbn [negb].
    + exact (select_spec w i t (where_ (map (fun k => n <=? k) nb)) nb id ls T C).
    + exists w. split; [reflexivity|exact C].
  - unfold shorter_than, shorter. rewrite T. cbn [bind]. rewrite N. exact (select_spec w i t (where_ (map (fun k => k <? n) nb)) nb id ls T C).
Qed.
Print Assumptions C158_selection.

(** Copies and selections in other tables, however many, do not change a table. *)
Theorem C158_independent : forall l w w' j nb id ls, Forall (elsewhere j) l -> run w l = Some w' -> content w j nb id ls -> content w' j nb id ls.
Proof.
  induction l as [|o l IH]; intros w w' j nb id ls F E C; cbn [run] in E; [injection E as <-; exact C|]. inversion F as [|? ? F1 F2]; subst. destruct (step w o) as [w1|] eqn:S1; [|discriminate]. cbn [bind] in E.
  apply (IH w1 w' j nb id ls F2 E). exact (step_frame _ _ _ _ _ _ _ F1 S1 C).
Qed.
Print Assumptions C158_independent.

(** A copy is a new table with the same correspondences, whose observations are counted anew;
    it has the counts of a table which was just counted. *)
Theorem C158_copied : forall w i nb id ls nb', content w i nb id ls -> nb_obs_by_tracks (w_virtual w) id ls = Some nb' ->
  exists w', copy w i = Some w' /\ length (w_tables w') = S (length (w_tables w)) /\ w_virtual w' = w_virtual w /\ content w' (length (w_tables w)) nb' id ls /\ forall j mb jd ms, content w j mb jd ms -> content w' j mb jd ms.
Proof.
  intros w i nb id ls nb' C N. destruct C as (t & T & _ & I & F). assert (E : copy w i = Some (World (w_arrays w) (w_tables w ++ [Table (t_links t) nb' id]) (w_virtual w))).
  { unfold copy, prepare. rewrite T. cbn [bind]. rewrite (held_links _ _ _ F). cbn [bind]. rewrite I, N. reflexivity. }
  eexists. split; [exact E|]. cbn [w_tables w_virtual]. split; [rewrite app_length; cbn; lia|]. split; [reflexivity|]. split.
  - eexists. cbn [w_tables w_arrays]. rewrite nth_error_app2, Nat.sub_diag by lia. split; [reflexivity|]. repeat split. exact F.
  - intros j mb jd ms. exact (step_frame w (Copy i) _ j mb jd ms Logic.I E).
Qed.
Print Assumptions C158_copied.

(** The long tracks are selected in a table and the short ones in its copy: each selection
    gives what it gives on the whole table, in whatever order they are done. *)
Theorem C158_split : forall w i nb id ls n nb_s ls_s nb_l ls_l, content w i nb id ls -> nb_obs_by_tracks (w_virtual w) id ls = Some nb -> shorter_than n nb ls = Some (nb_s, ls_s) -> longer_than n nb ls = Some (nb_l, ls_l) ->
  let k := length (w_tables w) in
  forall l, l = [Copy i; Shorter k n; Longer i n] \/ l = [Copy i; Longer i n; Shorter k n] -> exists w' id', run w l = Some w' /\ content w' k nb_s (length nb_s) ls_s /\ content w' i nb_l id' ls_l.
Proof.
  intros w i nb id ls n nb_s ls_s nb_l ls_l C N S1 L1 k l HL. destruct (C158_copied _ _ _ _ _ _ C N) as (w1 & E1 & _ & _ & K1 & O1). fold k in K1. pose proof (O1 _ _ _ _ C) as C1.
  assert (NE : i <> k) by (destruct C as (t & T & _); assert (i < k) by (apply nth_error_Some; congruence); lia).
  exists (match run w l with Some w' => w' | None => w end), (if existsb (fun m => n <=? m) nb then length nb_l else id).
  destruct HL as [-> | ->]; cbn [run step]; rewrite E1; cbn [bind].
  - destruct (C158_selection w1 k nb id ls n K1) as (_ & A). rewrite S1 in A. destruct A as (w2 & E2 & K2). rewrite E2. cbn [bind]. assert (C2 := step_frame w1 (Shorter k n) w2 i nb id ls (not_eq_sym NE) E2 C1).
    destruct (C158_selection w2 i nb id ls n C2) as (B & _). rewrite L1 in B. destruct B as (w3 & E3 & C3). rewrite E3. cbn [bind]. split; [reflexivity|]. split; [|exact C3]. exact (step_frame w2 (Longer i n) w3 k _ _ _ NE E3 K2).
  - destruct (C158_selection w1 i nb id ls n C1) as (B & _). rewrite L1 in B. destruct B as (w2 & E2 & C2). rewrite E2. cbn [bind]. assert (K2 := step_frame w1 (Longer i n) w2 k nb id ls NE E2 K1).
    destruct (C158_selection w2 k nb id ls n K2) as (_ & A). rewrite S1 in A. destruct A as (w3 & E3 & K3). rewrite E3. cbn [bind]. split; [reflexivity|]. split; [exact K3|]. exact (step_frame w2 (Shorter k n) w3 i _ _ _ (not_eq_sym NE) E3 C2).
Qed.
Print Assumptions C158_split.

(** ** Case: two steps, tracks of three and two observations. *)
Definition c (i o id : nat) : corr := mkcorr i o id 1 false 0.
Definition w0 : world := World [[c 0 1 0; c 2 0 1]; [c 1 0 0]] [Table [0; 1] [3; 2] 2] false.
Example C158_case : content w0 0 [3; 2] 2 [[c 0 1 0; c 2 0 1]; [c 1 0 0]] /\ nb_obs_by_tracks false 2 [[c 0 1 0; c 2 0 1]; [c 1 0 0]] = Some [3; 2] /\
  shorter_than 3 [3; 2] [[c 0 1 0; c 2 0 1]; [c 1 0 0]] = Some ([2], [[c 2 0 0]; []]) /\ longer_than 3 [3; 2] [[c 0 1 0; c 2 0 1]; [c 1 0 0]] = Some ([3], [[c 0 1 0]; [c 1 0 0]]) /\
  match run w0 [Copy 0; Shorter 1 3; Longer 0 3] with Some w => content w 1 [2] 1 [[c 2 0 0]; []] /\ content w 0 [3] 1 [[c 0 1 0]; [c 1 0 0]] | None => False end.
Proof.
  split; [exists (Table [0; 1] [3; 2] 2); split; [reflexivity|]; split; [reflexivity|]; split; [reflexivity|]; repeat constructor|]. split; [vm_compute; reflexivity|]. split; [vm_compute; reflexivity|]. split; [vm_compute; reflexivity|].
  remember (run w0 [Copy 0; Shorter 1 3; Longer 0 3]) as r eqn:R. vm_compute in R. subst r. split.
  - exists (Table [2; 3] [2] 1). split; [reflexivity|]. split; [reflexivity|]. split; [reflexivity|]. repeat constructor.
  - exists (Table [4; 5] [3] 1). split; [reflexivity|]. split; [reflexivity|]. split; [reflexivity|]. repeat constructor.
Qed.
