(** C92: contours across the seam of a grid which goes round the earth. *)
From Coq Require Import List Arith ZArith QArith Qabs Lia Lqa Bool Permutation.
From Verif Require Import Base Qaux Ctr_model Seam_model Seam_spec Seam_proofs.
Import ListNotations.
Local Close Scope Q_scope.
Local Open Scope nat_scope.

Lemma loop_closed : forall segs q, loop_of segs q -> q <> [] /\ start q = stop q.
Proof.
  intros segs q (_ & q0 & T & _ & ->). apply through_ne in T. assert (L : length q0 <> 0) by (intros E; apply T; apply length_zero_iff_nil; exact E).
  destruct q0 as [|a q0]; [contradiction|]. split; [destruct q0; discriminate|]. unfold start at 2. cbn [hd].
  assert (X : forall (l : list (Q * Q)) d v, l <> [] -> last (upd l (length l - 1) v) d = v).
  { clear. induction l as [|b l IH]; intros d v H; [contradiction|]. destruct l as [|c l]; [reflexivity|].
    replace (length (b :: c :: l) - 1) with (S (length (c :: l) - 1)) by (cbn [length]; lia). change (upd (b :: c :: l) (S (length (c :: l) - 1)) v) with (b :: upd (c :: l) (length (c :: l) - 1) v). specialize (IH d v ltac:(discriminate)).
    destruct (upd (c :: l) (length (c :: l) - 1) v) eqn:E; [|exact IH]. apply (f_equal (@length _)) in E. rewrite length_upd in E. discriminate E. }
  unfold stop. rewrite X by discriminate. destruct q0; reflexivity.
Qed.

Theorem C92_joined : forall x0 x1 paths, (x1 == x0 + 360)%Q -> (forall p, In p paths -> p <> []) ->
  exists out same used solved lost, join_level x0 x1 paths = Some out /\
    Permutation out (same ++ solved) /\ Permutation paths (same ++ concat used ++ lost) /\
    Forall2 loop_of used solved /\ (forall q, In q solved -> start q = stop q) /\
    (forall p, In p (concat used ++ lost) -> on_meridian x0 p \/ on_meridian x1 p) /\
    (forall l r, In l same -> In r same -> on_meridian x0 l -> on_meridian x1 r -> ~ meets l r) /\
    (lost <> [] -> forall p, In p same -> ~ on_meridian x0 p).
Proof.
  intros x0 x1 paths T NE. destruct (classify_total x0 x1 paths NE) as ([[l r] o] & C). unfold join_level. rewrite C. cbn [bind].
  destruct (classify_spec _ _ _ _ _ _ C) as (P & _ & HL & HR & HO & CL & CR).
  assert (INL : forall p, In p l -> In p paths). { intros p I. apply (Permutation_in _ (Permutation_sym P)). apply in_app_iff. left. exact I. }
  assert (INR : forall p, In p r -> In p paths). { intros p I. apply (Permutation_in _ (Permutation_sym P)). apply in_app_iff. right. apply in_app_iff. left. exact I. }
  assert (EX : forall p, on_meridian x0 p -> ~ on_meridian x1 p). { intros p [A _] [B _]. apply Qabs_Qlt_condition in A, B. lra. }
  assert (CLS : forall used solved, Forall2 loop_of used solved -> forall q, In q solved -> start q = stop q).
  { intros used solved F. induction F as [|u s us ss U F IH]; intros q I; [destruct I|]. destruct I as [<-|I]; [apply (proj2 (loop_closed _ _ U))|apply IH; exact I]. }
  destruct ((length l =? 0) || (length r =? 0)) eqn:Z.
  { exists paths, paths, [], [], []. split; [reflexivity|]. cbn [concat app]. rewrite app_nil_r. split; [apply Permutation_refl|]. split; [apply Permutation_refl|]. split; [constructor|]. split; [intros q []|]. split; [intros p []|].
    split; [|intros N; contradiction]. intros a b Ia Ib Ma Mb _. apply orb_true_iff in Z as [Z|Z]; apply Nat.eqb_eq, length_zero_iff_nil in Z; subst.
    - destruct (CL a Ia Ma). - apply (CR b Ib Mb). intros M0. exact (EX b M0 Mb). }
  clear Z. destruct (pair_up l r) as [[s ls] rs] eqn:PU.
  assert (HL' : forall p, In p l -> p <> [] /\ on_meridian x0 p) by (intros p I; split; [apply NE; apply INL; exact I|apply HL; exact I]).
  assert (HR' : forall p, In p r -> p <> [] /\ on_meridian x1 p) by (intros p I; split; [apply NE; apply INR; exact I|apply HR; exact I]).
  destruct (pair_up_spec x0 x1 T l r s ls rs PU HL' HR') as (used & U & P1 & A & B & M).
  assert (IU : forall p, In p (l ++ r) -> on_meridian x0 p \/ on_meridian x1 p). { intros p I. apply in_app_iff in I as [I|I]; [left; apply HL; exact I|right; apply HR; exact I]. }
  destruct ((length ls =? 0) || (length rs =? 0)) eqn:Z.
  { exists (o ++ s ++ ls ++ rs), (o ++ ls ++ rs), used, s, []. split; [reflexivity|]. rewrite app_nil_r. split.
    { rewrite <- app_assoc. apply Permutation_app_head. apply Permutation_app_comm. }
    split. { transitivity (l ++ r ++ o); [exact P|]. rewrite app_assoc. transitivity (o ++ (l ++ r)); [apply Permutation_app_comm|]. rewrite <- app_assoc. apply Permutation_app_head. transitivity (concat used ++ ls ++ rs); [exact P1|]. apply Permutation_app_comm. }
    split; [exact U|]. split; [apply (CLS used); exact U|]. split.
    { intros p I. apply IU. apply (Permutation_in _ (Permutation_sym P1)). apply in_app_iff. left. exact I. }
    split; [|intros N; contradiction]. intros a b Ia Ib Ma Mb. apply M.
    - apply in_app_iff in Ia as [Ia|Ia]; [exfalso; apply (proj1 (HO a Ia)); exact Ma|]. apply in_app_iff in Ia as [Ia|Ia]; [exact Ia|]. exfalso. apply (EX a Ma). apply HR. apply B. exact Ia.
    - apply in_app_iff in Ib as [Ib|Ib]; [exfalso; apply (proj2 (HO b Ib)); exact Mb|]. apply in_app_iff in Ib as [Ib|Ib]; [|exact Ib]. exfalso. apply (EX b); [|exact Mb]. apply HL. apply A. exact Ib. }
  destruct (chain_up_spec x0 x1 T (length ls) ls rs) as (s2 & rs2 & used2 & lost & E2 & U2 & P2 & I2); [lia|intros p I; apply HL'; apply A; exact I|intros p I; destruct (HR' p (B p I)) as [X Y]; split; [exact X|right; exact Y]|].
  rewrite E2. cbn [bind]. exists (o ++ s ++ s2 ++ rs2), (o ++ rs2), (used ++ used2), (s ++ s2), lost. split; [reflexivity|].
  assert (PT : Permutation (l ++ r) ((concat used ++ concat used2) ++ rs2 ++ lost)).
  { transitivity (concat used ++ ls ++ rs); [exact P1|]. rewrite <- app_assoc. apply Permutation_app_head. exact P2. }
  split. { rewrite <- app_assoc. apply Permutation_app_head. rewrite app_assoc. apply Permutation_app_comm. }
  split. { rewrite concat_app. transitivity (l ++ r ++ o); [exact P|]. rewrite app_assoc. transitivity (o ++ (l ++ r)); [apply Permutation_app_comm|]. rewrite <- app_assoc. apply Permutation_app_head.
    etransitivity; [exact PT|]. rewrite !app_assoc. apply Permutation_app_tail. rewrite <- (app_assoc rs2). apply Permutation_app_comm. }
  assert (UU : Forall2 loop_of (used ++ used2) (s ++ s2)) by (apply Forall2_app; assumption).
  split; [exact UU|]. split; [apply (CLS (used ++ used2)); exact UU|]. split.
  { intros p I. apply IU. apply (Permutation_in _ (Permutation_sym PT)). rewrite concat_app in I. apply in_app_iff in I as [I|I]; apply in_app_iff; [left; exact I|right; apply in_app_iff; right; exact I]. }
  assert (NL : forall a, In a (o ++ rs2) -> ~ on_meridian x0 a).
  { intros a Ia Ma. apply in_app_iff in Ia as [Ia|Ia]; [apply (proj1 (HO a Ia)); exact Ma|]. apply (EX a Ma). apply HR. apply B. apply I2. exact Ia. }
  split; [intros a b Ia _ Ma; exfalso; exact (NL a Ia Ma)|]. intros _. exact NL.
Qed.
Print Assumptions C92_joined.

Theorem C92_unchanged : forall x0 x1 paths, (forall p, In p paths -> p <> []) ->
  (forall p, In p paths -> ~ on_meridian x0 p) \/ (forall p, In p paths -> ~ on_meridian x1 p) -> join_level x0 x1 paths = Some paths.
Proof.
  intros x0 x1 paths NE H. destruct (classify_total x0 x1 paths NE) as ([[l r] o] & C). unfold join_level. rewrite C. cbn [bind].
  destruct (classify_spec _ _ _ _ _ _ C) as (P & _ & HL & HR & _).
  assert (Z : (length l =? 0) || (length r =? 0) = true); [|rewrite Z; reflexivity]. apply orb_true_iff. rewrite !Nat.eqb_eq.
  destruct H as [H|H]; [left; destruct l as [|p l]; [reflexivity|]|right; destruct r as [|p r]; [reflexivity|]]; exfalso; apply (H p).
  - apply (Permutation_in _ (Permutation_sym P)). left. reflexivity.
  - apply HL. left. reflexivity.
  - apply (Permutation_in _ (Permutation_sym P)). apply in_app_iff. right. left. reflexivity.
  - apply HR. left. reflexivity.
Qed.
Print Assumptions C92_unchanged.

(** ** Contours cut once *)
Definition apart (x0 x1 : Q) (paths : list path) (l l' : path) : Prop :=
  on_meridian x0 l -> on_meridian x0 l' -> forall r, In r paths -> on_meridian x1 r -> meets l r -> meets l' r -> False.
Lemma classify_pairs : forall x0 x1 (R : path -> path -> Prop) paths l r o, classify x0 x1 paths = Some (l, r, o) -> ForallOrdPairs R paths -> ForallOrdPairs R l.
Proof.
  intros x0 x1 R. induction paths as [|p paths IH]; intros l r o H F; cbn [classify] in H; [injection H as <- <- <-; constructor|].
  destruct (length p =? 0); [discriminate H|]. cbv zeta in H. destruct (classify x0 x1 paths) as [[[l' r'] o']|] eqn:C; [|discriminate H]. cbn [bind] in H. apply Some_inj in H.
  inversion F as [|a b Fa Fb]; subst. specialize (IH _ _ _ eq_refl Fb). destruct (classify_spec _ _ _ _ _ _ C) as (P & _).
  destruct (near (fst (first_pt p)) x0 && near (fst (last_pt p)) x0); [injection H as <- <- <-; constructor; [|exact IH]|].
  - rewrite Forall_forall in *. intros q I. apply Fa. apply (Permutation_in _ (Permutation_sym P)). apply in_app_iff. left. exact I.
  - destruct (near (fst (first_pt p)) x1 && near (fst (last_pt p)) x1); injection H as <- <- <-; exact IH.
Qed.
Lemma pair_up_all : forall (S : path -> path -> Prop) lefts rights, ForallOrdPairs S lefts ->
  (forall l l' r, S l l' -> In r rights -> meets l r -> meets l' r -> False) -> (forall l, In l lefts -> exists r, In r rights /\ meets l r) ->
  exists s rs, pair_up lefts rights = (s, [], rs).
Proof.
  intros S. induction lefts as [|l lefts IH]; intros rights F D M; cbn [pair_up]; [eexists; eexists; reflexivity|].
  inversion F as [|a b Fa Fb]; subst. pose proof (take_first_spec _ (fits l) rights) as T. destruct (take_first (fits l) rights) as [[r rights']|].
  - destruct T as (l1 & l2 & -> & -> & FR & _). apply fits_iff in FR. destruct (IH (l1 ++ l2) Fb) as (s & rs & E).
    + intros a b q Sab I. apply (D a b q Sab). apply in_app_iff in I as [I|I]; apply in_app_iff; [left; exact I|right; right; exact I].
    + intros l' I. destruct (M l' (or_intror I)) as (q & Iq & Mq). exists q. split; [|exact Mq]. apply in_app_iff in Iq as [Iq|[Iq|Iq]]; apply in_app_iff; [left; exact Iq| |right; exact Iq].
      subst q. exfalso. rewrite Forall_forall in Fa. apply (D l l' r (Fa l' I)); [apply in_elt|exact FR|exact Mq].
    + rewrite E. eexists. eexists. reflexivity.
  - exfalso. destruct (M l (or_introl eq_refl)) as (q & Iq & Mq). apply fits_iff in Mq. rewrite (T q Iq) in Mq. discriminate Mq.
Qed.
Lemma pair_up_two : forall x0 x1, (x1 == x0 + 360)%Q -> forall lefts rights s ls rs, pair_up lefts rights = (s, ls, rs) ->
  (forall p, In p lefts -> p <> [] /\ on_meridian x0 p) -> (forall p, In p rights -> p <> [] /\ on_meridian x1 p) ->
  exists used, Forall2 loop_of used s /\ Permutation (lefts ++ rights) (concat used ++ ls ++ rs) /\ (forall u, In u used -> exists l r, u = [l; r] /\ In l lefts /\ In r rights /\ meets l r).
Proof.
  intros x0 x1 T. induction lefts as [|l lefts IH]; intros rights s ls rs H HL HR; cbn [pair_up] in H.
  - injection H as <- <- <-. exists []. split; [constructor|]. split; [apply Permutation_refl|]. intros u [].
  - pose proof (take_first_spec _ (fits l) rights) as TF. destruct (take_first (fits l) rights) as [[r rights']|].
    + destruct (pair_up lefts rights') as [[s' ls'] rs'] eqn:E. injection H as <- <- <-. destruct TF as (l1 & l2 & -> & -> & F & _). apply fits_iff in F.
      assert (IB : forall q, In q (l1 ++ l2) -> In q (l1 ++ r :: l2)). { intros q I. apply in_app_iff in I as [I|I]; apply in_app_iff; [left; exact I|right; right; exact I]. }
      destruct (IH (l1 ++ l2) _ _ _ E) as (used & U & P & A). { intros p I. apply HL. right. exact I. } { intros p I. apply HR. apply IB. exact I. }
      assert (Ir : In r (l1 ++ r :: l2)) by (apply in_elt). destruct (HL l (or_introl eq_refl)) as [NL ML]. destruct (HR r Ir) as [NR MR].
      exists ([l; r] :: used). split; [constructor; [apply (pair_loop x0 x1 T); assumption|exact U]|]. split.
      * cbn [concat app]. constructor. transitivity (r :: lefts ++ l1 ++ l2); [|constructor; exact P]. symmetry. rewrite !app_assoc. apply Permutation_middle.
      * intros u [<-|I]; [exists l, r; split; [reflexivity|]; split; [left; reflexivity|]; split; assumption|]. destruct (A u I) as (a & b & -> & Ia & Ib & Mab). exists a, b. split; [reflexivity|]. split; [right; exact Ia|]. split; [apply IB; exact Ib|exact Mab].
    + destruct (pair_up lefts rights) as [[s' ls'] rs'] eqn:E. injection H as <- <- <-.
      destruct (IH rights _ _ _ E) as (used & U & P & A); [intros p I; apply HL; right; exact I|exact HR|].
      exists used. split; [exact U|]. split; [transitivity (l :: concat used ++ ls' ++ rs'); [cbn [app]; constructor; exact P|]; cbn [app]; apply Permutation_middle|].
      intros u I. destruct (A u I) as (a & b & -> & Ia & Ib & Mab). exists a, b. split; [reflexivity|]. split; [right; exact Ia|]. split; assumption.
Qed.

(** Every path of the first meridian meets a path of the last, and no path of the last meets two: nothing
    is lost and every path of the first meridian is closed with the path it meets. *)
Theorem C92_cut_once : forall x0 x1 paths, (x1 == x0 + 360)%Q -> (forall p, In p paths -> p <> []) ->
  (forall l, In l paths -> on_meridian x0 l -> exists r, In r paths /\ on_meridian x1 r /\ meets l r) -> ForallOrdPairs (apart x0 x1 paths) paths ->
  exists out same used solved, join_level x0 x1 paths = Some out /\ Permutation out (same ++ solved) /\ Permutation paths (same ++ concat used) /\
    Forall2 loop_of used solved /\ (forall u, In u used -> exists l r, u = [l; r] /\ on_meridian x0 l /\ on_meridian x1 r /\ meets l r) /\ (forall p, In p same -> ~ on_meridian x0 p).
Proof.
  intros x0 x1 paths T NE M AP. destruct (classify_total x0 x1 paths NE) as ([[l r] o] & C). unfold join_level. rewrite C. cbn [bind].
  destruct (classify_spec _ _ _ _ _ _ C) as (P & _ & HL & HR & HO & CL & CR).
  assert (INL : forall p, In p l -> In p paths). { intros p I. apply (Permutation_in _ (Permutation_sym P)). apply in_app_iff. left. exact I. }
  assert (INR : forall p, In p r -> In p paths). { intros p I. apply (Permutation_in _ (Permutation_sym P)). apply in_app_iff. right. apply in_app_iff. left. exact I. }
  assert (EX : forall p, on_meridian x0 p -> ~ on_meridian x1 p). { intros p [A _] [B _]. apply Qabs_Qlt_condition in A, B. lra. }
  destruct (pair_up_all (fun a b => In a l /\ In b l /\ apart x0 x1 paths a b) l r) as (s & rs & PU).
  { pose proof (classify_pairs x0 x1 _ paths l r o C AP) as F. assert (X : forall k, (forall p, In p k -> In p l) -> ForallOrdPairs (apart x0 x1 paths) k -> ForallOrdPairs (fun a b => In a l /\ In b l /\ apart x0 x1 paths a b) k).
    { intros k. induction k as [|a k IHk]; intros S0 F0; [constructor|]. inversion F0 as [|u v Fu Fv]; subst. constructor; [|apply IHk; [intros p I; apply S0; right; exact I|exact Fv]].
      rewrite Forall_forall in *. intros b I. split; [apply S0; left; reflexivity|]. split; [apply S0; right; exact I|apply Fu; exact I]. }
    apply X; [intros p I; exact I|exact F]. }
  { intros a b q (Ia & Ib & A) I. apply A; [apply HL; exact Ia|apply HL; exact Ib|apply INR; exact I|apply HR; exact I]. }
  { intros a I. destruct (M a (INL a I) (HL a I)) as (q & Iq & Mq & X). exists q. split; [|exact X]. apply CR; [exact Iq|exact Mq|]. intros Z. exact (EX q Z Mq). }
  assert (HL' : forall p, In p l -> p <> [] /\ on_meridian x0 p) by (intros p I; split; [apply NE; apply INL; exact I|apply HL; exact I]).
  assert (HR' : forall p, In p r -> p <> [] /\ on_meridian x1 p) by (intros p I; split; [apply NE; apply INR; exact I|apply HR; exact I]).
  destruct ((length l =? 0) || (length r =? 0)) eqn:Z.
  - exists paths, paths, [], []. split; [reflexivity|]. cbn [concat]. rewrite !app_nil_r. split; [apply Permutation_refl|]. split; [apply Permutation_refl|]. split; [constructor|]. split; [intros u []|].
    intros p I MP. pose proof (CL p I MP) as IL. destruct (M p I MP) as (q & Iq & Mq & _). assert (IR : In q r). { apply CR; [exact Iq|exact Mq|]. intros W. exact (EX q W Mq). }
    apply orb_true_iff in Z as [Z|Z]; apply Nat.eqb_eq, length_zero_iff_nil in Z; subst; contradiction.
  - rewrite PU. cbn [length Nat.eqb orb app]. destruct (pair_up_two x0 x1 T l r s [] rs PU HL' HR') as (used & U & P1 & A). cbn [app] in P1.
    exists (o ++ s ++ rs), (o ++ rs), used, s. split; [reflexivity|]. split; [rewrite <- app_assoc; apply Permutation_app_head; apply Permutation_app_comm|]. split.
    { transitivity (l ++ r ++ o); [exact P|]. rewrite app_assoc. transitivity (o ++ (l ++ r)); [apply Permutation_app_comm|]. rewrite <- app_assoc. apply Permutation_app_head. etransitivity; [exact P1|]. apply Permutation_app_comm. }
    split; [exact U|]. split; [intros u I; destruct (A u I) as (a & b & -> & Ia & Ib & Mab); exists a, b; split; [reflexivity|]; split; [apply HL; exact Ia|]; split; [apply HR; exact Ib|exact Mab]|].
    intros p I MP. apply in_app_iff in I as [I|I]; [apply (proj1 (HO p I)); exact MP|]. apply (EX p MP). apply HR.
    destruct (pair_up_spec x0 x1 T l r s [] rs PU HL' HR') as (_ & _ & _ & _ & B & _). apply B. exact I.
Qed.
Print Assumptions C92_cut_once.

(** ** Examples: a grid from 0 to 360. *)
Definition lefts2 : list (list (Q * Q)) := [[(0, 1); (2, 0); (0, -(1))]; [(0, 5); (1, 4); (0, 3)]]%Q.
Definition rights2 : list (list (Q * Q)) := [[(360, 3); (359, 4); (360, 5)]; [(360, -(1)); (358, 0); (360, 1)]]%Q.
Example cut_once_example : option_map (map (map (fun v => (Qred (fst v), Qred (snd v))))) (join_level 0 360 (lefts2 ++ [[(10, 0); (11, 0); (11, 1); (10, 0)]] ++ rights2)%Q) =
  Some [[(10, 0); (11, 0); (11, 1); (10, 0)]; [(0, 1); (2, 0); (0, -(1)); (-(2), 0); (0, 1)]; [(0, 5); (1, 4); (0, 3); (-(1), 4); (0, 5)]]%Q.
Proof. vm_compute. reflexivity. Qed.
(** A contour in four parts: two bays on each side. *)
Definition bays : list (list (Q * Q)) := [[(0, 4); (2, 3); (0, 2)]; [(0, 1); (2, 0); (0, -(1))]; [(360, 2); (359, 3#2); (360, 1)]; [(360, -(1)); (350, 0); (360, 4)]]%Q.
Example bays_example : option_map (map (map (fun v => (Qred (fst v), Qred (snd v))))) (join_level 0 360 bays) =
  Some [[(0, 4); (2, 3); (0, 2); (0, 2); (-(1), 3#2); (0, 1); (0, 1); (2, 0); (0, -(1)); (0, -(1)); (-(10), 0); (0, 4)]]%Q.
Proof. vm_compute. reflexivity. Qed.
(** An open path which leaves the first meridian is lost as soon as another path stays open on the
    last one; alone it is kept. *)
Theorem C92_lost_refuted :
  join_level 0 360 [[(0, 1); (2, 0); (0, -(1))]; [(360, 7); (350, 8); (360, 9)]]%Q = Some [[(360, 7); (350, 8); (360, 9)]]%Q /\
  join_level 0 360 [[(0, 1); (2, 0); (0, -(1))]]%Q = Some [[(0, 1); (2, 0); (0, -(1))]]%Q.
Proof. vm_compute. split; reflexivity. Qed.
Example cut_once_meets : let paths := (lefts2 ++ [[(10, 0); (11, 0); (11, 1); (10, 0)]] ++ rights2)%Q in
  (forall p, In p paths -> p <> []) /\ (forall l, In l paths -> on_meridian 0 l -> exists r, In r paths /\ on_meridian 360 r /\ meets l r) /\ ForallOrdPairs (apart 0 360 paths) paths.
Proof.
  cbv zeta. unfold lefts2, rights2. cbn [app]. split; [|split].
  - intros p H. cbn [In] in H. destruct H as [<-|[<-|[<-|[<-|[<-|[]]]]]]; discriminate.
  - intros l H M. cbn [In] in H. destruct H as [<-|[<-|[<-|[<-|[<-|[]]]]]].
    + exists [(360, -(1)); (358, 0); (360, 1)]%Q. split; [cbn [In]; auto 6|]. split; [split; reflexivity|]. apply fits_iff. reflexivity.
    + exists [(360, 3); (359, 4); (360, 5)]%Q. split; [cbn [In]; auto 6|]. split; [split; reflexivity|]. apply fits_iff. reflexivity.
    + destruct M as [M _]. vm_compute in M. discriminate M.
    + destruct M as [M _]. vm_compute in M. discriminate M.
    + destruct M as [M _]. vm_compute in M. discriminate M.
  - assert (D : forall l l' k, existsb (fun r => fits l r && fits l' r) k = false \/ near (fst (start l)) 0 = false \/ near (fst (start l')) 0 = false -> apart 0 360 k l l').
    { intros l l' k [D|[D|D]] [M1 _] [M2 _] r I _ A B.
      - assert (X : existsb (fun r => fits l r && fits l' r) k = true); [|rewrite D in X; discriminate X]. apply existsb_exists. exists r. split; [exact I|]. apply andb_true_iff. rewrite !fits_iff. split; assumption.
      - apply near_iff in M1. rewrite D in M1. discriminate M1.
      - apply near_iff in M2. rewrite D in M2. discriminate M2. }
    repeat (constructor; [repeat (constructor; [apply D; first [left; reflexivity|right; left; reflexivity|right; right; reflexivity]|]); constructor|]). constructor.
Qed.
