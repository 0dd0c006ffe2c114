(** Contours across the seam. *)
From Coq Require Import List Arith ZArith QArith Qabs Lia Lqa Bool Permutation.
From Verif Require Import Base Qaux Poly_model Ctr_model Seam_model Seam_spec.
Import ListNotations.
Local Close Scope Q_scope.
Local Open Scope nat_scope.

Notation path := (list (Q * Q)).

Lemma near_iff : forall a b, near a b = true <-> (Qabs (a - b) < 1 # 10000000000)%Q.
Proof. intros. unfold near. rewrite Qlt_bool_iff. reflexivity. Qed.

Lemma take_first_spec : forall A (f : A -> bool) l,
  match take_first f l with
  | None => forall a, In a l -> f a = false
  | Some (a, r) => exists l1 l2, l = l1 ++ a :: l2 /\ r = l1 ++ l2 /\ f a = true /\ forall b, In b l1 -> f b = false
  end.
Proof.
  intros A f. induction l as [|a l IH]; cbn [take_first]; [intros a []|].
  destruct (f a) eqn:F. { exists [], l. split; [reflexivity|]. split; [reflexivity|]. split; [exact F|]. intros b []. }
  destruct (take_first f l) as [[b r]|].
  - destruct IH as (l1 & l2 & -> & -> & FB & N). exists (a :: l1), l2. split; [reflexivity|]. split; [reflexivity|]. split; [exact FB|]. intros c [<-|I]; [exact F|apply N; exact I].
  - intros b [<-|I]; [exact F|apply IH; exact I].
Qed.
Lemma take_first_perm : forall A (f : A -> bool) l a r, take_first f l = Some (a, r) -> Permutation l (a :: r) /\ f a = true.
Proof.
  intros A f l a r H. pose proof (take_first_spec A f l) as T. rewrite H in T. destruct T as (l1 & l2 & -> & -> & F & _). split; [|exact F]. symmetry. apply Permutation_middle.
Qed.

(** ** Sorting out the paths *)
Lemma classify_spec : forall x0 x1 paths l r o, classify x0 x1 paths = Some (l, r, o) ->
  Permutation paths (l ++ r ++ o) /\ (forall p, In p paths -> p <> []) /\ (forall p, In p l -> on_meridian x0 p) /\ (forall p, In p r -> on_meridian x1 p) /\
  (forall p, In p o -> ~ on_meridian x0 p /\ ~ on_meridian x1 p) /\ (forall p, In p paths -> on_meridian x0 p -> In p l) /\ (forall p, In p paths -> on_meridian x1 p -> ~ on_meridian x0 p -> In p r).
Proof.
  intros x0 x1. induction paths as [|p paths IH]; intros l r o H; cbn [classify] in H.
  - injection H as <- <- <-. split; [constructor|]. split; [intros p []|]. split; [intros p []|]. split; [intros p []|]. split; [intros p []|]. split; intros p [].
  - destruct (Nat.eqb_spec (length p) 0) as [L|L]; [discriminate H|]. cbv zeta in H. destruct (classify x0 x1 paths) as [[[l' r'] o']|]; [|discriminate H]. cbn [bind] in H.
    destruct (IH _ _ _ eq_refl) as (P & N & HL & HR & HO & CL & CR). assert (NP : p <> []) by (intros ->; apply L; reflexivity).
    assert (M0 : near (fst (first_pt p)) x0 && near (fst (last_pt p)) x0 = true <-> on_meridian x0 p). { rewrite andb_true_iff, !near_iff. reflexivity. }
    assert (M1 : near (fst (first_pt p)) x1 && near (fst (last_pt p)) x1 = true <-> on_meridian x1 p). { rewrite andb_true_iff, !near_iff. reflexivity. }
    assert (NN : forall q, In q (p :: paths) -> q <> []) by (intros q [<-|I]; [exact NP|apply N; exact I]).
    apply Some_inj in H.
    destruct (near (fst (first_pt p)) x0 && near (fst (last_pt p)) x0).
    { injection H as <- <- <-. pose proof (proj1 M0 eq_refl) as A. split; [cbn [app]; constructor; exact P|]. split; [exact NN|]. split; [intros q [<-|I]; [exact A|apply HL; exact I]|]. split; [exact HR|]. split; [exact HO|].
      split; [intros q [<-|I] B; [left; reflexivity|right; apply CL; assumption]|]. intros q [<-|I] B C; [contradiction|apply CR; assumption]. }
    assert (N0 : ~ on_meridian x0 p). { intros A. apply M0 in A. discriminate A. }
    destruct (near (fst (first_pt p)) x1 && near (fst (last_pt p)) x1).
    { injection H as <- <- <-. pose proof (proj1 M1 eq_refl) as A. split.
      { transitivity (p :: l' ++ r' ++ o'); [constructor; exact P|]. cbn [app]. apply Permutation_middle. }
      split; [exact NN|]. split; [exact HL|]. split; [intros q [<-|I]; [exact A|apply HR; exact I]|]. split; [exact HO|].
      split; [intros q [<-|I] B; [contradiction|apply CL; assumption]|]. intros q [<-|I] B C; [left; reflexivity|right; apply CR; assumption]. }
    assert (N1 : ~ on_meridian x1 p). { intros A. apply M1 in A. discriminate A. }
    injection H as <- <- <-. split.
    { transitivity (p :: l' ++ r' ++ o'); [constructor; exact P|]. rewrite (app_assoc l' r' (p :: o')), (app_assoc l' r' o'). apply Permutation_middle. }
    split; [exact NN|]. split; [exact HL|]. split; [exact HR|]. split; [intros q [<-|I]; [split; assumption|apply HO; exact I]|].
    split; [intros q [<-|I] B; [contradiction|apply CL; assumption]|]. intros q [<-|I] B C; [contradiction|apply CR; assumption].
Qed.
Lemma classify_total : forall x0 x1 paths, (forall p, In p paths -> p <> []) -> exists c, classify x0 x1 paths = Some c.
Proof.
  intros x0 x1. induction paths as [|p paths IH]; intros H; cbn [classify]; [eexists; reflexivity|].
  destruct (Nat.eqb_spec (length p) 0) as [L|L]. { exfalso. apply (H p); [left; reflexivity|]. apply length_zero_iff_nil. exact L. }
  destruct IH as ([[l r] o] & ->); [intros q I; apply H; right; exact I|]. cbv zeta. cbn [bind]. eexists. reflexivity.
Qed.

(** ** Ends of paths *)
Lemma start_app : forall p q : path, p <> [] -> start (p ++ q) = start p.
Proof. intros [|a p] q H; [contradiction|]. reflexivity. Qed.
Lemma stop_app : forall p q : path, q <> [] -> stop (p ++ q) = stop q.
Proof. intros p q H. unfold stop. induction p as [|a p IH]; [reflexivity|]. cbn [app last]. destruct (p ++ q) eqn:E; [apply app_eq_nil in E as [_ E]; contradiction|]. exact IH. Qed.
Lemma start_turned : forall p : path, p <> [] -> start (turned p) = (fst (start p) - 360, snd (start p))%Q.
Proof. intros [|a p] H; [contradiction|]. reflexivity. Qed.
Lemma stop_turned : forall p : path, p <> [] -> stop (turned p) = (fst (stop p) - 360, snd (stop p))%Q.
Proof. intros p H. induction p as [|a p IH]; [contradiction|]. destruct p as [|b p]; [reflexivity|]. apply IH. discriminate. Qed.
Lemma turned_ne : forall p : path, p <> [] -> turned p <> [].
Proof. intros [|a p] H; [contradiction|]. discriminate. Qed.
Lemma stop_tl : forall p : path, tl p <> [] -> stop (tl p) = stop p.
Proof. intros [|a [|b p]] H; [contradiction|contradiction|]. reflexivity. Qed.
Lemma through_ne : forall segs q, through segs q -> q <> [].
Proof. intros segs q H. induction H; [assumption|]. intros E. apply app_eq_nil in E as [E _]. contradiction. Qed.
Lemma through_len : forall segs q, through segs q -> 1 <= length segs.
Proof. intros segs q H. induction H; [reflexivity|]. rewrite app_length. cbn. lia. Qed.

Lemma fits_iff : forall l r, fits l r = true <-> meets l r.
Proof. intros. unfold fits. rewrite andb_true_iff, !near_iff. reflexivity. Qed.

(** ** Contours in two parts *)
Section Seam.
Variable x0 x1 : Q.
Hypothesis turn : (x1 == x0 + 360)%Q.

Lemma pair_loop : forall l r, l <> [] -> r <> [] -> on_meridian x0 l -> on_meridian x1 r -> meets l r -> loop_of [l; r] (close_path (l ++ tl (west r))).
Proof.
  intros l r NL NR [L1 L2] [R1 R2] [M1 M2]. split; [reflexivity|]. change (west r) with (turned r).
  exists (l ++ tl (turned r)).
  assert (T : touching (stop l) (start (turned r))).
  { rewrite start_turned by exact NR. split; cbn [fst snd]; apply Qabs_Qlt_condition; apply Qabs_Qlt_condition in L2, R1, M2; lra. }
  split.
  { apply (through_more [l] l r (turned r) (tl (turned r))); [constructor; exact NL|exact NR|right; reflexivity|exact T|right; reflexivity]. }
  split; [|unfold close_path; reflexivity].
  rewrite start_app by exact NL. apply Qabs_Qlt_condition in L1, L2, R1, R2, M1, M2.
  destruct (tl (turned r)) as [|v t] eqn:E.
  - rewrite app_nil_r. assert (ER : start r = stop r). { destruct r as [|a [|b r]]; [contradiction|reflexivity|discriminate E]. } rewrite ER in M2. split; apply Qabs_Qlt_condition; lra.
  - rewrite <- E. assert (NT : tl (turned r) <> []) by (rewrite E; discriminate). rewrite stop_app by exact NT. rewrite stop_tl by exact NT. rewrite stop_turned by exact NR.
    split; cbn [fst snd]; apply Qabs_Qlt_condition; lra.
Qed.

Lemma pair_up_spec : forall lefts rights s ls rs, pair_up lefts rights = (s, ls, rs) ->
  (forall p, In p lefts -> p <> [] /\ on_meridian x0 p) -> (forall p, In p rights -> p <> [] /\ on_meridian x1 p) ->
  exists used, Forall2 loop_of used s /\ Permutation (lefts ++ rights) (concat used ++ ls ++ rs) /\
    (forall p, In p ls -> In p lefts) /\ (forall p, In p rs -> In p rights) /\ (forall l r, In l ls -> In r rs -> ~ meets l r).
Proof.
  induction lefts as [|l lefts IH]; intros rights s ls rs H HL HR; cbn [pair_up] in H.
  - injection H as <- <- <-. exists []. split; [constructor|]. split; [apply Permutation_refl|]. split; [intros p []|]. split; [intros p I; exact I|]. intros l r [].
  - pose proof (take_first_spec _ (fits l) rights) as T. destruct (take_first (fits l) rights) as [[r rights']|].
    + destruct (pair_up lefts rights') as [[s' ls'] rs'] eqn:E. injection H as <- <- <-. destruct T as (l1 & l2 & -> & -> & F & _).
      destruct (IH (l1 ++ l2) _ _ _ E) as (used & U & P & A & B & C).
      { intros p I. apply HL. right. exact I. } { intros p I. apply HR. apply in_app_iff in I as [I|I]; apply in_app_iff; [left; exact I|right; right; exact I]. }
      assert (Ir : In r (l1 ++ r :: l2)) by (apply in_elt). destruct (HL l (or_introl eq_refl)) as [NL ML]. destruct (HR r Ir) as [NR MR].
      exists ([l; r] :: used). split; [constructor; [apply pair_loop; [exact NL|exact NR|exact ML|exact MR|apply fits_iff; exact F]|exact U]|]. split.
      * cbn [concat app]. constructor. transitivity (r :: lefts ++ l1 ++ l2); [|constructor; exact P]. symmetry. rewrite !app_assoc. apply Permutation_middle.
      * split; [intros p I; right; apply A; exact I|]. split; [|exact C]. intros p I. apply B in I. apply in_app_iff in I as [I|I]; apply in_app_iff; [left; exact I|right; right; exact I].
    + destruct (pair_up lefts rights) as [[s' ls'] rs'] eqn:E. injection H as <- <- <-.
      destruct (IH rights _ _ _ E) as (used & U & P & A & B & C); [intros p I; apply HL; right; exact I|exact HR|].
      exists used. split; [exact U|]. split.
      * transitivity (l :: concat used ++ ls' ++ rs'); [cbn [app]; constructor; exact P|]. cbn [app]. apply Permutation_middle.
      * split; [intros p [<-|I]; [left; reflexivity|right; apply A; exact I]|]. split; [exact B|]. intros l' r [<-|Il] Ir M; [|exact (C l' r Il Ir M)].
        apply fits_iff in M. rewrite (T r (B r Ir)) in M. discriminate M.
Qed.

(** ** Contours in many parts *)
Definition seam_path (p : path) : Prop := p <> [] /\ (on_meridian x0 p \/ on_meridian x1 p).
Lemma get_next_spec : forall fuel origin A B segs, length A + length B < fuel -> (forall p, In p A -> seam_path p) -> (forall p, In p B -> seam_path p) ->
  through segs origin -> (Qabs (fst (start origin) - x0) < 1 # 10000000000)%Q -> (Qabs (fst (stop origin) - x0) < 1 # 10000000000)%Q ->
  exists b o A' B' segs', get_next fuel origin A B = Some (b, o, A', B') /\ Permutation (A ++ B) (segs' ++ A' ++ B') /\
    (forall p, In p A' -> In p A) /\ (forall p, In p B' -> In p B) /\ length A' <= length A /\ length B' <= length B /\
    (b = true -> loop_of (segs ++ segs') o).
Proof.
  induction fuel as [|fuel IH]; intros origin A B segs F HA HB T S1 S2; [lia|]. cbn [get_next].
  pose proof (take_first_spec _ (fun path => near (snd (last_pt origin)) (snd (first_pt path))) B) as TF.
  destruct (take_first _ B) as [[p B1]|].
  2:{ exists false, origin, A, B, []. split; [reflexivity|]. split; [apply Permutation_refl|]. split; [intros q I; exact I|]. split; [intros q I; exact I|]. split; [lia|]. split; [lia|]. intros E. discriminate E. }
  destruct TF as (l1 & l2 & -> & -> & N & _). apply near_iff in N. change (last_pt origin) with (stop origin) in *. change (first_pt p) with (start p) in *.
  destruct (HB p (in_elt _ _ _)) as [NP MP]. cbv zeta.
  set (p' := if Qlt_bool 1 (fst (start p) - fst (stop origin)) then west p else p).
  assert (P' : (p' = p \/ p' = turned p) /\ p' <> [] /\ (Qabs (fst (start p') - x0) < 1 # 10000000000)%Q /\ (Qabs (fst (stop p') - x0) < 1 # 10000000000)%Q /\ snd (start p') = snd (start p) /\ snd (stop p') = snd (stop p)).
  { unfold p'. apply Qabs_Qlt_condition in S2. destruct MP as [[M1 M2]|[M1 M2]]; apply Qabs_Qlt_condition in M1, M2.
    - assert (E : Qlt_bool 1 (fst (start p) - fst (stop origin)) = false) by (apply Qlt_bool_false; lra). rewrite E. split; [left; reflexivity|]. split; [exact NP|].
      split; [apply Qabs_Qlt_condition; lra|]. split; [apply Qabs_Qlt_condition; lra|]. split; reflexivity.
    - assert (E : Qlt_bool 1 (fst (start p) - fst (stop origin)) = true) by (apply Qlt_bool_iff; lra). rewrite E. change (west p) with (turned p). split; [right; reflexivity|]. split; [apply turned_ne; exact NP|].
      rewrite start_turned, stop_turned by exact NP. cbn [fst snd]. split; [apply Qabs_Qlt_condition; lra|]. split; [apply Qabs_Qlt_condition; lra|]. split; reflexivity. }
  clearbody p'. destruct P' as (P1 & P2 & P3 & P4 & P5 & P6).
  assert (TO : touching (stop origin) (start p')). { apply Qabs_Qlt_condition in S2, P3, N. split; [|rewrite P5]; apply Qabs_Qlt_condition; lra. }
  assert (TH : through (segs ++ [p]) (origin ++ p')). { apply (through_more segs origin p p' p'); [exact T|exact NP|exact P1|exact TO|left; reflexivity]. }
  pose proof (through_ne _ _ T) as NO.
  assert (S1' : (Qabs (fst (start (origin ++ p')) - x0) < 1 # 10000000000)%Q) by (rewrite start_app by exact NO; exact S1).
  assert (S2' : (Qabs (fst (stop (origin ++ p')) - x0) < 1 # 10000000000)%Q) by (rewrite stop_app by exact P2; exact P4).
  assert (PB : forall X, Permutation (X ++ l1 ++ p :: l2) (p :: X ++ l1 ++ l2)). { intros X. symmetry. rewrite !app_assoc. apply Permutation_middle. }
  assert (IB : forall q, In q (l1 ++ l2) -> In q (l1 ++ p :: l2)). { intros q I. apply in_app_iff in I as [I|I]; apply in_app_iff; [left; exact I|right; right; exact I]. }
  rewrite app_length in F. cbn [length] in F.
  destruct (check_closing (origin ++ p')) eqn:C.
  - exists true, (close_path (origin ++ p')), A, (l1 ++ l2), [p]. split; [reflexivity|]. split; [cbn [app]; apply PB|]. split; [intros q I; exact I|]. split; [exact IB|]. split; [lia|]. split; [rewrite !app_length; cbn [length]; lia|].
    intros _. split; [rewrite app_length; cbn [length]; pose proof (through_len _ _ T); lia|]. exists (origin ++ p'). split; [exact TH|]. split; [|reflexivity].
    unfold check_closing in C. apply near_iff in C. change (first_pt (origin ++ p')) with (start (origin ++ p')) in C. change (last_pt (origin ++ p')) with (stop (origin ++ p')) in C.
    apply Qabs_Qlt_condition in S1', S2', C. split; apply Qabs_Qlt_condition; lra.
  - destruct (IH (origin ++ p') (l1 ++ l2) A (segs ++ [p])) as (b & o & B' & A' & segs' & E & P & I1 & I2 & L1 & L2 & O); [rewrite app_length; lia|intros q I; apply HB; apply IB; exact I|exact HA|exact TH|exact S1'|exact S2'|].
    rewrite E. cbn [bind]. exists b, o, A', B', (p :: segs'). split; [reflexivity|]. split.
    { transitivity (p :: A ++ l1 ++ l2); [apply PB|]. cbn [app]. constructor. transitivity ((l1 ++ l2) ++ A); [apply Permutation_app_comm|]. transitivity (segs' ++ B' ++ A'); [exact P|]. apply Permutation_app_head. apply Permutation_app_comm. }
    split; [exact I2|]. split; [intros q I; apply IB; apply I1; exact I|]. split; [lia|]. split; [rewrite app_length in *; cbn [length]; lia|]. intros Bt. specialize (O Bt). rewrite <- app_assoc in O. exact O.
Qed.

Lemma chain_up_spec : forall fuel lefts rights, length lefts <= fuel -> (forall p, In p lefts -> p <> [] /\ on_meridian x0 p) -> (forall p, In p rights -> seam_path p) ->
  exists s rs used lost, chain_up fuel lefts rights = Some (s, rs) /\ Forall2 loop_of used s /\ Permutation (lefts ++ rights) (concat used ++ rs ++ lost) /\ (forall p, In p rs -> In p rights).
Proof.
  induction fuel as [|fuel IH]; intros lefts rights F HL HR.
  - destruct lefts; [|cbn in F; lia]. exists [], rights, [], []. split; [reflexivity|]. split; [constructor|]. split; [cbn; rewrite app_nil_r; apply Permutation_refl|]. intros p I. exact I.
  - destruct lefts as [|l lefts]; cbn [chain_up].
    { exists [], rights, [], []. split; [reflexivity|]. split; [constructor|]. split; [cbn; rewrite app_nil_r; apply Permutation_refl|]. intros p I. exact I. }
    destruct (HL l (or_introl eq_refl)) as [NL [M1 M2]].
    destruct (get_next_spec (S (length lefts + length rights)) l lefts rights [l]) as (b & o & A' & B' & segs' & E & P & I1 & I2 & L1 & L2 & O);
      [lia|intros p I; destruct (HL p (or_intror I)) as [X Y]; split; [exact X|left; exact Y]|exact HR|constructor; exact NL|exact M1|exact M2|].
    rewrite E. cbn [bind]. cbn [length] in F.
    destruct (IH A' B') as (s & rs & used & lost & E2 & U & P2 & I3); [lia|intros p I; apply HL; right; apply I1; exact I|intros p I; apply HR; apply I2; exact I|].
    rewrite E2. cbn [bind]. destruct b.
    + exists (o :: s), rs, ((l :: segs') :: used), lost. split; [reflexivity|]. split; [constructor; [apply (O eq_refl)|exact U]|]. split; [|intros p I; apply I2; apply I3; exact I].
      cbn [concat app]. constructor. rewrite <- app_assoc. transitivity (segs' ++ A' ++ B'); [exact P|]. apply Permutation_app_head. exact P2.
    + exists s, rs, used, (l :: segs' ++ lost). split; [reflexivity|]. split; [exact U|]. split; [|intros p I; apply I2; apply I3; exact I].
      transitivity (l :: segs' ++ A' ++ B'); [cbn [app]; constructor; exact P|]. transitivity (l :: segs' ++ concat used ++ rs ++ lost); [constructor; apply Permutation_app_head; exact P2|].
      symmetry. transitivity (l :: concat used ++ rs ++ segs' ++ lost).
      * rewrite !(app_assoc (concat used) rs). symmetry. apply Permutation_middle.
      * constructor. rewrite !(app_assoc (concat used) rs). rewrite !app_assoc. apply Permutation_app_tail. rewrite <- !app_assoc. rewrite !(app_assoc (concat used) rs), (app_assoc segs'). rewrite <- (app_assoc segs'). apply Permutation_app_comm.
Qed.
End Seam.
