(** * What an animation shows. *)
From Coq Require Import List Arith Bool ZArith QArith Lia Lqa.
From Verif Require Import Base Anim_model.
Import ListNotations.
Local Close Scope Q_scope.
Local Open Scope nat_scope.

(** ** Specification *)
(** The last [n] elements of a list. *)
Definition lastn {A} (n : nat) (l : list A) : list A := skipn (length l - n) l.
(** The rows of the days [1 .. k] after [t0], day by day, days without any row
    left out. *)
Definition busy_days (a : anim) (t0 : Z) (k : nat) : list (list nat) :=
  filter (fun f => negb (length f =? 0)) (map (fun q => frame a (t0 + Z.of_nat q * day a)%Z) (seq 1 k)).

Lemma In_frame : forall a z i, In i (frame a z) <-> nth_error (times a) i = Some z.
Proof.
  intros a z i. unfold frame. rewrite filter_In, in_seq. split.
  - intros [_ H]. destruct (nth_error (times a) i) as [t|]; [|discriminate]. apply Z.eqb_eq in H. now subst.
  - intros H. split; [apply nth_error_Some_lt in H; lia|]. rewrite H. apply Z.eqb_refl.
Qed.

Lemma lastn_snoc : forall {A} n (l : list A) x,
  lastn n (l ++ [x]) = if n <? length (lastn n l ++ [x]) then tl (lastn n l ++ [x]) else lastn n l ++ [x].
Proof.
  intros A n l x. unfold lastn. rewrite !app_length, skipn_length. cbn [length].
  destruct (Nat.ltb_spec n (length l - (length l - n) + 1)) as [H|H].
  - assert (n <= length l) by lia.
    replace (length l + 1 - n) with (S (length l - n)) by lia.
    rewrite skipn_app. replace (S (length l - n) - length l) with (1 - n) by lia.
    destruct (skipn (length l - n) l) as [|y r] eqn:E.
    + apply (f_equal (@length A)) in E. rewrite skipn_length in E. cbn in E.
      assert (n = 0) as -> by lia. rewrite Nat.sub_0_r. rewrite (skipn_all2 l) by lia. reflexivity.
    + cbn [tl app]. assert (0 < n).
      { apply (f_equal (@length A)) in E. rewrite skipn_length in E. cbn in E. lia. }
      replace (1 - n) with 0 by lia. cbn [skipn]. f_equal.
      assert (G : forall p (l : list A), skipn (S p) l = tl (skipn p l)).
      { induction p as [|p IH]; intros [|z l0]; auto. exact (IH l0). }
      change (match l with [] => [] | _ :: l0 => skipn (length l - n) l0 end) with (skipn (S (length l - n)) l).
      rewrite G, E. reflexivity.
  - replace (length l + 1 - n) with 0 by lia. replace (length l - n) with 0 by lia. reflexivity.
Qed.
Lemma tl_map : forall {A B} (f : A -> B) l, tl (map f l) = map f (tl l).
Proof. intros A B f [|x l]; reflexivity. Qed.
Lemma length_lastn : forall {A} n (l : list A), length (lastn n l) <= n.
Proof. intros. unfold lastn. rewrite skipn_length. lia. Qed.
Lemma In_lastn : forall {A} n (l : list A) x, In x (lastn n l) -> In x l.
Proof.
  intros A n l x H. unfold lastn in H. rewrite <- (firstn_skipn (length l - n) l). apply in_app_iff. auto.
Qed.

(** ** Every schedule: contours, dates and colours stay in step *)
Definition in_step (a : anim) (st : state) : Prop :=
  (forall f, In f (segs st) -> forall i, In i f -> i < length (times a)) /\
  t_segs st = map (map (fun i => nth i (times a) 0%Z)) (segs st) /\
  c_segs st = if color a then segs st else [].
Definition ok_drawing (a : anim) (d : drawing) : Prop :=
  (forall i, In i (contours d) -> i < length (times a)) /\
  widths d = map (fun i => width a (at_ d) (nth i (times a) 0%Z)) (contours d) /\
  colors d = (if color a then contours d else []) /\
  (forall i, In i (labels d) <-> label a = true /\ nth_error (times a) i = Some (at_ d)) /\
  (forall i, nth_error (times a) i = Some (at_ d) -> In i (contours d)).

Lemma frame_times : forall a z, map (fun _ => z) (frame a z) = map (fun i => nth i (times a) 0%Z) (frame a z).
Proof.
  intros a z. apply map_ext_in. intros i Hi. apply In_frame in Hi. symmetry. now apply nth_error_nth.
Qed.

Lemma update_step : forall a st, in_step a st ->
  in_step a (fst (update a st)) /\ ok_drawing a (snd (update a st)) /\ now (fst (update a st)) = now st /\
  at_ (snd (update a st)) = now st /\ pause (fst (update a st)) = pause st.
Proof.
  intros a st (B & T & C). unfold update. cbn [fst snd now pause at_]. split; [|split; [|auto]].
  - unfold in_step. cbn [segs t_segs c_segs].
    set (f := frame a (now st)). set (some := negb (length f =? 0)).
    assert (B' : forall g, In g (if some then segs st ++ [f] else segs st) -> forall i, In i g -> i < length (times a)).
    { intros g Hg i Hi. destruct some; [|eauto]. apply in_app_iff in Hg as [Hg|[<-|[]]]; [eauto|].
      apply In_frame in Hi. eapply nth_error_Some_lt; eauto. }
    assert (T' : (if some then t_segs st ++ [map (fun _ => now st) f] else t_segs st)
               = map (map (fun i => nth i (times a) 0%Z)) (if some then segs st ++ [f] else segs st)).
    { destruct some; [|exact T]. rewrite map_app, T. cbn [map]. unfold f at 1. now rewrite frame_times. }
    assert (C' : (if some && color a then c_segs st ++ [f] else c_segs st)
               = if color a then (if some then segs st ++ [f] else segs st) else []).
    { rewrite C. destruct some, (color a); reflexivity. }
    rewrite T', C'. destruct (nb_step a <? length (if some then segs st ++ [f] else segs st)); cbn [andb].
    + split; [|split].
      * intros g Hg. apply B'. destruct (if some then segs st ++ [f] else segs st); [auto|right; auto].
      * apply tl_map.
      * now destruct (color a).
    + auto.
  - unfold ok_drawing. cbn [contours widths colors labels at_].
    set (f := frame a (now st)). set (some := negb (length f =? 0)).
    split; [|split; [|split; [|split]]].
    + intros i Hi. apply in_concat in Hi as (g & Hg & Hi).
      assert (H : In g (segs st) \/ g = f).
      { destruct some; [apply in_app_iff in Hg as [Hg|[<-|[]]]; auto|auto]. }
      destruct H as [H| ->]; [eauto|]. apply In_frame in Hi. eapply nth_error_Some_lt; eauto.
    + assert (T' : (if some then t_segs st ++ [map (fun _ => now st) f] else t_segs st)
               = map (map (fun i => nth i (times a) 0%Z)) (if some then segs st ++ [f] else segs st)).
      { destruct some; [|exact T]. rewrite map_app, T. cbn [map]. unfold f at 1. now rewrite frame_times. }
      rewrite T', <- concat_map, map_map. reflexivity.
    + rewrite C. destruct (color a); [|reflexivity]. rewrite andb_true_r. now destruct some.
    + intros i. destruct (label a); [|split; [intros []|intros [? _]; discriminate]].
      unfold f. rewrite In_frame. tauto.
    + intros i Hi. apply In_frame in Hi. fold f in Hi. apply in_concat. exists f. split; auto.
      assert (some = true) as ->; [|apply in_app_iff; right; now left].
      unfold some. destruct f; [destruct Hi|reflexivity].
Qed.

Lemma in_step_pop2 : forall a st sg ts cs,
  in_step a st -> pop2 (segs st) = Some sg -> pop2 (t_segs st) = Some ts -> pop2 (c_segs st) = Some cs ->
  in_step a {| now := now st; pause := pause st; segs := sg; t_segs := ts; c_segs := cs |}.
Proof.
  unfold pop2. intros a st sg ts cs (B & T & C) Hs Ht Hc.
  destruct (length (segs st) <? 2); [discriminate|]. destruct (length (t_segs st) <? 2); [discriminate|].
  destruct (Nat.ltb_spec (length (c_segs st)) 2); [discriminate|].
  injection Hs as <-. injection Ht as <-. injection Hc as <-. unfold in_step. cbn [segs t_segs c_segs].
  split; [|split].
  - intros f Hf. apply B. rewrite <- (firstn_skipn (length (segs st) - 2) (segs st)). apply in_app_iff. auto.
  - rewrite T, map_length. apply firstn_map.
  - rewrite C in *. destruct (color a); [reflexivity|]. cbn in H. lia.
Qed.

Lemma press_step : forall a st k st' ds, in_step a st -> press a st k = Some (st', ds) ->
  in_step a st' /\ Forall (ok_drawing a) ds.
Proof.
  intros a st k st' ds I H. destruct k; cbn [press] in H.
  - injection H as <- <-. split; [exact I|constructor].
  - destruct (pause st); [|injection H as <- <-; auto].
    pose proof (update_step a (at_time st (now st + day a)) I) as (U1 & U2 & _).
    unfold next in H. destruct (update a _) as [s d]. injection H as <- <-. auto.
  - destruct (pause st); [|injection H as <- <-; auto].
    destruct (pop2 (segs st)) as [sg|] eqn:Es; [|discriminate].
    destruct (pop2 (t_segs st)) as [ts|] eqn:Et; [|discriminate].
    destruct (pop2 (c_segs st)) as [cs|] eqn:Ec; [|discriminate]. cbn [bind] in H.
    pose proof (in_step_pop2 a st sg ts cs I Es Et Ec) as I2.
    unfold prev in H.
    match type of H with context [update a ?x] => pose proof (update_step a x I2) as (U1 & U2 & _) end.
    destruct (update a _) as [s d]. injection H as <- <-. auto.
  - injection H as <- <-. auto.
Qed.
Lemma presses_step : forall a ks st st' ds, in_step a st -> presses a st ks = Some (st', ds) ->
  in_step a st' /\ Forall (ok_drawing a) ds.
Proof.
  intros a ks. induction ks as [|k ks IH]; intros st st' ds I H; cbn [presses] in H.
  - injection H as <- <-. auto.
  - destruct (press a st k) as [[s1 d1]|] eqn:E1; [|discriminate]. cbn [bind fst snd] in H.
    destruct (presses a s1 ks) as [[s2 d2]|] eqn:E2; [|discriminate]. cbn [bind fst snd] in H.
    injection H as <- <-. destruct (press_step _ _ _ _ _ I E1) as [I1 F1].
    destruct (IH _ _ _ I1 E2) as [I2 F2]. split; auto. apply Forall_app. auto.
Qed.
Lemma show_step : forall a inf t0 t1 passes st ds, in_step a st -> show a inf t0 t1 st passes = Some ds ->
  Forall (ok_drawing a) ds.
Proof.
  intros a inf t0 t1. induction passes as [|ks r IH]; intros st ds I H; cbn [show] in H.
  - injection H as <-. constructor.
  - assert (P : exists s1 d1, (if pause st then (st, []) else let '(s, d) := next a st in (s, [d])) = (s1, d1)
             /\ in_step a s1 /\ Forall (ok_drawing a) d1).
    { destruct (pause st); [exists st, []; auto|].
      pose proof (update_step a (at_time st (now st + day a)) I) as (U1 & U2 & _). unfold next.
      destruct (update a _) as [s d]. exists s, [d]. auto. }
    destruct P as (s1 & d1 & EP & I1 & F1). rewrite EP in H.
    destruct (presses a s1 ks) as [[s2 d2]|] eqn:E2; [|discriminate]. cbn [bind fst snd] in H.
    destruct (presses_step _ _ _ _ _ I1 E2) as [I2 F2].
    assert (G : forall st', in_step a st' ->
      (let! ds0 := show a inf t0 t1 st' r in Some (d1 ++ d2 ++ ds0)) = Some ds -> Forall (ok_drawing a) ds).
    { intros st' I' H'. destruct (show a inf t0 t1 st' r) as [ds0|] eqn:E; [|discriminate].
      cbn [bind] in H'. injection H' as <-. apply Forall_app. split; auto. apply Forall_app. split; auto. eapply IH; eauto. }
    destruct (t1 <? now s2)%Z; [destruct inf|].
    + apply (G (at_time s2 t0)); auto.
    + injection H as <-. apply Forall_app. auto.
    + apply (G s2); auto.
Qed.

(** ** C140.  Whatever the keys and their order, each drawing has one width
    per contour, worked out from the date of this very contour, one colour per
    contour taken from the same row, the labels of exactly the rows of the
    date shown, and the contours of all these rows. *)
Theorem C140_in_step : forall a infinity t0 t1 passes ds,
  show a infinity t0 t1 (start t0) passes = Some ds ->
  forall d, In d ds ->
    length (widths d) = length (contours d) /\
    (forall q i, nth_error (contours d) q = Some i -> exists t, nth_error (times a) i = Some t /\
       nth_error (widths d) q = Some (width a (at_ d) t)) /\
    colors d = (if color a then contours d else []) /\
    (forall i, In i (labels d) <-> label a = true /\ nth_error (times a) i = Some (at_ d)) /\
    (forall i, nth_error (times a) i = Some (at_ d) -> In i (contours d)).
Proof.
  intros a inf t0 t1 passes ds H d Hd.
  assert (I : in_step a (start t0)).
  { split; [intros f []|]. split; [reflexivity|]. cbn. now destruct (color a). }
  pose proof (show_step _ _ _ _ _ _ _ I H) as F. rewrite Forall_forall in F.
  destruct (F d Hd) as (B & W & C & L & A). split; [rewrite W; apply map_length|]. split; [|auto].
  intros q i Hq. destruct (nth_error_lt_Some (times a) i) as [t Ht]; [apply B; eapply nth_error_In; eauto|].
  exists t. split; auto. rewrite W, nth_error_map, Hq. cbn. now rewrite (nth_error_nth _ _ _ Ht).
Qed.
Print Assumptions C140_in_step.
(** Pause, one step back, one step forward. *)
Definition atlas : anim := {| times := [10; 11; 11; 12; 14]%Z; day := 1; nb_step := 2; color := true; label := true |}.
Example C140_in_step_case :
  option_map (map (fun d => (at_ d, contours d))) (show atlas false 10 14 (start 10) [[]; [Space; Left; Right]])
  = Some [(11%Z, [1; 2]); (12%Z, [1; 2; 3]); (11%Z, [1; 2]); (12%Z, [1; 2; 3])].
Proof. reflexivity. Qed.

(** ** Play without any key *)
Lemma busy_S : forall a t0 k,
  busy_days a t0 (S k) = busy_days a t0 k ++
    (let f := frame a (t0 + Z.of_nat (S k) * day a)%Z in if negb (length f =? 0) then [f] else []).
Proof.
  intros a t0 k. unfold busy_days. rewrite seq_S, map_app, filter_app. cbn [map filter Nat.add].
  destruct (negb _); reflexivity.
Qed.

Definition played (a : anim) (t0 : Z) (k : nat) (st : state) : Prop :=
  now st = (t0 + Z.of_nat k * day a)%Z /\ pause st = false /\ segs st = lastn (nb_step a) (busy_days a t0 k).

Lemma next_played : forall a t0 k st, played a t0 k st ->
  played a t0 (S k) (fst (next a st)) /\
  at_ (snd (next a st)) = (t0 + Z.of_nat (S k) * day a)%Z /\
  contours (snd (next a st)) = concat (lastn (nb_step a) (busy_days a t0 k)) ++ frame a (t0 + Z.of_nat (S k) * day a)%Z.
Proof.
  intros a t0 k st (N & P & G). unfold next, update, at_time. cbn [now pause segs t_segs c_segs fst snd at_ contours].
  assert (E : (now st + day a = t0 + Z.of_nat (S k) * day a)%Z) by (rewrite N; lia). rewrite E.
  split; [|split; [reflexivity|]].
  - unfold played. cbn [now pause segs]. split; auto. split; auto. rewrite G, busy_S. cbn zeta.
    destruct (negb (length (frame a (t0 + Z.of_nat (S k) * day a)) =? 0)).
    + rewrite lastn_snoc. reflexivity.
    + rewrite app_nil_r. pose proof (length_lastn (nb_step a) (busy_days a t0 k)).
      destruct (Nat.ltb_spec (nb_step a) (length (lastn (nb_step a) (busy_days a t0 k)))); [lia|reflexivity].
  - rewrite G. destruct (Nat.eqb_spec (length (frame a (t0 + Z.of_nat (S k) * day a))) 0) as [L|L]; cbn [negb].
    + destruct (frame a (t0 + Z.of_nat (S k) * day a)); [now rewrite app_nil_r|cbn in L; lia].
    + rewrite concat_app. cbn [concat]. now rewrite app_nil_r.
Qed.

Lemma show_played : forall a t0 t1 n k st, played a t0 k st ->
  exists ds, show a false t0 t1 st (repeat [] n) = Some ds /\
    forall q d, nth_error ds q = Some d ->
      at_ d = (t0 + Z.of_nat (k + S q) * day a)%Z /\
      contours d = concat (lastn (nb_step a) (busy_days a t0 (k + q))) ++ frame a (at_ d).
Proof.
  intros a t0 t1 n. induction n as [|n IH]; intros k st P; cbn [repeat show].
  - exists []. split; auto. intros [|q] d H; discriminate.
  - pose proof (next_played a t0 k st P) as (P' & A & C). pose proof P as (_ & NP & _). rewrite NP.
    destruct (next a st) as [s d0]. cbn [fst snd] in *. cbn [presses bind fst snd].
    assert (F0 : at_ d0 = (t0 + Z.of_nat (k + 1) * day a)%Z /\ contours d0 = concat (lastn (nb_step a) (busy_days a t0 (k + 0))) ++ frame a (at_ d0)).
    { rewrite Nat.add_1_r, Nat.add_0_r, A. auto. }
    destruct (t1 <? now s)%Z.
    + exists [d0]. split; auto. intros [|q] d H; [injection H as <-; auto|destruct q; discriminate].
    + destruct (IH (S k) s P') as (ds & E & G). rewrite E. cbn [bind app]. exists (d0 :: ds). split; auto.
      intros [|q] d H; [injection H as <-; auto|]. cbn [nth_error] in H. apply G in H as [H1 H2].
      replace (k + S (S q)) with (S k + S q) by lia. replace (k + S q) with (S k + q) by lia. auto.
Qed.
Lemma show_length : forall a t0 t1 n st k ds, (0 < day a)%Z -> now st = (t0 + Z.of_nat k * day a)%Z -> (now st <= t1)%Z ->
  pause st = false -> show a false t0 t1 st (repeat [] n) = Some ds ->
  length ds = Nat.min n (S (Z.to_nat ((t1 - t0) / day a)) - k).
Proof.
  intros a t0 t1 n. induction n as [|n IH]; intros st k ds Dp N Le P H; cbn [repeat show] in H.
  - injection H as <-. reflexivity.
  - rewrite P in H. unfold next, update, at_time in H. cbn [now pause segs t_segs c_segs presses bind fst snd] in H.
    set (s := {| now := _; pause := _; segs := _; t_segs := _; c_segs := _ |}) in H.
    assert (Ns : now s = (t0 + Z.of_nat (S k) * day a)%Z) by (cbn [now s]; rewrite N; lia).
    assert (Q1 : (Z.of_nat k <= (t1 - t0) / day a)%Z) by (apply Z.div_le_lower_bound; lia).
    change (now st + day a)%Z with (now s) in H.
    destruct (Z.ltb_spec t1 (now s)) as [Lt|Ge].
    + injection H as <-. cbn [length].
      assert ((t1 - t0) / day a < Z.of_nat (S k))%Z by (apply Z.div_lt_upper_bound; lia). lia.
    + destruct (show a false t0 t1 s (repeat [] n)) as [ds0|] eqn:E; [|discriminate]. cbn [bind app] in H.
      injection H as <-. cbn [length].
      rewrite (IH s (S k) ds0 Dp Ns Ge P E).
      assert (Q2 : (Z.of_nat (S k) <= (t1 - t0) / day a)%Z) by (apply Z.div_le_lower_bound; lia). lia.
Qed.

(** Without any key the dates shown are [t0 + 1, t0 + 2, ...] days, until the
    first one after [t1] included; each drawing shows the rows of the date
    after those of the [nb_step] last days which had any row. *)
Theorem C140_play : forall a t0 t1 n, (0 < day a)%Z -> (t0 <= t1)%Z ->
  exists ds, show a false t0 t1 (start t0) (repeat [] n) = Some ds /\
    length ds = Nat.min n (S (Z.to_nat ((t1 - t0) / day a))) /\
    forall q d, nth_error ds q = Some d ->
      at_ d = (t0 + Z.of_nat (S q) * day a)%Z /\
      contours d = concat (lastn (nb_step a) (busy_days a t0 q)) ++ frame a (at_ d).
Proof.
  intros a t0 t1 n Dp Le.
  assert (P : played a t0 0 (start t0)) by (split; [cbn; lia|auto]).
  destruct (show_played a t0 t1 n 0 _ P) as (ds & E & G). exists ds. split; auto. split; [|exact G].
  rewrite (show_length a t0 t1 n (start t0) 0 ds Dp); auto; cbn; lia.
Qed.
Print Assumptions C140_play.
(** Day 10 is not shown; day 13 has no row; day 14 still shows day 11. *)
Example C140_play_case :
  option_map (map (fun d => (at_ d, contours d))) (show atlas false 10 14 (start 10) (repeat [] 9))
  = Some [(11%Z, [1; 2]); (12%Z, [1; 2; 3]); (13%Z, [1; 2; 3]); (14%Z, [1; 2; 3; 4]); (15%Z, [3; 4])].
Proof. reflexivity. Qed.

(** When every day has a row, the contours of a drawing are exactly those of
    the days of the last [nb_step] days, the date included, among the days
    after [t0], and the widths are between 0 and 2.5. *)
Theorem C140_window : forall a t0 t1 n ds, (0 < day a)%Z -> (t0 <= t1)%Z -> 0 < nb_step a ->
  show a false t0 t1 (start t0) (repeat [] n) = Some ds ->
  (forall k, 0 < k -> (t0 + Z.of_nat k * day a <= t1)%Z -> exists i, nth_error (times a) i = Some (t0 + Z.of_nat k * day a)%Z) ->
  forall q d, nth_error ds q = Some d ->
    (forall i, In i (contours d) <-> exists k, 0 < k /\ k <= S q <= k + nb_step a /\ nth_error (times a) i = Some (t0 + Z.of_nat k * day a)%Z) /\
    (forall w, In w (widths d) -> (0 <= w /\ w <= 5 # 2)%Q).
Proof.
  intros a t0 t1 n ds Dp Le Nb E Full q d Hq.
  destruct (C140_play a t0 t1 n Dp Le) as (ds' & E' & Len & G). rewrite E in E'. injection E' as <-.
  destruct (G q d Hq) as [A C].
  assert (Lq : q <= Z.to_nat ((t1 - t0) / day a)).
  { apply nth_error_Some_lt in Hq. lia. }
  assert (Pd : (0 <= (t1 - t0) / day a)%Z) by (apply Z.div_pos; lia).
  assert (In1 : forall k, k <= q -> (t0 + Z.of_nat k * day a <= t1)%Z).
  { intros k Hk. pose proof (Z.mul_div_le (t1 - t0) (day a) Dp). nia. }
  assert (BZ : busy_days a t0 q = map (fun k => frame a (t0 + Z.of_nat k * day a)%Z) (seq 1 q)).
  { unfold busy_days. clear - Full In1.
    assert (forall l, (forall f, In f l -> f <> []) -> filter (fun f : list nat => negb (length f =? 0)) l = l) as H.
    { induction l as [|f l IH]; intros H; auto. cbn [filter]. destruct f as [|x f]; [exfalso; apply (H []); [now left|auto]|].
      cbn [length Nat.eqb negb]. f_equal. apply IH. intros g Hg. apply H. now right. }
    apply H. intros f Hf Z0. apply in_map_iff in Hf as (k & Hk & Hin). apply in_seq in Hin.
    destruct (Full k) as [i Hi]; [lia|apply In1; lia|]. apply In_frame in Hi. rewrite Hk, Z0 in Hi. destruct Hi. }
  assert (LN : lastn (nb_step a) (busy_days a t0 q) =
               map (fun k => frame a (t0 + Z.of_nat k * day a)%Z) (seq (1 + (q - nb_step a)) (q - (q - nb_step a)))).
  { rewrite BZ. unfold lastn. rewrite map_length, seq_length, skipn_map. f_equal.
    clear. generalize 1 as s. generalize (q - nb_step a) as p. intros p. revert q.
    induction p as [|p IH]; intros q s; [cbn; now rewrite Nat.sub_0_r, Nat.add_0_r|].
    destruct q as [|q]; [reflexivity|]. cbn [seq skipn]. rewrite IH. f_equal; lia. }
  assert (CC : forall i, In i (contours d) <-> exists k, 0 < k /\ k <= S q <= k + nb_step a /\ nth_error (times a) i = Some (t0 + Z.of_nat k * day a)%Z).
  { intros i. rewrite C, in_app_iff, LN, in_concat. split.
    - intros [(f & Hf & Hi)|H].
      + apply in_map_iff in Hf as (k & <- & Hk). apply in_seq in Hk. apply In_frame in Hi. exists k. split; [lia|]. split; [lia|auto].
      + apply In_frame in H. rewrite A in H. exists (S q). split; [lia|]. split; [lia|auto].
    - intros (k & Pk & Hk & Hi). destruct (Nat.eq_dec k (S q)) as [->|Nk].
      + right. apply In_frame. now rewrite A.
      + left. exists (frame a (t0 + Z.of_nat k * day a)%Z). split; [|now apply In_frame].
        apply in_map_iff. exists k. split; auto. apply in_seq. lia. }
  split; [exact CC|].
  intros w Hw. apply In_nth_error in Hw as [p Hp].
  destruct (C140_in_step a false t0 t1 _ ds E d (nth_error_In _ _ Hq)) as (LW & W & _).
  destruct (nth_error_lt_Some (contours d) p) as [i Hi]; [rewrite <- LW; eapply nth_error_Some_lt; eauto|].
  destruct (W p i Hi) as (t & Ht & Hw). rewrite Hp in Hw. injection Hw as ->.
  destruct (proj1 (CC i) (nth_error_In _ _ Hi)) as (k & Pk & Hk & Hik). rewrite Ht in Hik. injection Hik as ->.
  unfold width. rewrite A. destruct (Z.leb_spec (t0 + Z.of_nat k * day a) (t0 + Z.of_nat (S q) * day a)) as [L|L]; [|nia].
  replace (t0 + Z.of_nat (S q) * day a - (t0 + Z.of_nat k * day a))%Z with (Z.of_nat (S q - k) * day a)%Z by nia.
  assert (R1 : (inject_Z (Z.of_nat (S q - k) * day a) / inject_Z (day a) == inject_Z (Z.of_nat (S q - k)))%Q).
  { rewrite inject_Z_mult. field. intros X. unfold Qeq in X. cbn in X. lia. }
  rewrite R1.
  assert (R2 : (0 < inject_Z (Z.of_nat (nb_step a)))%Q) by (change 0%Q with (inject_Z 0); rewrite <- Zlt_Qlt; lia).
  assert (R3 : (0 <= inject_Z (Z.of_nat (S q - k)) / inject_Z (Z.of_nat (nb_step a)))%Q).
  { apply Qle_shift_div_l; auto. rewrite Qmult_0_l. change 0%Q with (inject_Z 0). rewrite <- Zle_Qle. lia. }
  assert (R4 : (inject_Z (Z.of_nat (S q - k)) / inject_Z (Z.of_nat (nb_step a)) <= 1)%Q).
  { apply Qle_shift_div_r; auto. rewrite Qmult_1_l. rewrite <- Zle_Qle. lia. }
  set (r := (inject_Z (Z.of_nat (S q - k)) / inject_Z (Z.of_nat (nb_step a)))%Q) in *. split; lra.
Qed.
Print Assumptions C140_window.
Example C140_window_case :
  let a := {| times := [3; 4; 5; 6]%Z; day := 1; nb_step := 2; color := false; label := true |} in
  option_map (map (fun d => (at_ d, contours d, map Qred (widths d)))) (show a false 3 6 (start 3) (repeat [] 3))
  = Some [(4%Z, [1], [5 # 2]%Q); (5%Z, [1; 2], [5 # 4; 5 # 2]%Q); (6%Z, [1; 2; 3], [0; 5 # 4; 5 # 2]%Q)].
Proof. reflexivity. Qed.

(** With days without any row a contour stays more than [nb_step] days and its
    width is negative. *)
Theorem C140_width_refuted : exists a t0 t1 n ds d w, (0 < day a)%Z /\ 0 < nb_step a /\
  show a false t0 t1 (start t0) (repeat [] n) = Some ds /\ In d ds /\ In w (widths d) /\ (w < 0)%Q.
Proof.
  pose (a := {| times := [0; 1; 6]%Z; day := 1; nb_step := 2; color := true; label := true |}).
  exists a, 0%Z, 6%Z, 6.
  let r := eval vm_compute in (show a false 0 6 (start 0) (repeat [] 6)) in
  match r with Some ?x => exists x; exists (nth 5 x (nth 0 x {| at_ := 0; contours := []; widths := []; colors := []; labels := [] |})) end.
  eexists. split; [reflexivity|]. split; [cbn; lia|].
  split; [vm_compute; reflexivity|]. split; [do 5 right; left; reflexivity|]. split; [left; reflexivity|]. reflexivity.
Qed.
Print Assumptions C140_width_refuted.

(** ** The first day *)
Definition after (a : anim) (t0 : Z) (st : state) : Prop :=
  (t0 <= now st)%Z /\ forall f i, In f (segs st) -> In i f -> exists t, nth_error (times a) i = Some t /\ (t0 < t)%Z.
Definition shows_after (a : anim) (t0 : Z) (d : drawing) : Prop :=
  forall i, In i (contours d) -> exists t, nth_error (times a) i = Some t /\ (t0 < t)%Z.
Lemma next_after : forall a t0 st, (0 < day a)%Z -> after a t0 st ->
  after a t0 (fst (next a st)) /\ shows_after a t0 (snd (next a st)).
Proof.
  intros a t0 st Dp (N & S1). unfold next, update, at_time. cbn [now pause segs t_segs c_segs fst snd].
  assert (F : forall i, In i (frame a (now st + day a)) -> exists t, nth_error (times a) i = Some t /\ (t0 < t)%Z).
  { intros i Hi. apply In_frame in Hi. exists (now st + day a)%Z. split; auto. lia. }
  assert (G : forall f i, In f (if negb (length (frame a (now st + day a)) =? 0) then segs st ++ [frame a (now st + day a)%Z] else segs st) -> In i f ->
            exists t, nth_error (times a) i = Some t /\ (t0 < t)%Z).
  { intros f i Hf Hi. destruct (negb _); [|eauto]. apply in_app_iff in Hf as [Hf|[<-|[]]]; eauto. }
  split.
  - split; cbn [now segs]; [lia|]. intros f i Hf Hi.
    apply (G f i); auto. destruct (nb_step a <? _); [|exact Hf].
    destruct (if negb _ then _ else _); [exact Hf|right; exact Hf].
  - intros i Hi. cbn [contours] in Hi. apply in_concat in Hi as (f & Hf & Hi). eauto.
Qed.
Lemma presses_after : forall a t0 ks st st' ds, (0 < day a)%Z -> ~ In Left ks -> after a t0 st ->
  presses a st ks = Some (st', ds) -> after a t0 st' /\ Forall (shows_after a t0) ds.
Proof.
  intros a t0 ks. induction ks as [|k ks IH]; intros st st' ds Dp NL A H; cbn [presses] in H.
  - injection H as <- <-. auto.
  - destruct (press a st k) as [[s1 d1]|] eqn:E1; [|discriminate]. cbn [bind fst snd] in H.
    destruct (presses a s1 ks) as [[s2 d2]|] eqn:E2; [|discriminate]. cbn [bind fst snd] in H. injection H as <- <-.
    assert (after a t0 s1 /\ Forall (shows_after a t0) d1) as [A1 F1].
    { destruct k; cbn [press] in E1.
      - injection E1 as <- <-. auto.
      - destruct (pause st); [|injection E1 as <- <-; auto].
        pose proof (next_after a t0 st Dp A) as [X Y]. destruct (next a st) as [s d]. injection E1 as <- <-. auto.
      - exfalso. apply NL. now left.
      - injection E1 as <- <-. auto. }
    destruct (IH s1 s2 d2 Dp (fun X => NL (or_intror X)) A1 E2) as [A2 F2]. split; auto. apply Forall_app. auto.
Qed.
Lemma show_after : forall a inf t0 t1 passes st ds, (0 < day a)%Z -> (forall ks, In ks passes -> ~ In Left ks) ->
  after a t0 st -> show a inf t0 t1 st passes = Some ds -> Forall (shows_after a t0) ds.
Proof.
  intros a inf t0 t1. induction passes as [|ks r IH]; intros st ds Dp NL A H; cbn [show] in H.
  - injection H as <-. constructor.
  - assert (P : exists s1 d1, (if pause st then (st, []) else let '(s, d) := next a st in (s, [d])) = (s1, d1)
             /\ after a t0 s1 /\ Forall (shows_after a t0) d1).
    { destruct (pause st); [exists st, []; auto|].
      pose proof (next_after a t0 st Dp A) as [X Y]. destruct (next a st) as [s d]. exists s, [d]. auto. }
    destruct P as (s1 & d1 & EP & A1 & F1). rewrite EP in H.
    destruct (presses a s1 ks) as [[s2 d2]|] eqn:E2; [|discriminate]. cbn [bind fst snd] in H.
    destruct (presses_after a t0 ks s1 s2 d2 Dp (NL ks (or_introl eq_refl)) A1 E2) as [A2 F2].
    assert (G : forall st', after a t0 st' ->
      (let! ds0 := show a inf t0 t1 st' r in Some (d1 ++ d2 ++ ds0)) = Some ds -> Forall (shows_after a t0) ds).
    { intros st' A' H'. destruct (show a inf t0 t1 st' r) as [ds0|] eqn:E; [|discriminate].
      cbn [bind] in H'. injection H' as <-. apply Forall_app. split; auto. apply Forall_app. split; auto.
      eapply IH; eauto. intros ks' Hk. apply NL. now right. }
    destruct (t1 <? now s2)%Z; [destruct inf|].
    + apply (G (at_time s2 t0)); auto. destruct A2 as [_ A2]. split; [cbn; lia|exact A2].
    + injection H as <-. apply Forall_app. auto.
    + apply (G s2); auto.
Qed.

(** The rows of the first date of the period are never shown, whatever the
    pauses, the steps forward, the speeds and the number of loops. *)
Theorem C140_first_day : forall a infinity t0 t1 passes ds, (0 < day a)%Z ->
  (forall ks, In ks passes -> ~ In Left ks) ->
  show a infinity t0 t1 (start t0) passes = Some ds ->
  forall d i, In d ds -> nth_error (times a) i = Some t0 -> ~ In i (contours d) /\ ~ In i (labels d).
Proof.
  intros a inf t0 t1 passes ds Dp NL H d i Hd Hi.
  assert (A : after a t0 (start t0)) by (split; [cbn; lia|intros f j []]).
  pose proof (show_after a inf t0 t1 passes _ ds Dp NL A H) as F. rewrite Forall_forall in F.
  assert (X : ~ In i (contours d)).
  { intros X. destruct (F d Hd i X) as (t & Ht & L). rewrite Hi in Ht. injection Ht as <-. lia. }
  split; auto. intros Y. apply X.
  destruct (C140_in_step a inf t0 t1 passes ds H d Hd) as (_ & _ & _ & L & C). apply C. now apply L.
Qed.
Print Assumptions C140_first_day.
Example C140_first_day_case :
  option_map (map contours) (show atlas true 10 14 (start 10) [[]; []; [Space]; [Right; Space]; []; []; []])
  = Some [[1; 2]; [1; 2; 3]; [1; 2; 3]; [1; 2; 3; 4]; [3; 4]; [3; 4; 1; 2]; [4; 1; 2; 3]] /\ nth_error (times atlas) 0 = Some 10%Z.
Proof. split; reflexivity. Qed.

(** ** One step back *)
(** When the date and the day before both have rows, the left key shows the
    day before, on the contours kept before it. *)
Theorem C140_left : forall a st pre f, color a = true -> in_step a st -> pause st = true ->
  f <> [] -> frame a (now st - day a) <> [] ->
  segs st = pre ++ [frame a (now st - day a); f] ->
  exists st' d, press a st Left = Some (st', [d]) /\
    now st' = (now st - day a)%Z /\ at_ d = (now st - day a)%Z /\
    contours d = concat pre ++ frame a (now st - day a).
Proof.
  intros a st pre f Cl (B & T & C) P Nf Ng Sg. cbn [press]. rewrite P, T, C, Cl.
  assert (Lp : forall {A B} (g : A -> B) l x y, pop2 (map g (l ++ [x; y])) = Some (map g l)).
  { intros A B0 g l x y. unfold pop2. rewrite map_length, app_length. cbn [length].
    destruct (Nat.ltb_spec (length l + 2) 2); [lia|]. f_equal.
    rewrite map_app, firstn_app, map_length. replace (length l + 2 - 2 - length l) with 0 by lia.
    cbn [firstn]. rewrite app_nil_r, firstn_all2; auto. rewrite map_length. lia. }
  pose proof (Lp _ _ (fun x : list nat => x) pre (frame a (now st - day a)) f) as L1. rewrite !map_id in L1.
  pose proof (Lp _ _ (map (fun i => nth i (times a) 0%Z)) pre (frame a (now st - day a)) f) as L2.
  rewrite Sg, L1, L2. cbn [bind]. unfold prev, update, at_time. cbn [now pause segs t_segs c_segs].
  eexists. eexists. split; [reflexivity|]. split; [reflexivity|]. split; [reflexivity|]. cbn [contours].
  destruct (Nat.eqb_spec (length (frame a (now st - day a))) 0) as [Z0|Z0]; cbn [negb].
  - destruct (frame a (now st - day a)); [congruence|discriminate].
  - rewrite concat_app. cbn [concat]. now rewrite app_nil_r.
Qed.
Print Assumptions C140_left.
Example C140_left_case :
  let st := {| now := 12; pause := true; segs := [[1; 2]; [3]]; t_segs := [[11; 11]; [12]]%Z; c_segs := [[1; 2]; [3]] |} in
  in_step atlas st /\ segs st = [] ++ [frame atlas (now st - day atlas); [3]] /\
  option_map (fun p => map contours (snd p)) (press atlas st Left) = Some [[1; 2]].
Proof.
  split; [|split; reflexivity]. split; [|split; reflexivity].
  intros f [<-|[<-|[]]] i Hi; cbn in *; lia.
Qed.
(** After a day without any row the left key takes away the contours of one
    day too many: day 13 shows days 11 and 12, but day 11 only when it is
    reached by a step back from day 14. *)
Theorem C140_left_gap_refuted : exists a t0 t1 ds d d',
  show a false t0 t1 (start t0) [[]; []; []; [Space; Left]] = Some ds /\
  nth_error ds 2 = Some d /\ nth_error ds 4 = Some d' /\ at_ d = at_ d' /\ contours d <> contours d'.
Proof.
  exists atlas, 10%Z, 14%Z.
  let r := eval vm_compute in (show atlas false 10 14 (start 10) [[]; []; []; [Space; Left]]) in
  match r with Some ?x => exists x end.
  do 2 eexists. split; [vm_compute; reflexivity|]. split; [reflexivity|]. split; [reflexivity|].
  split; [reflexivity|]. discriminate.
Qed.
Print Assumptions C140_left_gap_refuted.
(** Without colours the left key is an error, whatever was shown. *)
Theorem C140_left_no_color_refuted : forall a infinity t0 t1 st, color a = false -> in_step a st -> pause st = true ->
  press a st Left = None /\ show a infinity t0 t1 st [[Left]] = None.
Proof.
  intros a inf t0 t1 st Cl (_ & _ & C) P. rewrite Cl in C.
  assert (E : press a st Left = None).
  { cbn [press]. rewrite P, C. destruct (pop2 (segs st)); [|reflexivity]. destruct (pop2 (t_segs st)); reflexivity. }
  split; auto. cbn [show]. rewrite P. cbn [presses]. now rewrite E.
Qed.
Print Assumptions C140_left_no_color_refuted.
Example C140_left_no_color_case : in_step {| times := [1; 2]%Z; day := 1; nb_step := 5; color := false; label := true |}
  {| now := 2; pause := true; segs := [[0]; [1]]; t_segs := [[1]; [2]]%Z; c_segs := [] |}.
Proof. split; [|split; reflexivity]. intros f [<-|[<-|[]]] i Hi; cbn in *; lia. Qed.

(** ** Film *)
Lemma film_dates : forall a frames st, map at_ (film a st frames) = frames.
Proof.
  intros a frames. induction frames as [|z r IH]; intros st; cbn [film]; [reflexivity|].
  unfold func_animation, update, at_time. cbn [map at_ now]. f_equal. apply IH.
Qed.
(** The film shows the dates from the first one, but not the last one. *)
Theorem C140_film : forall a st t0 t1, (t0 <= t1)%Z ->
  forall z, In z (map at_ (film a st (film_frames t0 t1))) <-> (t0 <= z < t1)%Z.
Proof.
  intros a st t0 t1 Le z. rewrite film_dates. unfold film_frames. rewrite in_map_iff. split.
  - intros (k & <- & Hk). apply in_seq in Hk. lia.
  - intros H. exists (Z.to_nat (z - t0)). split; [lia|]. apply in_seq. lia.
Qed.
Print Assumptions C140_film.
Example C140_film_case : map (fun d => (at_ d, contours d)) (film atlas (start 10) (film_frames 10 14))
  = [(10%Z, [0]); (11%Z, [0; 1; 2]); (12%Z, [0; 1; 2; 3]); (13%Z, [1; 2; 3])].
Proof. reflexivity. Qed.
