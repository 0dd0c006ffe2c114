(** Lemmas on the targets of particles. *)
From Coq Require Import List Arith ZArith QArith Qround Bool Lia Lqa.
From Verif Require Import Base Spec Qaux Corr_model Corr_spec Corr_merge Corr_more TrackObs_model TrackObs_proofs Split_model Split_net Obs_model NetEvt_model Net_links Grp_model Grp_spec Grp_proofs Grp_more.
Import ListNotations.
Local Close Scope Q_scope.
Local Open Scope nat_scope.

(** ** Counts *)
Lemma count_particles_spec : forall nb_end i_start i_end ref counts, length i_start = length i_end -> length counts = length ref ->
  (forall row, In row counts -> length row = nb_end) ->
  (forall s, In s i_start -> s < length ref) -> (forall e, In (Some e) i_end -> e < nb_end) ->
  exists ref' counts', count_particles i_start i_end ref counts = Some (ref', counts') /\ length ref' = length ref /\ length counts' = length ref /\
    (forall row, In row counts' -> length row = nb_end) /\
    (forall i r, nth_error ref i = Some r -> nth_error ref' i = Some (r + Z.of_nat (from_eddy i_start i))%Z) /\
    (forall i row, nth_error counts i = Some row -> exists row', nth_error counts' i = Some row' /\
       forall j c, nth_error row j = Some c -> nth_error row' j = Some (c + Z.of_nat (from_to i_start i_end i j))%Z).
Proof.
  intros nb_end. induction i_start as [|s i_start IH]; intros [|e i_end] ref counts L LC LR BS BE; simpl in L; try discriminate.
  - exists ref, counts. split; [reflexivity|]. split; [auto|]. split; [auto|]. split; [auto|]. split.
    + intros i r R. rewrite R. f_equal. cbn. lia.
    + intros i row R. exists row. split; [auto|]. intros j c C. rewrite C. f_equal. cbn. lia.
  - injection L as L. cbn [count_particles]. assert (SL : s < length ref) by (apply BS; left; auto). destruct (nth_error_lt_Some ref s SL) as [r R]. rewrite R. cbn [bind].
    assert (FE : forall i, from_eddy (s :: i_start) i = (if s =? i then 1 else 0) + from_eddy i_start i). { intros i. unfold from_eddy. cbn [filter]. destruct (s =? i); auto. }
    assert (FT : forall i j, from_to (s :: i_start) (e :: i_end) i j = (if ((s =? i) && match e with Some e => e =? j | None => false end)%bool then 1 else 0) + from_to i_start i_end i j). { intros i j. unfold from_to. cbn [combine filter fst snd]. destruct (_ && _)%bool; auto. }
    assert (RU : forall i r0, nth_error ref i = Some r0 -> nth_error (upd ref s (r + 1)%Z) i = Some (r0 + (if (s =? i)%nat then 1 else 0))%Z).
    { intros i r0 R0. destruct (Nat.eqb_spec s i) as [->|N]; [rewrite nth_error_upd_eq by auto; f_equal; congruence|rewrite nth_error_upd_neq by auto; rewrite R0; f_equal; lia]. }
    destruct e as [e|].
    + destruct (nth_error_lt_Some counts s ltac:(lia)) as [row ROW]. rewrite ROW. cbn [bind]. assert (LRW : length row = nb_end) by (apply LR; eapply nth_error_In; eauto). assert (EL : e < nb_end) by (apply BE; left; auto).
      destruct (nth_error_lt_Some row e ltac:(lia)) as [c C]. rewrite C. cbn [bind].
      destruct (IH i_end (upd ref s (r + 1)%Z) (upd counts s (upd row e (c + 1)%Z))) as (ref' & counts' & E & A1 & A2 & A3 & A4 & A5); rewrite ?length_upd; auto.
      { intros x I. apply In_nth_error in I as (k & K). destruct (Nat.eq_dec k s) as [->|N]; [rewrite nth_error_upd_eq in K by lia; injection K as <-; rewrite length_upd; auto|rewrite nth_error_upd_neq in K by auto; apply LR; eapply nth_error_In; eauto]. }
      { intros x I. apply BS. right. auto. } { intros x I. apply BE. right. auto. }
      rewrite length_upd in A1, A2. exists ref', counts'. split; [auto|]. split; [auto|]. split; [auto|]. split; [auto|]. split.
      * intros i r0 R0. rewrite (A4 i _ (RU i r0 R0)), FE. f_equal. destruct (s =? i); lia.
      * intros i row0 R0. destruct (Nat.eq_dec s i) as [->|N].
        -- rewrite ROW in R0. injection R0 as <-. destruct (A5 i (upd row e (c + 1)%Z)) as (row' & R' & H); [apply nth_error_upd_eq; lia|]. exists row'. split; [auto|]. intros j c0 C0. rewrite FT, Nat.eqb_refl. cbn [andb].
           destruct (Nat.eqb_spec e j) as [->|N]; [rewrite (H j (c + 1)%Z) by (apply nth_error_upd_eq; lia); f_equal; rewrite C in C0; injection C0 as <-; lia|rewrite (H j c0) by (rewrite nth_error_upd_neq by auto; auto); f_equal; lia].
        -- destruct (A5 i row0) as (row' & R' & H); [rewrite nth_error_upd_neq by auto; auto|]. exists row'. split; [auto|]. intros j c0 C0. rewrite (H j c0 C0), FT. destruct (Nat.eqb_spec s i); [congruence|]. cbn [andb]. f_equal; lia.
    + destruct (IH i_end (upd ref s (r + 1)%Z) counts) as (ref' & counts' & E & A1 & A2 & A3 & A4 & A5); rewrite ?length_upd; auto.
      { intros x I. apply BS. right. auto. } { intros x I. apply BE. right. auto. }
      rewrite length_upd in A1, A2. exists ref', counts'. split; [auto|]. split; [auto|]. split; [auto|]. split; [auto|]. split.
      * intros i r0 R0. rewrite (A4 i _ (RU i r0 R0)), FE. f_equal. destruct (s =? i); lia.
      * intros i row0 R0. destruct (A5 i row0 R0) as (row' & R' & H). exists row'. split; [auto|]. intros j c0 C0. rewrite (H j c0 C0), FT, andb_false_r. f_equal; lia.
Qed.

(** ** Ranking *)
Lemma two_best_ext : forall st (r1 r2 : nat -> Prop) p b, (forall j, r1 j <-> r2 j) -> two_best st r1 p b -> two_best st r2 p b.
Proof.
  intros st r1 r2 p b E. unfold two_best. destruct (b_t0 b) as [a|].
  - intros (A & B & C & D & F). split; [apply E; auto|]. split; [auto|]. split; [intros j J; apply C, E; auto|]. split; [intros j J; apply D, E; auto|]. destruct (b_t1 b) as [c|].
    + destruct F as (F1 & F2 & F3 & F4 & F5). split; [auto|]. split; [apply E; auto|]. split; [auto|]. split; intros j J; [apply F4, E; auto|apply F5, E; auto].
    + destruct F as [F1 F2]. split; [|auto]. intros j J. apply F1, E. auto.
  - intros (A & B). split; [|auto]. intros j J. apply (A j), E. auto.
Qed.

Section Rank.
Variables (st : Q -> Q) (K : keeping st) (ref : Z) (R : (0 < ref)%Z) (all : list Z) (NN : forall j c, nth_error all j = Some c -> (0 <= c)%Z).
Definition pc (j : nat) : Q := (inject_Z (nth j all 0%Z) / inject_Z ref * 100)%Q.
Definition act (n j : nat) : Prop := j < n /\ nth j all 0%Z <> 0%Z.

Lemma pc_pos : forall j, j < length all -> nth j all 0%Z <> 0%Z -> (0 < pc j)%Q.
Proof.
  intros j L N. destruct (nth_error_lt_Some all j L) as [c C]. specialize (NN j c C). rewrite (nth_error_nth all j 0%Z C) in N. unfold pc. rewrite (nth_error_nth all j 0%Z C).
  assert (0 < inject_Z c)%Q by (change 0%Q with (inject_Z 0); apply inject_Z_lt_iff; lia). assert (0 < inject_Z ref)%Q by (change 0%Q with (inject_Z 0); apply inject_Z_lt_iff; lia).
  assert (0 < inject_Z c / inject_Z ref)%Q by (apply Qlt_shift_div_l; lra). lra.
Qed.
Lemma st_lt : forall a b, (st a < b)%Q -> (st a <= st b)%Q.
Proof. intros a b L. destruct K as [M I]. rewrite <- (I a). apply M. lra. Qed.
Lemma st_le : forall a b, (a <= st b)%Q -> (st a <= st b)%Q.
Proof. intros a b L. destruct K as [M I]. rewrite <- (I b). apply M. auto. Qed.

Lemma rank_step : forall n b, n < length all -> two_best st (act n) pc b ->
  let c := nth n all 0%Z in
  two_best st (act (S n)) pc
    (if (c =? 0)%Z then b else
     let pct := (inject_Z c / inject_Z ref * 100)%Q in
     if Qlt_bool (b_p0 b) pct then Best2 (Some n) (st pct) (b_t0 b) (b_p0 b)
     else if Qlt_bool (b_p1 b) pct then Best2 (b_t0 b) (b_p0 b) (Some n) (st pct)
     else b).
Proof.
  intros n b L T c. destruct (Z.eqb_spec c 0) as [C0|CN].
  - eapply two_best_ext; [|exact T]. intros j. unfold act. split; intros [A B]; (split; [|auto]); [lia|]. destruct (Nat.eq_dec j n) as [->|]; [fold c in B; congruence|lia].
  - cbv zeta. fold (pc n). pose proof (pc_pos n L CN) as PP.
    assert (AN : act (S n) n) by (split; [lia|auto]). assert (AS : forall j, act (S n) j -> j = n \/ act n j) by (intros j [A B]; destruct (Nat.eq_dec j n); [auto|right; split; [lia|auto]]). assert (SA : forall j, act n j -> act (S n) j /\ j <> n) by (intros j [A B]; split; [split; [lia|auto]|lia]).
    change (inject_Z c / inject_Z ref * 100)%Q with (pc n).
    destruct (Qlt_bool (b_p0 b) (pc n)) eqn:C1; [apply Qlt_bool_iff in C1|apply Qlt_bool_false in C1; destruct (Qlt_bool (b_p1 b) (pc n)) eqn:C2; [apply Qlt_bool_iff in C2|apply Qlt_bool_false in C2]]; unfold two_best in *; cbn [b_t0 b_t1 b_p0 b_p1] in *; destruct (b_t0 b) as [a|] eqn:T0.
    + destruct T as (A1 & A2 & A3 & A4 & A5). rewrite A2 in *.
      assert (ST : forall j, act n j -> (st (pc j) < pc n)%Q) by (intros j J; specialize (A3 j J); lra).
      split; [auto|]. split; [auto|]. split; [|split].
      * intros j J. destruct (AS j J) as [->|J']; [lra|]. apply st_lt. auto.
      * intros j J LT. destruct (AS j J) as [->|J']; [lia|]. auto.
      * split; [destruct (SA a A1); auto|]. split; [apply SA; auto|]. split; [auto|]. split; intros j J NE; (destruct (AS j J) as [->|J']; [congruence|]); [auto|]. intros LT. auto.
    + destruct T as (A1 & A2 & A3 & A4). split; [auto|]. split; [auto|]. split; [|split; [|split; [|auto]]].
      * intros j J. destruct (AS j J) as [->|J']; [lra|]. exfalso. eapply A1; eauto.
      * intros j J LT. destruct (AS j J) as [->|J']; [lia|]. exfalso. eapply A1; eauto.
      * intros j J. destruct (AS j J) as [->|J']; [auto|]. exfalso. eapply A1; eauto.
    + destruct T as (A1 & A2 & A3 & A4 & A5). split; [apply SA; auto|]. split; [auto|]. split; [|split].
      * intros j J. destruct (AS j J) as [->|J']; [|auto]. apply st_le. rewrite <- A2. auto.
      * intros j J LT. destruct (AS j J) as [->|J']; [destruct A1; lia|auto].
      * destruct (SA a A1) as [_ NA]. assert (ST : forall j, act n j -> j <> a -> (st (pc j) < pc n)%Q).
        { intros j J NE. destruct (b_t1 b) as [c1|]; [destruct A5 as (B1 & B2 & B3 & B4 & B5); specialize (B4 j J NE); rewrite B3 in C2; lra|destruct A5 as [B1 _]; specialize (B1 j J); congruence]. }
        split; [auto|]. split; [auto|]. split; [auto|]. split; intros j J NE; (destruct (AS j J) as [->|J']; [|]).
        -- lra.
        -- apply st_lt. auto.
        -- lia.
        -- auto.
    + destruct T as (A1 & A2 & A3 & A4). rewrite A2 in C1. lra.
    + destruct T as (A1 & A2 & A3 & A4 & A5). split; [apply SA; auto|]. split; [auto|]. split; [|split].
      * intros j J. destruct (AS j J) as [->|J']; [|auto]. apply st_le. rewrite <- A2. auto.
      * intros j J LT. destruct (AS j J) as [->|J']; [destruct A1; lia|auto].
      * destruct (b_t1 b) as [c1|].
        -- destruct A5 as (B1 & B2 & B3 & B4 & B5). split; [auto|]. split; [apply SA; auto|]. split; [auto|]. split; intros j J NE; (destruct (AS j J) as [->|J']; [|]).
           ++ apply st_le. rewrite <- B3. auto.
           ++ auto.
           ++ destruct B2. lia.
           ++ auto.
        -- destruct A5 as [B1 B2]. rewrite B2 in C2. lra.
    + destruct T as (A1 & A2 & A3 & A4). rewrite A2 in C1. lra.
Qed.
Lemma rank_row_spec : forall cs n b, skipn n all = cs -> n <= length all -> two_best st (act n) pc b -> two_best st (act (length all)) pc (rank_row st ref n cs b).
Proof.
  induction cs as [|c cs IH]; intros n b E L T.
  - assert (length all <= n). { destruct (Nat.lt_ge_cases n (length all)); [|auto]. apply (f_equal (@length Z)) in E. rewrite skipn_length in E. simpl in E. lia. } replace (length all) with n by lia. exact T.
  - assert (LN : n < length all). { destruct (Nat.lt_ge_cases n (length all)); [auto|]. rewrite skipn_all2 in E by lia. discriminate. }
    assert (C : nth n all 0%Z = c). { apply nth_error_nth. rewrite <- (Nat.add_0_r n). rewrite <- (firstn_skipn n all), E. rewrite nth_error_app2 by (rewrite firstn_length; lia). rewrite firstn_length. replace (n + 0 - Nat.min n (length all)) with 0 by lia. auto. }
    cbn [rank_row]. apply IH; [|lia|].
    + replace (S n) with (n + 1) by lia. clear - E. revert all E. induction n as [|n IHn]; intros l E; [simpl in E; subst l; reflexivity|]. destruct l as [|x l]; [discriminate|]. exact (IHn l E).
    + rewrite <- C. apply rank_step; auto.
Qed.
Lemma rank_row_all : two_best st (act (length all)) pc (rank_row st ref 0 all no_target).
Proof. apply rank_row_spec; auto; [lia|]. unfold two_best. cbn. split; [intros j [A _]; lia|auto]. Qed.
End Rank.

Lemma keeping_id : keeping (fun x => x).
Proof. split; [auto|]. intros. lra. Qed.
Lemma keeping_whole : keeping whole.
Proof.
  split; unfold whole.
  - intros a b L. apply inject_Z_le_iff. apply trunc_mono. auto.
  - intros a. unfold trunc at 1. cbn [inject_Z Qnum Qden]. rewrite Z.quot_1_r. lra.
Qed.
(** Row without any particle. *)
Lemma rank_row_zero : forall st ref cs n b, (forall c, In c cs -> c = 0%Z) -> rank_row st ref n cs b = b.
Proof. induction cs as [|c cs IH]; intros n b H; auto. cbn [rank_row]. rewrite (H c (or_introl eq_refl)). cbn [Z.eqb]. apply IH. intros; apply H; right; auto. Qed.

Lemma from_to_le : forall i_start i_end i j, from_to i_start i_end i j <= from_eddy i_start i.
Proof.
  unfold from_to, from_eddy. induction i_start as [|s l IH]; intros [|e i_end] i j; cbn [combine filter]; try (simpl; lia). specialize (IH i_end i j). cbn [fst snd]. destruct (s =? i); cbn [andb]; [destruct (match e with Some e0 => e0 =? j | None => false end)|]; cbn [length]; lia.
Qed.
Lemma from_to_two : forall i_start i_end i a b, a <> b -> from_to i_start i_end i a + from_to i_start i_end i b <= from_eddy i_start i.
Proof.
  intros i_start i_end i a b N. revert i_end. unfold from_to, from_eddy. induction i_start as [|s l IH]; intros [|e i_end]; cbn [combine filter]; try (simpl; lia). specialize (IH i_end). cbn [fst snd]. destruct (s =? i); cbn [andb]; [|lia].
  destruct e as [e|]; [|cbn [length]; lia]. destruct (Nat.eqb_spec e a); destruct (Nat.eqb_spec e b); cbn [length]; try lia.
Qed.

(** ** Rows *)
Lemma rank_rows_nth : forall st refs counts i r c, nth_error refs i = Some r -> nth_error counts i = Some c -> nth_error (rank_rows st refs counts) i = Some (rank_row st r 0 c no_target).
Proof. induction refs as [|r0 refs IH]; intros [|c0 counts] [|i] r c A B; simpl in *; try discriminate; [congruence|auto]. Qed.
Lemma rank_rows_length : forall st refs counts, length counts = length refs -> length (rank_rows st refs counts) = length refs.
Proof. induction refs as [|r0 refs IH]; intros [|c0 counts] L; simpl in *; try discriminate; auto. Qed.

Lemma row_two_best : forall st i_start i_end nb_end i row, keeping st -> length row = nb_end ->
  (forall j c, nth_error row j = Some c -> c = Z.of_nat (from_to i_start i_end i j)) ->
  two_best st (reached i_start i_end nb_end i) (percent i_start i_end i) (rank_row st (Z.of_nat (from_eddy i_start i)) 0 row no_target).
Proof.
  intros st i_start i_end nb_end i row K L H. assert (V : forall j, j < nb_end -> nth j row 0%Z = Z.of_nat (from_to i_start i_end i j)). { intros j J. destruct (nth_error_lt_Some row j ltac:(lia)) as [c C]. rewrite (nth_error_nth row j 0%Z C). auto. }
  destruct (Nat.eq_dec (from_eddy i_start i) 0) as [Z0|NZ].
  - rewrite rank_row_zero. { unfold two_best. cbn. split; [|auto]. intros j [A B]. pose proof (from_to_le i_start i_end i j). lia. }
    intros c I. apply In_nth_error in I as (j & J). rewrite (H j c J). pose proof (from_to_le i_start i_end i j). lia.
  - assert (T : two_best st (act row (length row)) (pc (Z.of_nat (from_eddy i_start i)) row) (rank_row st (Z.of_nat (from_eddy i_start i)) 0 row no_target)).
    { apply rank_row_all; [auto|lia|]. intros j c J. rewrite (H j c J). lia. }
    assert (EQ : forall j, j < nb_end -> pc (Z.of_nat (from_eddy i_start i)) row j = percent i_start i_end i j) by (intros j J; unfold pc, percent; rewrite V by auto; auto).
    assert (EA : forall j, act row (length row) j <-> reached i_start i_end nb_end i j). { intros j. unfold act, reached. rewrite L. split; intros [A B]; (split; [auto|]); rewrite V in * by auto; lia. }
    apply (two_best_ext _ _ _ _ _ EA) in T. set (r := rank_row _ _ _ _ _) in *. clearbody r. unfold two_best in *. destruct (b_t0 r) as [a|]; [|exact T].
    destruct T as (A1 & A2 & A3 & A4 & A5). split; [auto|]. rewrite <- (EQ a) by apply A1. split; [auto|]. split; [intros j J; rewrite <- EQ by apply J; auto|]. split; [intros j J; rewrite <- EQ by apply J; auto|].
    destruct (b_t1 r) as [c|]; [|exact A5]. destruct A5 as (B1 & B2 & B3 & B4 & B5). split; [auto|]. split; [auto|]. rewrite <- (EQ c) by apply B2. split; [auto|]. split; intros j J; rewrite <- EQ by apply J; auto.
Qed.

Lemma get_targets_spec : forall nb_start nb_end i_start i_end, length i_start = length i_end ->
  (forall s, In s i_start -> s < nb_start) -> (forall e, In (Some e) i_end -> e < nb_end) ->
  exists l, get_targets nb_start nb_end i_start i_end = Some l /\ length l = nb_start /\
    forall i b, nth_error l i = Some b -> two_best (fun x => x) (reached i_start i_end nb_end i) (percent i_start i_end i) b.
Proof.
  intros nb_start nb_end i_start i_end L BS BE. unfold get_targets.
  destruct (count_particles_spec nb_end i_start i_end (repeat 0%Z nb_start) (repeat (repeat 0%Z nb_end) nb_start)) as (ref & counts & E & A1 & A2 & A3 & A4 & A5); auto.
  { rewrite !repeat_length. auto. } { intros row I. apply repeat_spec in I. subst row. apply repeat_length. } { rewrite repeat_length. auto. }
  rewrite repeat_length in A1, A2. rewrite E. cbn [bind]. eexists. split; [reflexivity|]. split; [rewrite rank_rows_length; lia|].
  intros i b B. assert (IL : i < nb_start) by (apply nth_error_Some_lt in B; rewrite rank_rows_length in B; lia).
  specialize (A4 i 0%Z). rewrite nth_error_repeat_lt in A4. destruct (Nat.ltb_spec i nb_start); [|lia]. specialize (A4 eq_refl).
  destruct (A5 i (repeat 0%Z nb_end)) as (row & R & H'); [rewrite nth_error_repeat_lt; destruct (Nat.ltb_spec i nb_start); [auto|lia]|].
  rewrite (rank_rows_nth _ _ _ i _ _ A4 R) in B. injection B as <-. assert (LR : length row = nb_end) by (apply A3; eapply nth_error_In; eauto). apply row_two_best; [apply keeping_id|auto|].
  intros j c C. specialize (H' j 0%Z). rewrite nth_error_repeat_lt in H'. apply nth_error_Some_lt in C as CL. destruct (Nat.ltb_spec j nb_end); [|lia]. specialize (H' eq_refl). rewrite C in H'. injection H' as ->. lia.
Qed.
