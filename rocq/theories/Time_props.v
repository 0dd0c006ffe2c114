(** Property C134: dates given as text. *)
From Coq Require Import List Arith Bool Lia.
From Verif Require Import Time_model.
Import ListNotations.

(** ** Specification *)
(** Numbers written with two and four digits. *)
Definition dig2 (n : nat) : list ch := [Dg (n / 10); Dg (n mod 10)].
Definition dig4 (n : nat) : list ch := [Dg (n / 1000); Dg (n / 100 mod 10); Dg (n / 10 mod 10); Dg (n mod 10)].
(** Number of days of a month of the calendar. *)
Definition is_leap (y : nat) : Prop := (exists k, y = 4 * k) /\ (~ (exists k, y = 100 * k) \/ exists k, y = 400 * k).
Definition days_of (y m n : nat) : Prop :=
  (In m [1; 3; 5; 7; 8; 10; 12] /\ n = 31) \/ (In m [4; 6; 9; 11] /\ n = 30) \/ (m = 2 /\ ((is_leap y /\ n = 29) \/ (~ is_leap y /\ n = 28))).
Definition a_date (y m d : nat) : Prop := 1 <= y < 1000 * 10 /\ 1 <= m <= 12 /\ 1 <= d /\ exists n, days_of y m n /\ d <= n.
Definition a_time (h mi s : nat) : Prop := h < 24 /\ mi < 60 /\ s < 60.
(** A number written with one or two digits; a day may also be a space and a
    digit. *)
Definition written (n : nat) (s : list ch) : Prop := (n < 10 /\ s = [Dg n]) \/ (n < 100 /\ s = dig2 n).
Definition written_day (n : nat) (s : list ch) : Prop := written n s \/ s = [Sp; Dg n].
(** A text: its digits are digits. *)
Definition text (s : list ch) : Prop := forall n, In (Dg n) s -> n < 10.

(** ** Proofs *)
Lemma leap_iff : forall y, leap y = true <-> is_leap y.
Proof.
  intros y. unfold leap, is_leap. rewrite andb_true_iff, orb_true_iff, negb_true_iff, !Nat.eqb_eq, Nat.eqb_neq.
  assert (D : forall k, 0 < k -> (y mod k = 0 <-> exists j, y = k * j)).
  { intros k K. split; [intros H; exists (y / k); pose proof (Nat.div_mod y k ltac:(lia)); lia|intros [j ->]; rewrite Nat.mul_comm; apply Nat.mod_mul; lia]. }
  rewrite !D by lia. reflexivity.
Qed.
Lemma month_days_iff : forall y m, 1 <= m <= 12 -> days_of y m (month_days y m) /\ forall n, days_of y m n -> n = month_days y m.
Proof.
  intros y m M. pose proof (leap_iff y) as LY. assert (D : forall n, days_of y m n <-> n = month_days y m).
  { intros n. unfold days_of.
    assert (C : m = 2 \/ In m [1; 3; 5; 7; 8; 10; 12] \/ In m [4; 6; 9; 11]) by (cbn; lia). destruct C as [C|[C|C]].
    - subst m. cbn. destruct (leap y).
      + assert (is_leap y) by (apply LY; reflexivity). intuition lia.
      + assert (~ is_leap y) by (intros X; apply LY in X; discriminate X). intuition lia.
    - cbn in C. destruct C as [C|[C|[C|[C|[C|[C|[C|[]]]]]]]]; subst m; cbn; (split; [intros [[I E]|[[I E]|[I _]]]; lia|intros ->; left; intuition lia]).
    - cbn in C. destruct C as [C|[C|[C|[C|[]]]]]; subst m; cbn; (split; [intros [[I E]|[[I E]|[I _]]]; lia|intros ->; right; left; intuition lia]). }
  split; [apply D; reflexivity|intros n; apply D].
Qed.
Lemma exists_iff : forall y m d h mi s, 1 <= m <= 12 -> 1 <= d -> y < 1000 * 10 -> h < 24 -> mi < 60 -> (exists_stamp (y, m, d, h, mi, s) = true <-> a_date y m d /\ a_time h mi s).
Proof.
  intros y m d h mi s M D Y H MI. destruct (month_days_iff y m M) as [A B]. unfold exists_stamp, a_date, a_time. rewrite !andb_true_iff, !Nat.leb_le. split.
  - intros [[Y1 D1] S1]. split; [|lia]. split; [lia|]. split; [lia|]. split; [lia|]. eauto.
  - intros [(Y1 & _ & _ & n & N & DN) (_ & _ & S1)]. rewrite (B n N) in DN. lia.
Qed.

Lemma year_dig : forall y r, year (dig4 y ++ r) = [(y, r)].
Proof.
  intros y r. cbn [dig4 app year]. f_equal. f_equal.
  pose proof (Nat.div_mod y 10 ltac:(lia)). pose proof (Nat.div_mod (y / 10) 10 ltac:(lia)). pose proof (Nat.div_mod (y / 100) 10 ltac:(lia)).
  rewrite Nat.div_div in * by lia. change (10 * 10) with 100 in *. change (100 * 10) with 1000 in *. lia.
Qed.
Lemma month_dig : forall m r, 1 <= m <= 12 -> exists l, month (dig2 m ++ r) = (m, r) :: l.
Proof. intros m r M. do 13 (destruct m as [|m]; [try lia; eexists; reflexivity|]). lia. Qed.
Lemma day_dig : forall d r, 1 <= d <= 31 -> exists l, day (dig2 d ++ r) = (d, r) :: l.
Proof. intros d r D. do 32 (destruct d as [|d]; [try lia; eexists; reflexivity|]). lia. Qed.
Lemma hour_dig : forall h r, h < 24 -> exists l, hour (dig2 h ++ r) = (h, r) :: l.
Proof. intros h r H. do 24 (destruct h as [|h]; [eexists; reflexivity|]). lia. Qed.
Lemma minute_dig : forall h r, h < 60 -> exists l, minute (dig2 h ++ r) = (h, r) :: l.
Proof. intros h r H. do 60 (destruct h as [|h]; [eexists; reflexivity|]). lia. Qed.
Lemma second_dig : forall h r, h < 60 -> exists l, second (dig2 h ++ r) = (h, r) :: l.
Proof. intros h r H. do 60 (destruct h as [|h]; [eexists; reflexivity|]). lia. Qed.

Lemma a_date_bounds : forall y m d, a_date y m d -> 1 <= m <= 12 /\ 1 <= d <= 31 /\ y < 1000 * 10.
Proof. intros y m d (Y & M & D & n & N & L). assert (n <= 31) by (destruct N as [[_ ->]|[[_ ->]|[_ [[_ ->]|[_ ->]]]]]; lia). lia. Qed.

Lemma match_date_dig : forall y m d r, a_date y m d -> match_date (dig4 y ++ dig2 m ++ dig2 d ++ r) = Some ((y, m, d, 0, 0, 0), r).
Proof.
  intros y m d r A. apply a_date_bounds in A as (M & D & _). unfold match_date. rewrite year_dig. cbn [try]. destruct (month_dig m (dig2 d ++ r) M) as [l ->]. cbn [try]. destruct (day_dig d r D) as [l' ->]. reflexivity.
Qed.
Lemma match_time_dig : forall y m d h mi s r, a_time h mi s -> match_time y m d (dig2 h ++ dig2 mi ++ dig2 s ++ r) = Some ((y, m, d, h, mi, s), r).
Proof.
  intros y m d h mi s r (H & MI & SE). unfold match_time. destruct (hour_dig h (dig2 mi ++ dig2 s ++ r) H) as [l ->]. cbn [try]. destruct (minute_dig mi (dig2 s ++ r) MI) as [l' ->]. cbn [try]. destruct (second_dig s r SE) as [l'' ->]. reflexivity.
Qed.
Lemma strptime_left : forall model s t x r, model s = Some (t, x :: r) -> strptime model s = None.
Proof. intros model s t x r E. unfold strptime. rewrite E. reflexivity. Qed.

Lemma try_some : forall B (l : alts) (k : nat -> list ch -> option B) b, try l k = Some b -> exists a r, In (a, r) l /\ k a r = Some b.
Proof.
  induction l as [|[a r] l IH]; intros k b E; [discriminate E|]. cbn [try] in E. destruct (k a r) as [b'|] eqn:K.
  - exists a, r. split; [left; reflexivity|congruence].
  - destruct (IH k b E) as (a' & r' & I & K'). exists a', r'. split; [right; exact I|exact K'].
Qed.
Lemma text_app : forall a b, text (a ++ b) -> text b.
Proof. intros a b H n I. apply H. apply in_or_app. right. exact I. Qed.
Lemma two_read : forall a b c d s v r, text s -> In (v, r) (two a b c d s) -> s = dig2 v ++ r /\ 10 * a + c <= v <= 10 * b + d /\ v < 100.
Proof.
  intros a b c d s v r T I. destruct s as [|[x| | |] [|[y| | |] s]]; cbn [two] in I; try (destruct I; fail).
  destruct ((a <=? x) && (x <=? b) && (c <=? y) && (y <=? d)) eqn:E; [|destruct I]. destruct I as [I|[]].
  rewrite !andb_true_iff, !Nat.leb_le in E. remember (10 * x + y) as n eqn:N. injection I as <- <-.
  assert (X : x < 10) by (apply T; left; reflexivity). assert (Y : y < 10) by (apply T; right; left; reflexivity).
  assert (Q : n / 10 = x) by (symmetry; apply (Nat.div_unique _ 10 x y); lia).
  assert (M : n mod 10 = y) by (symmetry; apply (Nat.mod_unique _ 10 x y); lia).
  unfold dig2. rewrite Q, M. split; [reflexivity|lia].
Qed.
Lemma one_read : forall a b s v r, text s -> In (v, r) (one a b s) -> s = [Dg v] ++ r /\ a <= v <= b /\ v < 10.
Proof.
  intros a b s v r T I. destruct s as [|[x| | |] s]; cbn [one] in I; try (destruct I; fail).
  destruct ((a <=? x) && (x <=? b)) eqn:E; [|destruct I]. destruct I as [I|[]].
  rewrite !andb_true_iff, !Nat.leb_le in E. injection I as <- <-. split; [reflexivity|]. split; [lia|]. apply T. left; reflexivity.
Qed.
Ltac reads T I := repeat (apply in_app_or in I; destruct I as [I|I]);
  try (apply (two_read _ _ _ _ _ _ _ T) in I; destruct I as (-> & ? & ?); eexists; split; [reflexivity|split; [lia|right; split; [lia|reflexivity]]]);
  try (apply (one_read _ _ _ _ _ T) in I; destruct I as (-> & ? & ?); eexists; split; [reflexivity|split; [lia|left; split; [lia|reflexivity]]]).
Lemma month_read : forall s v r, text s -> In (v, r) (month s) -> exists w, s = w ++ r /\ 1 <= v <= 12 /\ written v w.
Proof. intros s v r T I. unfold month in I. reads T I. Qed.
Lemma hour_read : forall s v r, text s -> In (v, r) (hour s) -> exists w, s = w ++ r /\ v < 24 /\ written v w.
Proof. intros s v r T I. unfold hour in I. reads T I. Qed.
Lemma minute_read : forall s v r, text s -> In (v, r) (minute s) -> exists w, s = w ++ r /\ v < 60 /\ written v w.
Proof. intros s v r T I. unfold minute in I. reads T I. Qed.
Lemma second_read : forall s v r, text s -> In (v, r) (second s) -> exists w, s = w ++ r /\ v < 62 /\ written v w.
Proof. intros s v r T I. unfold second in I. reads T I. Qed.
Lemma day_read : forall s v r, text s -> In (v, r) (day s) -> exists w, s = w ++ r /\ 1 <= v <= 31 /\ written_day v w.
Proof.
  intros s v r T I. unfold day in I.
  assert (C : In (v, r) (two 3 3 0 1 s ++ two 1 2 0 9 s ++ two 0 0 1 9 s ++ one 1 9 s) \/ In (v, r) (match s with Sp :: r => one 1 9 r | _ => [] end)).
  { rewrite !in_app_iff in *. intuition. }
  clear I. destruct C as [I|I].
  - assert (K : exists w, s = w ++ r /\ 1 <= v <= 31 /\ written v w) by (reads T I). destruct K as (w & K1 & K2 & K3). exists w. split; [exact K1|]. split; [exact K2|]. left; exact K3.
  - destruct s as [|[x| | |] s]; try (destruct I; fail). apply (one_read 1 9 s v r) in I as (-> & V & _); [|apply (text_app [Sp] s T)].
    exists [Sp; Dg v]. split; [reflexivity|]. split; [lia|]. right; reflexivity.
Qed.
Lemma year_read : forall s v r, text s -> In (v, r) (year s) -> s = dig4 v ++ r /\ v < 1000 * 10.
Proof.
  intros s v r T I. destruct s as [|[a| | |] [|[b| | |] [|[c| | |] [|[d| | |] s]]]]; cbn [year] in I; try (destruct I; fail).
  destruct I as [I|[]]. remember (1000 * a + 100 * b + 10 * c + d) as n eqn:N. injection I as <- <-.
  assert (A : a < 10) by (apply T; cbn; tauto). assert (B : b < 10) by (apply T; cbn; tauto).
  assert (C : c < 10) by (apply T; cbn; tauto). assert (D : d < 10) by (apply T; cbn; tauto).
  assert (E1 : n / 10 = 100 * a + 10 * b + c) by (symmetry; apply (Nat.div_unique _ 10 _ d); lia).
  assert (E2 : n / 100 = 10 * a + b) by (symmetry; apply (Nat.div_unique _ 100 _ (10 * c + d)); lia).
  assert (E3 : n / 1000 = a) by (symmetry; apply (Nat.div_unique _ 1000 _ (100 * b + 10 * c + d)); lia).
  assert (M0 : n mod 10 = d) by (symmetry; apply (Nat.mod_unique _ 10 (100 * a + 10 * b + c) d); lia).
  assert (M1 : n / 10 mod 10 = c) by (rewrite E1; symmetry; apply (Nat.mod_unique _ 10 (10 * a + b) c); lia).
  assert (M2 : n / 100 mod 10 = b) by (rewrite E2; symmetry; apply (Nat.mod_unique _ 10 a b); lia).
  unfold dig4. rewrite E3, M0, M1, M2. split; [reflexivity|lia].
Qed.

(** Reading of the date, with what follows it. *)
Lemma date_read : forall B (k : nat -> nat -> nat -> list ch -> option B) s b, text s ->
  try (year s) (fun y s => try (month s) (fun m s => try (day s) (fun d s => k y m d s))) = Some b ->
  exists y m d wm wd r, s = dig4 y ++ wm ++ wd ++ r /\ y < 1000 * 10 /\ 1 <= m <= 12 /\ 1 <= d <= 31 /\ written m wm /\ written_day d wd /\ k y m d r = Some b /\ text r.
Proof.
  intros B k s b T E. apply try_some in E as (y & s1 & I1 & E). apply year_read in I1 as [-> Y]; [|exact T]. apply text_app in T.
  apply try_some in E as (m & s2 & I2 & E). apply month_read in I2 as (wm & -> & M & WM); [|exact T]. apply text_app in T.
  apply try_some in E as (d & s3 & I3 & E). apply day_read in I3 as (wd & -> & D & WD); [|exact T]. apply text_app in T.
  exists y, m, d, wm, wd, s3. repeat (split; [assumption || reflexivity|]). exact T.
Qed.
Lemma time_read : forall y m d s t r, text s -> match_time y m d s = Some (t, r) ->
  exists h mi se wh wmi wse, s = wh ++ wmi ++ wse ++ r /\ t = (y, m, d, h, mi, se) /\ h < 24 /\ mi < 60 /\ written h wh /\ written mi wmi /\ written se wse.
Proof.
  intros y m d s t r T E. unfold match_time in E. apply try_some in E as (h & s1 & I1 & E). apply hour_read in I1 as (wh & -> & H & WH); [|exact T]. apply text_app in T.
  apply try_some in E as (mi & s2 & I2 & E). apply minute_read in I2 as (wmi & -> & MI & WMI); [|exact T]. apply text_app in T.
  apply try_some in E as (se & s3 & I3 & E). apply second_read in I3 as (wse & -> & SE & WSE); [|exact T]. injection E as <- <-.
  exists h, mi, se, wh, wmi, wse. repeat (split; [assumption || reflexivity|]). exact WSE.
Qed.
Lemma strptime_some : forall model s t, strptime model s = Some t -> model s = Some (t, []) /\ exists_stamp t = true.
Proof. intros model s t E. unfold strptime in E. destruct (model s) as [[t' [|? ?]]|]; try discriminate E. destruct (exists_stamp t') eqn:X; [|discriminate E]. injection E as <-. split; [reflexivity|exact X]. Qed.

Lemma h_none : forall y m d h, h < 24 -> match_time y m d (dig2 h) = None.
Proof. intros y m d h H. do 24 (destruct h as [|h]; [reflexivity|]). exfalso; lia. Qed.
Lemma h_three : forall y m d x h, x < 10 -> h < 24 -> match_time y m d (Dg x :: dig2 h) = Some ((y, m, d, x, h / 10, h mod 10), []).
Proof. intros y m d x h X H. do 10 (destruct x as [|x]; [do 24 (destruct h as [|h]; [reflexivity|]); exfalso; lia|]). exfalso; lia. Qed.
Lemma day_two : forall d r, 10 <= d <= 31 -> day (dig2 d ++ r) = [(d, r); (d / 10, Dg (d mod 10) :: r)].
Proof. intros d r D. do 32 (destruct d as [|d]; [try (exfalso; lia); reflexivity|]). exfalso; lia. Qed.
Lemma minute_two : forall n, n < 60 -> minute (dig2 n) = [(n, []); (n / 10, [Dg (n mod 10)])].
Proof. intros n N. do 60 (destruct n as [|n]; [reflexivity|]). exfalso; lia. Qed.
Lemma second_one : forall n, n < 10 -> second [Dg n] = [(n, [])].
Proof. intros n N. do 10 (destruct n as [|n]; [reflexivity|]). exfalso; lia. Qed.

(** Before a letter T no way to read the month and the day leaves the hour, the
    minute and the second. *)
Lemma no_time : forall y m d r, 1 <= m <= 12 -> 1 <= d <= 31 ->
  try (month (dig2 m ++ dig2 d ++ Tt :: r)) (fun m s => try (day s) (fun d s => match_time y m d s)) = None.
Proof.
  intros y m d r M D. do 13 (destruct m as [|m]; [do 32 (destruct d as [|d]; [try (exfalso; lia); reflexivity|]); exfalso; lia|]). exfalso; lia.
Qed.

(** ** C134 *)
(** Texts YYYYMMDD, YYYYMMDDHHMMSS and YYYYMMDDTHHMMSS. *)
Theorem C134_date : forall y m d, a_date y m d -> identify_time (dig4 y ++ dig2 m ++ dig2 d) = Some (y, m, d, 0, 0, 0).
Proof.
  intros y m d A. unfold identify_time, strptime. pose proof (match_date_dig y m d [] A) as E. rewrite app_nil_r in E. rewrite E.
  pose proof (a_date_bounds y m d A) as (M & D & Y). rewrite (proj2 (exists_iff y m d 0 0 0 M (proj1 D) Y ltac:(lia) ltac:(lia))); [reflexivity|]. split; [exact A|]. unfold a_time. lia.
Qed.
Print Assumptions C134_date.
Theorem C134_date_time : forall y m d h mi s, a_date y m d -> a_time h mi s ->
  identify_time (dig4 y ++ dig2 m ++ dig2 d ++ dig2 h ++ dig2 mi ++ dig2 s) = Some (y, m, d, h, mi, s) /\
  identify_time (dig4 y ++ dig2 m ++ dig2 d ++ [Tt] ++ dig2 h ++ dig2 mi ++ dig2 s) = Some (y, m, d, h, mi, s).
Proof.
  intros y m d h mi s A T. pose proof (a_date_bounds y m d A) as (M & D & Y). pose proof T as (H & MI & SE).
  assert (EX : exists_stamp (y, m, d, h, mi, s) = true) by (apply exists_iff; try lia; split; assumption).
  pose proof (match_time_dig y m d h mi s [] T) as ET. rewrite app_nil_r in ET.
  assert (YM : forall r (k : nat -> nat -> nat -> list ch -> option (stamp * list ch)) b, k y m d r = Some b ->
    try (year (dig4 y ++ dig2 m ++ dig2 d ++ r)) (fun y s => try (month s) (fun m s => try (day s) (fun d s => k y m d s))) = Some b).
  { intros r k b K. rewrite year_dig. cbn [try]. destruct (month_dig m (dig2 d ++ r) M) as [l ->]. cbn [try]. destruct (day_dig d r D) as [l' ->]. cbn [try]. rewrite K. reflexivity. }
  split; unfold identify_time.
  - rewrite (strptime_left match_date _ _ _ _ (match_date_dig y m d (dig2 h ++ dig2 mi ++ dig2 s) A)). unfold strptime at 1. unfold match_date_time. rewrite (YM _ _ _ ET), EX. reflexivity.
  - rewrite (strptime_left match_date _ _ _ _ (match_date_dig y m d ([Tt] ++ dig2 h ++ dig2 mi ++ dig2 s) A)).
    assert (N2 : strptime match_date_time (dig4 y ++ dig2 m ++ dig2 d ++ [Tt] ++ dig2 h ++ dig2 mi ++ dig2 s) = None).
    { unfold strptime, match_date_time. rewrite year_dig. cbn [try app]. generalize (dig2 h ++ dig2 mi ++ dig2 s). intros r. clear - M D. rewrite no_time by assumption. reflexivity. }
    rewrite N2. unfold strptime, match_date_t_time. rewrite (YM ([Tt] ++ dig2 h ++ dig2 mi ++ dig2 s) (fun y m d s => try (letter_t s) (fun _ s => match_time y m d s)) ((y, m, d, h, mi, s), [])), EX; [reflexivity|].
    cbn [app letter_t try]. rewrite ET. reflexivity.
Qed.
Print Assumptions C134_date_time.

(** A text which is accepted is a year of four digits and the numbers of the
    result in this order, up to the last character, and the result exists. *)
Theorem C134_read : forall s y m d h mi se, text s -> identify_time s = Some (y, m, d, h, mi, se) ->
  a_date y m d /\ a_time h mi se /\
  exists wm wd, written m wm /\ written_day d wd /\
    ((s = dig4 y ++ wm ++ wd /\ h = 0 /\ mi = 0 /\ se = 0) \/
     exists t wh wmi wse, (t = [] \/ t = [Tt]) /\ written h wh /\ written mi wmi /\ written se wse /\ s = dig4 y ++ wm ++ wd ++ t ++ wh ++ wmi ++ wse).
Proof.
  intros s y m d h mi se T E. unfold identify_time in E. destruct (strptime match_date s) as [t1|] eqn:E1; [|destruct (strptime match_date_time s) as [t2|] eqn:E2].
  - injection E as ->. apply strptime_some in E1 as [E1 X]. unfold match_date in E1. apply (date_read _ (fun y m d s => Some (y, m, d, 0, 0, 0, s))) in E1 as (y' & m' & d' & wm & wd & r & -> & Y & M & D & WM & WD & K & _); [|exact T].
    injection K as -> -> -> <- <- <- ->. apply exists_iff in X as [X1 X2]; try lia. split; [exact X1|]. split; [exact X2|]. exists wm, wd. split; [exact WM|]. split; [exact WD|]. left. rewrite app_nil_r. repeat split; reflexivity.
  - injection E as ->. apply strptime_some in E2 as [E2 X]. unfold match_date_time in E2. apply (date_read _ (fun y m d s => match_time y m d s)) in E2 as (y' & m' & d' & wm & wd & r & -> & Y & M & D & WM & WD & K & TR); [|exact T].
    apply time_read in K as (h' & mi' & se' & wh & wmi & wse & -> & EQ & H & MI & WH & WMI & WSE); [|exact TR]. injection EQ as -> -> -> -> -> ->. apply exists_iff in X as [X1 X2]; try lia.
    split; [exact X1|]. split; [exact X2|]. exists wm, wd. split; [exact WM|]. split; [exact WD|]. right. exists [], wh, wmi, wse. rewrite app_nil_r. repeat (split; [assumption || (left; reflexivity)|]). reflexivity.
  - apply strptime_some in E as [E X]. unfold match_date_t_time in E. apply (date_read _ (fun y m d s => try (letter_t s) (fun _ s => match_time y m d s))) in E as (y' & m' & d' & wm & wd & r & -> & Y & M & D & WM & WD & K & TR); [|exact T].
    destruct r as [|[x| | |] r]; try discriminate K. cbn [letter_t try] in K. destruct (match_time y' m' d' r) as [b|] eqn:K'; [|discriminate K]. injection K as ->.
    apply (text_app [Tt]) in TR. apply time_read in K' as (h' & mi' & se' & wh & wmi & wse & -> & EQ & H & MI & WH & WMI & WSE); [|exact TR]. injection EQ as -> -> -> -> -> ->. apply exists_iff in X as [X1 X2]; try lia.
    split; [exact X1|]. split; [exact X2|]. exists wm, wd. split; [exact WM|]. split; [exact WD|]. right. exists [Tt], wh, wmi, wse. rewrite app_nil_r. repeat (split; [assumption || (right; reflexivity)|]). reflexivity.
Qed.
Print Assumptions C134_read.

(** Eight digits are accepted only as YYYYMMDD. *)
Theorem C134_eight : forall a b c d e f g h t, text [Dg a; Dg b; Dg c; Dg d; Dg e; Dg f; Dg g; Dg h] -> identify_time [Dg a; Dg b; Dg c; Dg d; Dg e; Dg f; Dg g; Dg h] = Some t ->
  a_date (1000 * a + 100 * b + 10 * c + d) (10 * e + f) (10 * g + h) /\ t = (1000 * a + 100 * b + 10 * c + d, 10 * e + f, 10 * g + h, 0, 0, 0).
Proof.
  intros a b c d e f g h [[[[[y m] dd] hh] mi] se] T E. apply C134_read in E as (A & _ & wm & wd & WM & WD & C); [|exact T].
  assert (LW : forall n w, written n w -> length w = 1 \/ w = dig2 n) by (intros n w [[_ ->]|[_ ->]]; [left|right]; reflexivity).
  assert (D10 : forall n x z, Dg x = Dg (n / 10) -> Dg z = Dg (n mod 10) -> n = 10 * x + z) by (intros n x z P Q; injection P as ->; injection Q as ->; apply Nat.div_mod; lia).
  assert (WDL : 1 <= length wd) by (destruct WD as [W| ->]; [destruct (LW _ _ W) as [L| ->]|]; cbn; lia).
  destruct C as [(EQ & -> & -> & ->)|(t & wh & wmi & wse & _ & WH & WMI & WSE & EQ)].
  - assert (Y := f_equal year EQ). rewrite year_dig in Y. cbn [year] in Y.
    assert (Y1 : 1000 * a + 100 * b + 10 * c + d = y) by (apply (f_equal (fun l => fst (hd (0, []) l))) in Y; exact Y).
    assert (Y2 : [Dg e; Dg f; Dg g; Dg h] = wm ++ wd) by (apply (f_equal (fun l => snd (hd (0, []) l))) in Y; exact Y). rewrite Y1. clear Y Y1 EQ.
    destruct (LW _ _ WM) as [L| ->].
    + exfalso. destruct wm as [|? [|? ?]]; try discriminate L. destruct WD as [[[_ ->]|[_ ->]]| ->]; discriminate Y2.
    + assert (EM : m = 10 * e + f) by (apply D10; [exact (f_equal (fun l => nth 0 l Sp) Y2)|exact (f_equal (fun l => nth 1 l Sp) Y2)]).
      apply (f_equal (skipn 2)) in Y2. cbn [skipn app dig2] in Y2. destruct WD as [[[_ ->]|[_ ->]]| ->]; try discriminate Y2.
      assert (ED : dd = 10 * g + h) by (apply D10; [exact (f_equal (fun l => nth 0 l Sp) Y2)|exact (f_equal (fun l => nth 1 l Sp) Y2)]).
      rewrite <- EM, <- ED. split; [exact A|reflexivity].
  - exfalso. apply (f_equal (@length ch)) in EQ. rewrite !app_length in EQ. cbn [length dig4] in EQ.
    assert (LL : forall n w, written n w -> 1 <= length w) by (intros n w W; destruct (LW _ _ W) as [L| ->]; cbn; lia).
    pose proof (LL _ _ WM). pose proof (LL _ _ WH). pose proof (LL _ _ WMI). pose proof (LL _ _ WSE). lia.
Qed.
Print Assumptions C134_eight.

(** An hour or an hour and a minute after the date is accepted, as another date. *)
Theorem C134_hours_refuted : forall y m d h, a_date y m d -> 10 <= d -> h < 24 ->
  identify_time (dig4 y ++ dig2 m ++ dig2 d ++ dig2 h) = Some (y, m, d / 10, d mod 10, h / 10, h mod 10).
Proof.
  intros y m d h A D H. pose proof (a_date_bounds y m d A) as (M & D' & Y). unfold identify_time.
  rewrite (strptime_left match_date _ _ _ _ (match_date_dig y m d (dig2 h) A)). unfold strptime, match_date_time. rewrite year_dig. cbn [try].
  destruct (month_dig m (dig2 d ++ dig2 h) M) as [l ->]. cbn [try]. rewrite day_two by lia. cbn [try]. rewrite h_none by exact H.
  assert (X : d mod 10 < 10) by (apply Nat.mod_upper_bound; lia). rewrite h_three by assumption.
  assert (EX : exists_stamp (y, m, d / 10, d mod 10, h / 10, h mod 10) = true); [|rewrite EX; reflexivity].
  assert (Q1 : d / 10 <= 3) by (apply (Nat.div_le_mono d 31 10); lia). assert (Q0 : 1 <= d / 10) by (apply (Nat.div_le_mono 10 d 10); lia).
  assert (Q2 : h / 10 <= 2) by (apply (Nat.div_le_mono h 23 10); lia). pose proof (Nat.mod_upper_bound h 10 ltac:(lia)).
  apply exists_iff; try lia. split; [|unfold a_time; lia]. destruct A as (A1 & A2 & A3 & n & N & L). split; [exact A1|]. split; [exact A2|]. split; [exact Q0|]. exists n. split; [exact N|].
  lia.
Qed.
Print Assumptions C134_hours_refuted.
Theorem C134_minutes_refuted : forall y m d h mi, a_date y m d -> h < 24 -> mi < 60 ->
  identify_time (dig4 y ++ dig2 m ++ dig2 d ++ dig2 h ++ dig2 mi) = Some (y, m, d, h, mi / 10, mi mod 10).
Proof.
  intros y m d h mi A H MI. pose proof (a_date_bounds y m d A) as (M & D & Y). unfold identify_time.
  rewrite (strptime_left match_date _ _ _ _ (match_date_dig y m d (dig2 h ++ dig2 mi) A)). unfold strptime, match_date_time. rewrite year_dig. cbn [try].
  destruct (month_dig m (dig2 d ++ dig2 h ++ dig2 mi) M) as [l ->]. cbn [try]. destruct (day_dig d (dig2 h ++ dig2 mi) D) as [l' ->]. cbn [try].
  unfold match_time at 1. destruct (hour_dig h (dig2 mi) H) as [l'' ->]. cbn [try]. rewrite minute_two by exact MI. cbn [try]. change (second []) with (@nil (nat * list ch)). cbn [try].
  pose proof (Nat.mod_upper_bound mi 10 ltac:(lia)) as X. rewrite second_one by exact X. cbn [try].
  assert (EX : exists_stamp (y, m, d, h, mi / 10, mi mod 10) = true); [|rewrite EX; reflexivity].
  assert (Q : mi / 10 <= 5) by (apply (Nat.div_le_mono mi 59 10); lia).
  apply exists_iff; try lia. split; [exact A|unfold a_time; lia].
Qed.
Print Assumptions C134_minutes_refuted.

(** Six digits are a month and a day of one digit each: a year and a month written
    YYYYMM are refused, but November and December are read as a day of January. *)
Theorem C134_six : forall y m d t, 1 <= y < 1000 * 10 -> m < 10 -> d < 10 ->
  (identify_time (dig4 y ++ [Dg m; Dg d]) = Some t <-> 1 <= m /\ 1 <= d /\ t = (y, m, d, 0, 0, 0)).
Proof.
  intros y m d t Y M D. unfold identify_time, strptime, match_date, match_date_time, match_date_t_time. rewrite !year_dig. cbn [try].
  assert (N : forall y m d, match_time y m d [] = None) by reflexivity.
  assert (EX : forall m d, m < 10 -> d < 10 -> exists_stamp (y, m, d, 0, 0, 0) = true).
  { clear - Y. intros m d M D. unfold exists_stamp, month_days. replace (1 <=? y) with true by (symmetry; apply Nat.leb_le; lia).
    cbn [Nat.leb andb]. rewrite andb_true_r. apply Nat.leb_le. do 10 (destruct m as [|m]; [destruct (leap y); lia|]). lia. }
  pose proof (EX m d M D) as E. clear EX.
  do 10 (destruct m as [|m]; [do 10 (destruct d as [|d]; [cbn -[exists_stamp]; rewrite ?E; split; [intros H; solve [discriminate H|injection H as <-; repeat split; lia]|intros (A & B & ->); solve [lia|reflexivity]]|]); lia|]). lia.
Qed.
Print Assumptions C134_six.
Theorem C134_month_refuted : forall y d, 1 <= y < 1000 * 10 -> d = 1 \/ d = 2 -> identify_time (dig4 y ++ dig2 (10 + d)) = Some (y, 1, d, 0, 0, 0).
Proof.
  intros y d Y [-> | ->].
  - apply (C134_six y 1 1); [exact Y|lia|lia|]. repeat split; lia.
  - apply (C134_six y 1 2); [exact Y|lia|lia|]. repeat split; lia.
Qed.
Print Assumptions C134_month_refuted.

(** 2020-02-29, the same with an hour, with a minute, and 2019-02-29. *)
Example C134_case : a_date 2020 2 29 /\ a_time 18 30 5 /\
  identify_time (dig4 2020 ++ dig2 2 ++ dig2 29) = Some (2020, 2, 29, 0, 0, 0) /\
  identify_time (dig4 2020 ++ dig2 2 ++ dig2 29 ++ [Tt] ++ dig2 18 ++ dig2 30 ++ dig2 5) = Some (2020, 2, 29, 18, 30, 5) /\
  identify_time (dig4 2020 ++ dig2 2 ++ dig2 29 ++ dig2 18) = Some (2020, 2, 2, 9, 1, 8) /\
  identify_time (dig4 2020 ++ dig2 2 ++ dig2 29 ++ dig2 18 ++ dig2 30) = Some (2020, 2, 29, 18, 3, 0) /\
  identify_time (dig4 2019 ++ dig2 2 ++ dig2 29) = None /\ identify_time (dig4 2019 ++ dig2 12) = Some (2019, 1, 2, 0, 0, 0).
Proof.
  split.
  - unfold a_date. split; [lia|]. split; [lia|]. split; [lia|]. exists 29. split; [|lia]. right; right. split; [reflexivity|]. left. split; [|reflexivity].
    split; [exists 505; lia|left; intros [k K]; lia].
  - split; [unfold a_time; lia|]. repeat split; reflexivity.
Qed.
