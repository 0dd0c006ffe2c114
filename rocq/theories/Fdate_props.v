(** Property C135: date of a file read in its name. *)
From Coq Require Import List Arith Bool Lia Ascii String.
From Verif Require Import Time_model Time_props Fdate_model.
Local Open Scope list_scope.
Import ListNotations.

(** ** Specification *)
(** Characters and texts of numbers. *)
Definition char_of (n : nat) : ascii := ascii_of_nat (48 + n).
Definition two_chars (n : nat) : list ascii := [char_of (n / 10); char_of (n mod 10)].
Definition four_chars (n : nat) : list ascii := [char_of (n / 1000); char_of (n / 100 mod 10); char_of (n / 10 mod 10); char_of (n mod 10)].
Definition slash : ascii := "/"%char.
Definition underscore : ascii := "_"%char.
Definition dot : ascii := "."%char.
Definition is_digit (c : ascii) : Prop := exists n, n < 10 /\ c = char_of n.
(** A text which the expression can read: digits between an underscore, after a
    slash, and a character followed by n or z. *)
Definition dated (s g : list ascii) : Prop :=
  exists a b c x e, s = a ++ [slash] ++ b ++ [underscore] ++ g ++ [c; x] ++ e /\ (x = "n"%char \/ x = "z"%char) /\ forall d, In d g -> is_digit d.

(** ** Proofs *)
Lemma digit_iff : forall c, digit c = true <-> is_digit c.
Proof.
  intros c. unfold digit, is_digit, char_of. rewrite andb_true_iff, !Nat.leb_le. split.
  - intros [A B]. exists (nat_of_ascii c - 48). split; [lia|]. replace (48 + (nat_of_ascii c - 48)) with (nat_of_ascii c) by lia. symmetry. apply ascii_nat_embedding.
  - intros (n & N & ->). rewrite nat_ascii_embedding by lia. lia.
Qed.
Lemma greedy_some : forall B (k : list ascii -> option B) s b, greedy k s = Some b -> exists p q, s = p ++ q /\ k q = Some b.
Proof.
  intros B k. induction s as [|x s IH]; intros b E; cbn [greedy] in E.
  - exists [], []. split; [reflexivity|exact E].
  - destruct (greedy k s) as [b'|] eqn:G.
    + injection E as <-. destruct (IH b' eq_refl) as (p & q & -> & K). exists (x :: p), q. split; [reflexivity|exact K].
    + exists [], (x :: s). split; [reflexivity|exact E].
Qed.
Lemma greedy_none : forall B (k : list ascii -> option B) s, greedy k s = None -> forall p q, s = p ++ q -> k q = None.
Proof.
  intros B k. induction s as [|x s IH]; intros E p q H; cbn [greedy] in E.
  - symmetry in H. apply app_eq_nil in H as [-> ->]. exact E.
  - destruct (greedy k s) as [b'|] eqn:G; [discriminate E|]. destruct p as [|y p].
    + cbn in H. subst q. exact E.
    + injection H as _ ->. apply (IH eq_refl p q eq_refl).
Qed.
(** The last place where the rest can be read is taken. *)
Lemma greedy_last : forall B (k : list ascii -> option B) p q b, k q = Some b ->
  (forall p' x q', q = p' ++ x :: q' -> k q' = None) -> greedy k (p ++ q) = Some b.
Proof.
  intros B k p q b K L. assert (Q : greedy k q = Some b).
  { destruct q as [|x q]; [exact K|]. cbn [greedy]. destruct (greedy k q) as [b'|] eqn:G; [|exact K].
    apply greedy_some in G as (p' & q' & -> & K'). exfalso. destruct p' as [|y p'].
    - specialize (L [] x q' eq_refl). rewrite L in K'. discriminate K'.
    - assert (E : L = L) by reflexivity. clear E. destruct (exists_last (l := y :: p') ltac:(discriminate)) as (p'' & z & E). rewrite E in L.
      specialize (L (x :: p'') z q'). rewrite L in K'; [discriminate K'|]. cbn. f_equal. rewrite <- app_assoc. reflexivity. }
  induction p as [|y p IH]; [exact Q|]. cbn [app greedy]. rewrite IH. reflexivity.
Qed.
Lemma literal_some : forall B c (k : list ascii -> option B) s b, literal c k s = Some b <-> exists r, s = c :: r /\ k r = Some b.
Proof.
  intros B c k s b. destruct s as [|x s]; cbn [literal]; [split; [discriminate|intros (r & H & _); discriminate H]|].
  destruct (Ascii.eqb_spec x c) as [->|N]; split.
  - intros E. exists s. split; [reflexivity|exact E].
  - intros (r & H & K). injection H as ->. exact K.
  - discriminate.
  - intros (r & H & _). injection H as H _. contradiction.
Qed.
Lemma tail_iff : forall s, tail s = true <-> exists c x e, s = c :: x :: e /\ (x = "n"%char \/ x = "z"%char).
Proof.
  intros s. destruct s as [|c [|x e]]; cbn [tail]; [split; [discriminate|intros (? & ? & ? & H & _); discriminate H]..|].
  rewrite orb_true_iff, !Ascii.eqb_eq. split; [intros H; exists c, x, e; split; [reflexivity|exact H]|intros (c' & x' & e' & H & X); injection H as _ -> _; exact X].
Qed.
Lemma lazy_some : forall k s g, lazy_digits k s = Some g -> exists r, s = g ++ r /\ k r = true /\ forall d, In d g -> is_digit d.
Proof.
  intros k. induction s as [|x s IH]; intros g E; cbn [lazy_digits] in E.
  - destruct (k []) eqn:K; [|discriminate E]. injection E as <-. exists []. split; [reflexivity|]. split; [exact K|intros d []].
  - destruct (k (x :: s)) eqn:K; [injection E as <-; exists (x :: s); split; [reflexivity|]; split; [exact K|intros d []]|].
    destruct (digit x) eqn:D; [|discriminate E]. destruct (lazy_digits k s) as [g'|]; [|discriminate E]. injection E as <-.
    destruct (IH g' eq_refl) as (r & -> & KR & F). exists r. split; [reflexivity|]. split; [exact KR|]. intros d [<-|I]; [apply digit_iff; exact D|apply F; exact I].
Qed.
Lemma lazy_none : forall k s, lazy_digits k s = None -> forall g r, s = g ++ r -> (forall d, In d g -> is_digit d) -> k r = false.
Proof.
  intros k. induction s as [|x s IH]; intros E g r H F; cbn [lazy_digits] in E.
  - symmetry in H. apply app_eq_nil in H as [-> ->]. destruct (k []); [discriminate E|reflexivity].
  - destruct (k (x :: s)) eqn:K; [discriminate E|]. destruct g as [|y g]; [cbn in H; subst r; exact K|]. injection H as <- ->.
    rewrite (proj2 (digit_iff x)) in E by (apply F; left; reflexivity). destruct (lazy_digits k (g ++ r)) as [g'|] eqn:L; [discriminate E|].
    apply (IH eq_refl g r eq_refl). intros d I. apply F. right. exact I.
Qed.
Lemma group_some : forall s g, group s = Some g -> dated s g.
Proof.
  intros s g E. unfold group in E. apply greedy_some in E as (a & q & -> & E). apply literal_some in E as (r & -> & E).
  apply greedy_some in E as (b & q & -> & E). apply literal_some in E as (r & -> & E). apply lazy_some in E as (t & -> & T & F).
  apply tail_iff in T as (c & x & e & -> & X). exists a, b, c, x, e. split; [reflexivity|]. split; assumption.
Qed.
Lemma group_none : forall s, group s = None -> forall g, ~ dated s g.
Proof.
  intros s E g (a & b & c & x & e & H & X & F). unfold group in E. pose proof (greedy_none _ _ _ E a _ H) as E1. clear E.
  cbn [app literal] in E1. change (Ascii.eqb slash "/"%char) with true in E1. cbv iota in E1.
  pose proof (greedy_none _ _ _ E1 b _ eq_refl) as E2. cbn [app literal] in E2. change (Ascii.eqb underscore "_"%char) with true in E2. cbv iota in E2.
  pose proof (lazy_none _ _ E2 g _ eq_refl F) as T. cbn [app tail] in T. apply orb_false_iff in T as [T1 T2]. apply Ascii.eqb_neq in T1, T2. destruct X; contradiction.
Qed.

(** ** C135 *)
(** What is read is a date of the path, and it is read when there is one. *)
Theorem C135_read : forall s, match group s with Some g => dated s g | None => forall g, ~ dated s g end.
Proof. intros s. destruct (group s) as [g|] eqn:E; [apply group_some; exact E|apply group_none; exact E]. Qed.
Print Assumptions C135_read.

Lemma char_digit : forall n, n < 10 -> ch_of (char_of n) = Dg n.
Proof. intros n N. do 10 (destruct n as [|n]; [reflexivity|]). exfalso; lia. Qed.
Lemma digit_not : forall d, is_digit d -> d <> "n"%char /\ d <> "z"%char /\ d <> "T"%char /\ d <> underscore /\ d <> slash.
Proof. intros d (n & N & ->). do 10 (destruct n as [|n]; [repeat split; discriminate|]). exfalso; lia. Qed.
Lemma two_ch : forall n, n < 100 -> map ch_of (two_chars n) = dig2 n.
Proof.
  intros n N. unfold two_chars, dig2. cbn [map]. rewrite !char_digit; [reflexivity|apply Nat.mod_upper_bound; lia|].
  apply Nat.div_lt_upper_bound; lia.
Qed.
Lemma four_ch : forall n, n < 1000 * 10 -> map ch_of (four_chars n) = dig4 n.
Proof.
  intros n N. unfold four_chars, dig4. cbn [map]. rewrite !char_digit; [reflexivity|apply Nat.mod_upper_bound; lia..|].
  apply Nat.div_lt_upper_bound; lia.
Qed.
Lemma char_is : forall n, n < 10 -> is_digit (char_of n).
Proof. intros n N. exists n. split; [exact N|reflexivity]. Qed.
Lemma two_is : forall n d, n < 100 -> In d (two_chars n) -> is_digit d.
Proof. intros n d N [<-|[<-|[]]]; apply char_is; [apply Nat.div_lt_upper_bound; lia|apply Nat.mod_upper_bound; lia]. Qed.
Lemma four_is : forall n d, n < 1000 * 10 -> In d (four_chars n) -> is_digit d.
Proof. intros n d N [<-|[<-|[<-|[<-|[]]]]]; apply char_is; try (apply Nat.mod_upper_bound; lia). apply Nat.div_lt_upper_bound; lia. Qed.
Lemma lazy_all : forall g x e, (forall d, In d g -> is_digit d) -> (x = "n"%char \/ x = "z"%char) -> lazy_digits tail (g ++ dot :: x :: e) = Some g.
Proof.
  induction g as [|d g IH]; intros x e F X.
  - cbn [app lazy_digits tail]. destruct X as [->| ->]; reflexivity.
  - cbn [app lazy_digits]. assert (N : tail (d :: g ++ dot :: x :: e) = false).
    { destruct (tail (d :: g ++ dot :: x :: e)) eqn:T; [|reflexivity]. exfalso. apply tail_iff in T as (c' & x' & e' & H & X'). injection H as _ H.
      destruct g as [|d' g]; injection H as H _; [subst x'; destruct X' as [E|E]; discriminate E|].
      destruct (digit_not d') as (N1 & N2 & _); [apply F; right; left; reflexivity|]. subst x'. destruct X'; contradiction. }
    rewrite N, (proj2 (digit_iff d)) by (apply F; left; reflexivity). rewrite IH; [reflexivity|intros d' I; apply F; right; exact I|exact X].
Qed.
Lemma last_char : forall (c : ascii) (k : list ascii -> option (list ascii)) r, ~ In c r -> forall p' x q', c :: r = p' ++ x :: q' -> literal c k q' = None.
Proof.
  intros c k r N p' x q' H. destruct (literal c k q') as [b|] eqn:E; [|reflexivity]. exfalso. apply literal_some in E as (q'' & -> & _). apply N.
  destruct p' as [|y p']; injection H as _ ->; [left; reflexivity|]. apply in_or_app. right. right. left. reflexivity.
Qed.
Lemma group_last : forall dir pre g x ext, ~ In slash pre -> (forall d, In d g -> is_digit d) -> (x = "n"%char \/ x = "z"%char) -> ~ In slash ext -> ~ In underscore ext ->
  group (dir ++ [slash] ++ pre ++ [underscore] ++ g ++ [dot; x] ++ ext) = Some g.
Proof.
  intros dir pre g x ext P F X S1 U1.
  assert (Q : forall c, c <> dot -> c <> "n"%char -> c <> "z"%char -> (forall d, is_digit d -> d <> c) -> ~ In c ext -> ~ In c (g ++ [dot; x] ++ ext)).
  { intros c C1 C2 C3 C4 C5 I. apply in_app_or in I as [I|[I|[I|I]]]; [exact (C4 c (F c I) eq_refl)|congruence|destruct X; congruence|exact (C5 I)]. }
  assert (QU : ~ In underscore (g ++ [dot; x] ++ ext)) by (apply Q; try discriminate; [intros d D; apply (digit_not d D)|exact U1]).
  assert (QS : ~ In slash (g ++ [dot; x] ++ ext)) by (apply Q; try discriminate; [intros d D; apply (digit_not d D)|exact S1]).
  unfold group. apply greedy_last; [|apply last_char].
  - apply literal_some. exists (pre ++ [underscore] ++ g ++ [dot; x] ++ ext). split; [reflexivity|]. apply greedy_last; [|apply last_char; exact QU].
    apply literal_some. exists (g ++ [dot; x] ++ ext). split; [reflexivity|]. apply (lazy_all g x ext F X).
  - intros I. apply in_app_or in I as [I|[I|I]]; [exact (P I)|discriminate I|exact (QS I)].
Qed.

(** A file dir/pre_YYYYMMDD.nc (or .n..., .z...) has this date. *)
Theorem C135_date : forall dir pre x ext y m d, ~ In slash pre -> (x = "n"%char \/ x = "z"%char) -> ~ In slash ext -> ~ In underscore ext -> a_date y m d ->
  file_date (dir ++ [slash] ++ pre ++ [underscore] ++ (four_chars y ++ two_chars m ++ two_chars d) ++ [dot; x] ++ ext) = Date (y, m, d, 0, 0, 0).
Proof.
  intros dir pre x ext y m d P X S1 U1 A. pose proof (a_date_bounds y m d A) as (M & D & Y). unfold file_date, shown.
  replace ("b"%char :: "'"%char :: (dir ++ [slash] ++ pre ++ [underscore] ++ (four_chars y ++ two_chars m ++ two_chars d) ++ [dot; x] ++ ext) ++ ["'"%char])
    with (("b"%char :: "'"%char :: dir) ++ [slash] ++ pre ++ [underscore] ++ (four_chars y ++ two_chars m ++ two_chars d) ++ [dot; x] ++ (ext ++ ["'"%char])) by (cbn [app]; rewrite <- ?app_assoc; cbn [app]; rewrite <- ?app_assoc; reflexivity).
  rewrite group_last; try assumption.
  - rewrite !map_app, four_ch, !two_ch by lia. rewrite (C134_date y m d A). reflexivity.
  - intros c I. apply in_app_or in I as [I|I]; [apply (four_is y c); [lia|exact I]|]. apply in_app_or in I as [I|I]; [apply (two_is m c)|apply (two_is d c)]; try lia; exact I.
  - intros I. apply in_app_or in I as [I|[I|[]]]; [exact (S1 I)|discriminate I].
  - intros I. apply in_app_or in I as [I|[I|[]]]; [exact (U1 I)|discriminate I].
Qed.
Print Assumptions C135_date.
(** dir/pre_YYYYMMDDHH.nc has another date. *)
Theorem C135_hours_refuted : forall dir pre x ext y m d h, ~ In slash pre -> (x = "n"%char \/ x = "z"%char) -> ~ In slash ext -> ~ In underscore ext -> a_date y m d -> 10 <= d -> h < 24 ->
  file_date (dir ++ [slash] ++ pre ++ [underscore] ++ (four_chars y ++ two_chars m ++ two_chars d ++ two_chars h) ++ [dot; x] ++ ext) = Date (y, m, d / 10, d mod 10, h / 10, h mod 10).
Proof.
  intros dir pre x ext y m d h P X S1 U1 A D10 H. pose proof (a_date_bounds y m d A) as (M & D & Y). unfold file_date, shown.
  replace ("b"%char :: "'"%char :: (dir ++ [slash] ++ pre ++ [underscore] ++ (four_chars y ++ two_chars m ++ two_chars d ++ two_chars h) ++ [dot; x] ++ ext) ++ ["'"%char])
    with (("b"%char :: "'"%char :: dir) ++ [slash] ++ pre ++ [underscore] ++ (four_chars y ++ two_chars m ++ two_chars d ++ two_chars h) ++ [dot; x] ++ (ext ++ ["'"%char])) by (cbn [app]; rewrite <- ?app_assoc; cbn [app]; rewrite <- ?app_assoc; reflexivity).
  rewrite group_last; try assumption.
  - rewrite !map_app, four_ch, !two_ch by lia. rewrite (C134_hours_refuted y m d h A D10 H). reflexivity.
  - intros c I. apply in_app_or in I as [I|I]; [apply (four_is y c); [lia|exact I]|]. apply in_app_or in I as [I|I]; [apply (two_is m c); [lia|exact I]|].
    apply in_app_or in I as [I|I]; [apply (two_is d c)|apply (two_is h c)]; try lia; exact I.
  - intros I. apply in_app_or in I as [I|[I|[]]]; [exact (S1 I)|discriminate I].
  - intros I. apply in_app_or in I as [I|[I|[]]]; [exact (U1 I)|discriminate I].
Qed.
Print Assumptions C135_hours_refuted.
(** A name without directory has no date: the item of the array is not written. *)
Theorem C135_directory_refuted : forall name, ~ In slash name -> file_date name = Unset.
Proof.
  intros name N. unfold file_date. destruct (group (shown name)) as [g|] eqn:E; [|reflexivity]. exfalso.
  apply group_some in E as (a & b & c & x & e & H & _). assert (I : In slash (shown name)) by (rewrite H; apply in_or_app; right; left; reflexivity).
  unfold shown in I. destruct I as [I|[I|I]]; [discriminate I..|]. apply in_app_or in I as [I|[I|[]]]; [exact (N I)|discriminate I].
Qed.
Print Assumptions C135_directory_refuted.
(** Nor does a file pre_YYYYMMDDTHHMMSS.nc. *)
Lemma split_underscore : forall (a r a' r' : list ascii), a ++ underscore :: r = a' ++ underscore :: r' -> ~ In underscore a -> ~ In underscore r -> r = r'.
Proof.
  induction a as [|x a IH]; intros r a' r' H NA NR.
  - destruct a' as [|y a']; [injection H as H2; exact H2|]. injection H as H1 H2. exfalso. apply NR. rewrite H2. apply in_or_app. right. left. reflexivity.
  - destruct a' as [|y a']; injection H as H1 H2; [exfalso; apply NA; left; exact H1|]. apply (IH r a' r' H2); [intros I; apply NA; right; exact I|exact NR].
Qed.
Lemma no_tail_t : forall g d h g' c x e, (forall c, In c g -> is_digit c) -> is_digit d -> (forall c, In c g' -> is_digit c) -> (x = "n"%char \/ x = "z"%char) ->
  g ++ "T"%char :: d :: h <> g' ++ c :: x :: e.
Proof.
  induction g as [|y g IH]; intros d h g' c x e F D F' X H.
  - destruct g' as [|y' g']; cbn [app] in H.
    + injection H as _ H _. subst x. destruct (digit_not d D) as (N1 & N2 & _). destruct X; contradiction.
    + injection H as H _. subst y'. destruct (digit_not _ (F' _ (or_introl eq_refl))) as (_ & _ & N & _). apply N; reflexivity.
  - destruct g' as [|y' g']; cbn [app] in H.
    + injection H as _ H. destruct g as [|z g]; cbn [app] in H; injection H as H _.
      * subst x. destruct X as [E|E]; discriminate E.
      * subst x. destruct (digit_not z) as (N1 & N2 & _); [apply F; right; left; reflexivity|]. destruct X; contradiction.
    + injection H as -> H. apply (IH d h g' c x e) in H; auto; [intros c' I; apply F; right; exact I|intros c' I; apply F'; right; exact I].
Qed.
Theorem C135_letter_refuted : forall path ext y m d h mi s, ~ In underscore path -> ~ In underscore ext -> a_date y m d -> a_time h mi s ->
  file_date (path ++ [underscore] ++ (four_chars y ++ two_chars m ++ two_chars d) ++ ["T"%char] ++ (two_chars h ++ two_chars mi ++ two_chars s) ++ ext) = Unset.
Proof.
  intros path ext y m d h mi s P U1 A (H & MI & SE). pose proof (a_date_bounds y m d A) as (M & D & Y).
  unfold file_date. match goal with |- match group (shown ?n) with _ => _ end = _ => destruct (group (shown n)) as [g|] eqn:E end; [|reflexivity]. exfalso.
  apply group_some in E as (a & b & c & x & e & EQ & X & F).
  assert (G : forall c, In c (four_chars y ++ two_chars m ++ two_chars d) -> is_digit c).
  { intros c' I. apply in_app_or in I as [I|I]; [apply (four_is y c'); [lia|exact I]|]. apply in_app_or in I as [I|I]; [apply (two_is m c')|apply (two_is d c')]; try lia; exact I. }
  assert (T3 : forall c, In c (two_chars h ++ two_chars mi ++ two_chars s) -> is_digit c).
  { intros c' I. apply in_app_or in I as [I|I]; [apply (two_is h c'); [lia|exact I]|]. apply in_app_or in I as [I|I]; [apply (two_is mi c')|apply (two_is s c')]; try lia; exact I. }
  assert (S1 : exists a1 a2, shown (path ++ [underscore] ++ (four_chars y ++ two_chars m ++ two_chars d) ++ ["T"%char] ++ (two_chars h ++ two_chars mi ++ two_chars s) ++ ext) =
      a1 ++ underscore :: (four_chars y ++ two_chars m ++ two_chars d) ++ "T"%char :: (two_chars h ++ two_chars mi ++ two_chars s) ++ a2 /\ ~ In underscore a1 /\ ~ In underscore a2).
  { exists ("b"%char :: "'"%char :: path), (ext ++ ["'"%char]). split; [|split].
    - unfold shown. cbn [app]. rewrite <- !app_assoc. cbn [app]. reflexivity.
    - intros [I|[I|I]]; [discriminate I..|exact (P I)].
    - intros I. apply in_app_or in I as [I|[I|[]]]; [exact (U1 I)|discriminate I]. }
  destruct S1 as (a1 & a2 & S1 & N1 & N2). rewrite S1 in EQ.
  assert (EQ' : a1 ++ underscore :: (four_chars y ++ two_chars m ++ two_chars d) ++ "T"%char :: (two_chars h ++ two_chars mi ++ two_chars s) ++ a2 = (a ++ [slash] ++ b) ++ underscore :: g ++ c :: x :: e) by (rewrite EQ, <- !app_assoc; reflexivity).
  apply split_underscore in EQ'; [|exact N1|].
  - unfold two_chars at 3 in EQ'. cbn [app] in EQ'. revert EQ'. apply no_tail_t; try assumption. apply T3. left. reflexivity.
  - intros I. apply in_app_or in I as [I|[I|I]]; [apply (proj1 (proj2 (proj2 (proj2 (digit_not _ (G _ I)))))); reflexivity|discriminate I|].
    apply in_app_or in I as [I|I]; [apply (proj1 (proj2 (proj2 (proj2 (digit_not _ (T3 _ I)))))); reflexivity|exact (N2 I)].
Qed.
Print Assumptions C135_letter_refuted.

(** /d/e_1/Anticyclonic_20200229.nc, and the same without directory. *)
Example C135_case :
  file_date (list_ascii_of_string "/d/e_1/Anticyclonic_20200229.nc") = Date (2020, 2, 29, 0, 0, 0) /\
  file_date (list_ascii_of_string "/d/e_1/Anticyclonic_20200230.nc") = Raise /\
  file_date (list_ascii_of_string "Anticyclonic_20200229.nc") = Unset /\
  file_date (list_ascii_of_string "/d/run_7.zarr/eddies.nc") = Raise /\
  list_ascii_of_string "/d/e_1/Anticyclonic_20200229.nc" =
    list_ascii_of_string "/d/e_1" ++ [slash] ++ list_ascii_of_string "Anticyclonic" ++ [underscore] ++ (four_chars 2020 ++ two_chars 2 ++ two_chars 29) ++ [dot; "n"%char] ++ ["c"%char].
Proof. repeat split; vm_compute; reflexivity. Qed.
