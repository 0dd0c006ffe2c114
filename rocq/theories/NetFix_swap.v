(** Exchanges of the end of a segment with the segment which splits from it. *)
From Coq Require Import List Arith ZArith Bool Lia.
Import ListNotations.
Local Open Scope nat_scope.

Section Swap.
Context (n : nat) (sg tr c0 : nat -> nat) (tm : nat -> Z).
Hypothesis CONT : forall i k j, i <= k <= j -> j < n -> sg i = sg j -> sg k = sg i.
Hypothesis TR : forall i j, i < n -> j < n -> sg i = sg j -> tr i = tr j.
Hypothesis INC : forall i j, i < j -> j < n -> sg i = sg j -> (tm i < tm j)%Z.

Definition exchange (c : nat -> nat) (m s k : nat) : nat :=
  if (sg k =? sg m) && (m <? k) then c s else if sg k =? sg s then c m else c k.
Definition state_ok (T : Z) (done : list nat) (c : nat -> nat) : Prop :=
  (forall i j, i < n -> j < n -> i <> j -> tr i = tr j -> c i = c j -> tm i <> tm j) /\
  (forall i j, i < n -> j < n -> tr i = tr j -> c i = c j -> (T < tm i)%Z -> (T < tm j)%Z -> sg i = sg j) /\
  (forall i, S i < n -> sg i = sg (S i) -> (T <= tm i)%Z -> c i = c (S i) \/ In i done) /\
  (forall i, In i done -> (tm i <= T)%Z) /\
  (forall i, i < n -> exists k, k < n /\ tr k = tr i /\ c i = c0 k).

Lemma state_later : forall T T' done c, state_ok T done c -> (T <= T')%Z -> state_ok T' done c.
Proof.
  intros T T' done c (A & B & C & D & E) LE. split; [auto|]. split; [|split; [|split]]; auto.
  - intros i j I J R Q X Y. apply B; auto; lia.
  - intros i I R X. apply C; auto. lia.
  - intros i I. specialize (D i I). lia.
Qed.
Lemma chain : forall T done c i, state_ok T done c -> (T <= tm i)%Z -> ~ In i done -> forall k, i <= k -> k < n -> sg i = sg k -> c k = c i.
Proof.
  intros T done c i (_ & _ & C & D & _) LE ND. induction k as [|k IH]; intros IK KN SK; [f_equal; lia|].
  destruct (Nat.eq_dec i (S k)) as [->|N]; [auto|]. assert (SI : sg k = sg i) by (apply (CONT i k (S k)); auto; lia).
  rewrite <- IH; [|lia|lia|auto]. destruct (C k KN) as [X|X]; [congruence| | |].
  - destruct (Nat.eq_dec i k) as [->|N2]; [auto|]. pose proof (INC i k ltac:(lia) ltac:(lia) (eq_sym SI)). lia.
  - auto.
  - destruct (Nat.eq_dec i k) as [->|N2]; [contradiction|]. pose proof (INC i k ltac:(lia) ltac:(lia) (eq_sym SI)). specialize (D k X). lia.
Qed.

Lemma exchange_ok : forall T done c m s, state_ok T done c -> (T <= tm m)%Z -> ~ In m done -> S m < n -> s < n -> sg m = sg (S m) -> tr m = tr s ->
  (forall k, k < n -> sg k = sg s -> s <= k) -> (tm m < tm s)%Z -> state_ok (tm m) (m :: done) (exchange c m s).
Proof.
  intros T done c m s OK LE ND MN SN SM TMS FS LT. pose proof OK as (A & B & C & D & E).
  assert (DIFF : sg m <> sg s). { intros X. specialize (FS m ltac:(lia) X). destruct (Nat.eq_dec m s) as [->|N]; [lia|]. pose proof (INC s m ltac:(lia) ltac:(lia) (eq_sym X)). lia. }
  assert (TAIL : forall k, k < n -> m <= k -> sg k = sg m -> c k = c m). { intros k KN MK SK. apply (chain T done c m); auto. }
  assert (SEC : forall k, k < n -> sg k = sg s -> c k = c s).
  { intros k KN SK. apply (chain T done c s); auto; [lia|]. intros X. specialize (D s X). lia. }
  assert (LATE : forall k, k < n -> sg k = sg s -> (tm m < tm k)%Z).
  { intros k KN SK. specialize (FS k KN SK). destruct (Nat.eq_dec s k) as [<-|N]; [auto|]. pose proof (INC s k ltac:(lia) KN (eq_sym SK)). lia. }
  assert (LATM : forall k, k < n -> sg k = sg m -> (m < k <-> (tm m < tm k)%Z)).
  { intros k KN SK. split; intros X; [apply INC; auto|]. destruct (lt_eq_lt_dec m k) as [[Y|Y]|Y]; [auto|subst; lia|]. pose proof (INC k m Y ltac:(lia) SK). lia. }
  assert (NE : c m <> c s).
  { intros X. apply DIFF. rewrite SM. apply B; auto; [rewrite <- TMS; symmetry; apply TR; auto; lia|rewrite TAIL by (auto; lia); auto| |].
    - pose proof (INC m (S m) ltac:(lia) MN SM). lia.
    - lia. }
  assert (SMT : (tm m < tm (S m))%Z) by (apply INC; auto).
  set (c' := exchange c m s).
  assert (CASE : forall k, k < n -> (sg k = sg m /\ (tm m < tm k)%Z /\ m < k /\ c' k = c s) \/ (sg k = sg s /\ (tm m < tm k)%Z /\ c' k = c m) \/
    (sg k <> sg s /\ ~ (sg k = sg m /\ m < k) /\ c' k = c k)).
  { intros k KN. unfold c', exchange. destruct (Nat.eqb_spec (sg k) (sg m)) as [X|X]; cbn [andb].
    - destruct (Nat.ltb_spec m k) as [Y|Y].
      + left. split; [auto|]. split; [apply LATM; auto|auto].
      + destruct (Nat.eqb_spec (sg k) (sg s)); [congruence|]. right. right. split; [auto|]. split; [lia|auto].
    - destruct (Nat.eqb_spec (sg k) (sg s)) as [Y|Y]; [right; left; auto|]. right. right. split; [auto|]. split; [intuition|auto]. }
  assert (NOM : forall k, k < n -> tr k = tr m -> (tm m < tm k)%Z -> c k = c s -> sg k = sg s).
  { intros k KN TK LK CK. apply B; auto; [congruence|lia|lia]. }
  assert (NOS : forall k, k < n -> tr k = tr m -> (tm m < tm k)%Z -> c k = c m -> sg k = sg m /\ m < k).
  { intros k KN TK LK CK. assert (X : sg k = sg m). { rewrite SM. apply B; auto; [rewrite TK; apply TR; auto; lia|rewrite (TAIL (S m)) by (auto; lia); auto|lia|lia]. }
    split; [auto|]. apply LATM; auto. }
  assert (TRM : forall k, k < n -> sg k = sg m -> tr k = tr m) by (intros; apply TR; auto; lia).
  assert (TRS : forall k, k < n -> sg k = sg s -> tr k = tr m) by (intros; rewrite TMS; apply TR; auto; lia).
  assert (JJ : forall i j, i < n -> j < n -> tr i = tr j -> c' i = c' j -> (tm m < tm i)%Z -> (tm m < tm j)%Z -> sg i = sg j).
  { intros i j IN JN Q X LI LJ. destruct (CASE i IN) as [(I1 & I2 & I3 & I4)|[(I1 & I2 & I3)|(I1 & I2 & I3)]]; destruct (CASE j JN) as [(J1 & J2 & J3 & J4)|[(J1 & J2 & J3)|(J1 & J2 & J3)]].
    - congruence.
    - exfalso. apply NE. congruence.
    - exfalso. apply J1. apply NOM; auto; [rewrite <- Q; auto|congruence].
    - exfalso. apply NE. congruence.
    - congruence.
    - exfalso. apply J2. apply NOS; auto; [rewrite <- Q; auto|congruence].
    - exfalso. apply I1. apply NOM; auto; [rewrite Q; auto|congruence].
    - exfalso. apply I2. apply NOS; auto; [rewrite Q; auto|congruence].
    - apply B; auto; [congruence|lia|lia]. }
  split; [|split; [exact JJ|split; [|split]]].
  - intros i j IN JN IJ Q X TE. destruct (Z.lt_ge_cases (tm m) (tm i)) as [L|L].
    + assert (Y : sg i = sg j) by (apply JJ; auto; lia). destruct (lt_eq_lt_dec i j) as [[Z|Z]|Z]; [|congruence|].
      * pose proof (INC i j Z JN Y). lia.
      * pose proof (INC j i Z IN (eq_sym Y)). lia.
    + apply (A i j IN JN IJ Q); [|exact TE]. destruct (CASE i IN) as [(I1 & I2 & _)|[(I1 & I2 & I3)|(I1 & I2 & I3)]]; [lia|lia|].
      destruct (CASE j JN) as [(J1 & J2 & _)|[(J1 & J2 & J3)|(J1 & J2 & J3)]]; [|lia|congruence]. lia.
  - intros i IN X LI. destruct (Nat.eq_dec i m) as [->|N]; [right; left; auto|].
    destruct (C i IN X ltac:(lia)) as [Y|Y]; [|right; right; auto]. left. unfold c', exchange. rewrite <- X.
    destruct (Nat.eqb_spec (sg i) (sg m)) as [Z|Z]; cbn [andb].
    + assert (m < i). { destruct (lt_eq_lt_dec m i) as [[V|V]|V]; [auto|congruence|]. pose proof (INC i m V ltac:(lia) Z). lia. }
      destruct (Nat.ltb_spec m i); [|lia]. destruct (Nat.ltb_spec m (S i)); [auto|lia].
    + destruct (sg i =? sg s); auto.
  - intros i [<-|I]; [lia|]. specialize (D i I). lia.
  - intros i IN. destruct (CASE i IN) as [(I1 & _ & _ & I4)|[(I1 & _ & I3)|(_ & _ & I3)]].
    + destruct (E s SN) as (k & K1 & K2 & K3). exists k. split; [auto|]. split; [rewrite K2, <- TMS; symmetry; auto|congruence].
    + destruct (E m ltac:(lia)) as (k & K1 & K2 & K3). exists k. split; [auto|]. split; [rewrite K2; symmetry; auto|congruence].
    + destruct (E i IN) as (k & K1 & K2 & K3). exists k. split; [auto|]. split; [auto|congruence].
Qed.
End Swap.
