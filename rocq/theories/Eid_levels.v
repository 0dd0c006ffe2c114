From Coq Require Import List Arith ZArith QArith Qabs Qround Bool Lia Lqa.
From Verif Require Import Base Qaux Eid_model.
Import ListNotations.
Local Close Scope Q_scope.
Local Open Scope nat_scope.

(** The levels are the multiples of the step from the one at or below the lowest height to the first one above the highest. *)
Theorem levels_spec : forall z_min z_max step, (0 < step -> z_min <= z_max)%Q -> (0 < step)%Q ->
  exists k n, 2 <= n /\ length (levels_of z_min z_max step) = n /\
    (forall i, i < n -> exists z, nth_error (levels_of z_min z_max step) i = Some z /\ (z == inject_Z (k + Z.of_nat i) * step)%Q) /\
    (inject_Z k * step <= z_min < inject_Z (k + 1) * step)%Q /\ (inject_Z (k + Z.of_nat n - 2) * step <= z_max < inject_Z (k + Z.of_nat n - 1) * step)%Q.
Proof.
  intros z_min z_max step H SP. specialize (H SP). set (k := Qfloor (z_min / step)). set (m := Qfloor (z_max / step)).
  assert (KM : (k <= m)%Z). { apply Qfloor_resp_le. apply Qle_shift_div_l; [exact SP|]. unfold Qdiv. rewrite <- Qmult_assoc, (Qmult_comm (/ step)), Qmult_inv_r by lra. rewrite Qmult_1_r. exact H. }
  assert (FB : forall x, (inject_Z (Qfloor (x / step)) * step <= x < inject_Z (Qfloor (x / step) + 1) * step)%Q).
  { intros x. destruct (Qfloor_bounds (x / step)) as [B1 B2]. rewrite inject_Z_plus. change (inject_Z 1) with 1%Q. assert (X : (x == (x / step) * step)%Q) by (field; lra). set (q := (x / step)%Q) in *. set (f := inject_Z (Qfloor q)) in *. clearbody q f. split; rewrite X; [apply Qmult_le_compat_r; [exact B1|lra]|apply Qmult_lt_r; [exact SP|exact B2]]. }
  exists k, (Z.to_nat (m + 2 - k)). assert (LN : Z.to_nat (Qceiling ((z_max - Qmod z_max step + 2 * step - (z_min - Qmod z_min step)) / step)) = Z.to_nat (m + 2 - k)).
  { f_equal. assert (X : ((z_max - Qmod z_max step + 2 * step - (z_min - Qmod z_min step)) / step == inject_Z (m + 2 - k))%Q).
    { unfold Qmod. fold k m. replace (m + 2 - k)%Z with (m + 2 + - k)%Z by lia. rewrite (inject_Z_plus (m + 2) (- k)), (inject_Z_plus m 2), inject_Z_opp. change (inject_Z 2) with 2%Q. field. lra. }
    rewrite (Qceiling_comp _ _ X). apply Qceiling_Z. }
  split; [lia|]. split; [unfold levels_of; rewrite map_length, seq_length; exact LN|]. split.
  - intros i I. unfold levels_of. rewrite nth_error_map, nth_error_seq, LN. destruct (Nat.ltb_spec i (Z.to_nat (m + 2 - k))); [|lia]. cbn [option_map]. eexists. split; [reflexivity|]. unfold Qmod. fold k. rewrite (inject_Z_plus k (Z.of_nat i)). cbn [Nat.add]. ring.
  - rewrite Z2Nat.id by lia. replace (k + (m + 2 - k) - 2)%Z with m by lia. replace (k + (m + 2 - k) - 1)%Z with (m + 1)%Z by lia. split; apply FB.
Qed.
