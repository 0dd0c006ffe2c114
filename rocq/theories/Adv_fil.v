From Coq Require Import List Arith ZArith QArith Qround Qabs Bool Lia Lqa.
From Verif Require Import Base Qaux Grid_model Grid_path Adv_model Adv_spec Adv_proofs.
Import ListNotations.
Local Close Scope Q_scope.
Local Open Scope nat_scope.

Section Filament.
Context {A : Type}.
Variable size : nat.
Lemma length_store_heads : forall {B} (buf : list B) k heads, length (store_heads size buf k heads) = length buf.
Proof. intros B. induction buf as [|b buf IH]; intros k heads; [reflexivity|]. destruct k; [destruct heads|]; cbn [store_heads length]; rewrite IH; reflexivity. Qed.
Lemma length_clear_tails : forall (buf : list (option A)) k, length (clear_tails size buf k) = length buf.
Proof. induction buf as [|b buf IH]; intros k; [reflexivity|]. destruct k; cbn [clear_tails length]; rewrite IH; reflexivity. Qed.
Lemma length_removelast : forall {B} (b : B) buf, length (removelast (b :: buf)) = length buf.
Proof. intros B b buf. revert b. induction buf as [|c buf IH]; intros b; [reflexivity|]. specialize (IH c). cbn [removelast length] in *. rewrite IH. reflexivity. Qed.
Lemma length_shift : forall {B} (buf : list B), length (shift_one buf) = length buf.
Proof. intros B [|b buf]; [reflexivity|]. unfold shift_one. cbn [length]. rewrite length_removelast. reflexivity. Qed.
Lemma nth_removelast : forall {B} (buf : list B) p, S p < length buf -> nth_error (removelast buf) p = nth_error buf p.
Proof.
  intros B buf. induction buf as [|b buf IH]; intros p L; [cbn in L; lia|]. destruct buf as [|c buf]; [cbn in L; lia|]. destruct p as [|p]; [reflexivity|].
  cbn [removelast nth_error] in *. apply IH. cbn [length] in *. lia.
Qed.
Lemma nth_shift : forall {B} (buf : list B) p, S p < length buf -> nth_error (shift_one buf) (S p) = nth_error buf p.
Proof. intros B [|b buf] p L; [cbn in L; lia|]. unfold shift_one. cbn [nth_error]. apply nth_removelast. exact L. Qed.
Lemma nth_store : forall {B} (buf : list B) k heads i s, s <= size -> k + (i * S size + s) < length buf ->
  nth_error (store_heads size buf k heads) (k + (i * S size + s)) =
    match s with O => match nth_error heads i with Some h => Some h | None => nth_error buf (k + (i * S size)) end | S _ => nth_error buf (k + (i * S size + s)) end.
Proof.
  assert (LOW : forall {B} (buf : list B) k heads p, p < k -> nth_error (store_heads size buf k heads) p = nth_error buf p).
  { intros B. induction buf as [|b buf IH]; intros k heads p L; [reflexivity|]. destruct k as [|k]; [lia|]. destruct p as [|p]; [reflexivity|]. cbn [store_heads nth_error]. apply IH. lia. }
  intros B. induction buf as [|b buf IH]; intros k heads i s HS L; [cbn in L; lia|]. cbn [length] in L. destruct k as [|k].
  - cbn [Nat.add]. destruct i as [|i].
    + cbn [Nat.mul Nat.add]. destruct s as [|s]; [destruct heads; reflexivity|]. destruct heads; cbn [store_heads nth_error]; apply LOW; lia.
    + assert (X : forall s', S i * S size + s' = S (size + (i * S size + s'))) by (intros; lia). rewrite X. replace (S i * S size) with (S (size + i * S size)) by lia.
      assert (L' : size + (i * S size + s) < length buf) by lia.
      destruct heads as [|h heads]; cbn [store_heads nth_error]; rewrite IH by assumption; destruct s; try reflexivity. destruct i; reflexivity.
  - cbn [Nat.add store_heads nth_error]. apply IH; [exact HS|]. lia.
Qed.
Lemma nth_clear : forall (buf : list (option A)) k i s, s <= size -> k + (i * S size + s) < length buf ->
  nth_error (clear_tails size buf k) (k + (i * S size + s)) = match s with O => Some None | S _ => nth_error buf (k + (i * S size + s)) end.
Proof.
  assert (LOW : forall (buf : list (option A)) k p, p < k -> nth_error (clear_tails size buf k) p = nth_error buf p).
  { induction buf as [|b buf IH]; intros k p L; [reflexivity|]. destruct k as [|k]; [lia|]. destruct p as [|p]; [reflexivity|]. cbn [clear_tails nth_error]. apply IH. lia. }
  induction buf as [|b buf IH]; intros k i s HS L; [cbn in L; lia|]. cbn [length] in L. destruct k as [|k].
  - cbn [Nat.add]. destruct i as [|i].
    + cbn [Nat.mul Nat.add]. destruct s as [|s]; [reflexivity|]. cbn [clear_tails nth_error]. apply LOW; lia.
    + assert (X : S i * S size + s = S (size + (i * S size + s))) by lia. rewrite X. cbn [clear_tails nth_error]. apply IH; [exact HS|lia].
  - cbn [Nat.add clear_tails nth_error]. apply IH; [exact HS|]. lia.
Qed.
Lemma nth_clear_low : forall (buf : list (option A)) k p, p < k -> nth_error (clear_tails size buf k) p = nth_error buf p.
Proof. induction buf as [|b buf IH]; intros k p L; [reflexivity|]. destruct k as [|k]; [lia|]. destruct p as [|p]; [reflexivity|]. cbn [clear_tails nth_error]. apply IH. lia. Qed.

Hypothesis SIZE : 1 <= size.
Lemma length_release : forall (buf heads : list (option A)), length (filament_release size buf heads) = length buf.
Proof. intros. unfold filament_release. rewrite length_store_heads, length_clear_tails, length_shift. reflexivity. Qed.
Lemma release_slot : forall (buf heads : list (option A)) i s n, length buf = n * S size -> length heads = n -> i < n -> s <= size ->
  nth_error (filament_release size buf heads) (i * S size + s) =
    match s with O => nth_error heads i | S s' => if s =? size then Some None else nth_error buf (i * S size + s') end.
Proof.
  intros buf heads i s n L H I S_. assert (B : i * S size + s < length buf) by (rewrite L; nia).
  unfold filament_release. rewrite (nth_store _ 0 heads i s S_) by (rewrite length_clear_tails, length_shift; exact B). cbn [Nat.add].
  destruct s as [|s]; [destruct (nth_error heads i) eqn:E; [reflexivity|apply nth_error_None in E; lia]|].
  destruct (Nat.eqb_spec (S s) size) as [E|E].
  - replace (i * S size + S s) with (size + (i * S size + 0)) by lia. rewrite nth_clear; [reflexivity|lia|]. rewrite length_shift. lia.
  - assert (X : nth_error (clear_tails size (shift_one buf) size) (i * S size + S s) = nth_error (shift_one buf) (i * S size + S s)).
    { destruct i as [|i]; [apply nth_clear_low; cbn; lia|]. replace (S i * S size + S s) with (size + (i * S size + S (S s))) by lia.
      rewrite nth_clear; [reflexivity|lia|]. rewrite length_shift. lia. }
    rewrite X. replace (i * S size + S s) with (S (i * S size + s)) by lia. rewrite nth_shift by lia. reflexivity.
Qed.
Lemma start_slot : forall (heads : list (option A)) i s, i < length heads -> s <= size ->
  nth_error (filament_start size heads) (i * S size + s) = match s with O => nth_error heads i | S _ => Some None end.
Proof.
  intros heads i s I S_. unfold filament_start. replace (size + 1) with (S size) by lia. assert (B : i * S size + s < length heads * S size) by nia.
  rewrite (nth_store _ 0 heads i s S_) by (rewrite repeat_length; exact B). cbn [Nat.add].
  destruct s as [|s]; [destruct (nth_error heads i) eqn:E; [reflexivity|apply nth_error_None in E; lia]|]. rewrite nth_error_repeat_lt.
  destruct (Nat.ltb_spec (i * S size + S s) (length heads * S size)); [reflexivity|lia].
Qed.
Lemma filament_slot : forall history (start : list (option A)) i s, Forall (fun h => length h = length start) history -> i < length start -> s < size ->
  length (filament size start history) = length start * S size /\
  nth_error (filament size start history) (i * S size + s) = (if s <=? length history then let! h := nth_error (start :: history) (length history - s) in nth_error h i else Some None)
  /\ nth_error (filament size start history) (i * S size + size) = Some None.
Proof.
  intros history. induction history as [|h history IH] using rev_ind; intros start i s F I S_.
  - unfold filament. cbn [fold_left length]. split; [unfold filament_start; rewrite length_store_heads, repeat_length; lia|]. rewrite !start_slot by lia. split; [|destruct size; [lia|reflexivity]].
    destruct s; reflexivity.
  - apply Forall_app in F. destruct F as [F FH]. inversion FH as [|? ? LH _]; subst.
    assert (E : filament size start (history ++ [h]) = filament_release size (filament size start history) h) by (unfold filament; rewrite fold_left_app; reflexivity).
    rewrite E. destruct (IH start i s F I S_) as (L & _ & _). split; [rewrite length_release; exact L|].
    rewrite !(release_slot _ _ _ _ (length start) L LH I) by lia. rewrite Nat.eqb_refl. split; [|destruct size; [lia|reflexivity]].
    rewrite app_length. cbn [length]. destruct s as [|s].
    + replace (length history + 1 - 0) with (S (length history)) by lia. cbn [Nat.leb nth_error]. rewrite nth_error_app2, Nat.sub_diag by lia. reflexivity.
    + destruct (Nat.eqb_spec (S s) size); [lia|]. destruct (IH start i s F I) as (_ & E2 & _); [lia|]. rewrite E2.
      destruct (Nat.leb_spec s (length history)); destruct (Nat.leb_spec (S s) (length history + 1)); try lia; [|reflexivity].
      replace (length history + 1 - S s) with (length history - s) by lia. f_equal.
      assert (B : length history - s < length (start :: history)) by (cbn; lia). generalize (length history - s), B. clear. intros k B.
      destruct k as [|k]; [reflexivity|]. cbn [nth_error] in *. rewrite nth_error_app1 by (cbn in B; lia). reflexivity.
Qed.
End Filament.

(** ** Nearest node *)
Lemma nearest_at_spec : forall f z p, matrix z (f_nx f) (f_ny f) -> (0 < f_nx f)%Z ->
  let i := col f (qround ((fst p - f_x0 f) / f_xs f)) in
  let j := qround ((snd p - f_y0 f) / f_ys f) in
  nearest_at f z p = Some (if ((0 <=? i) && (i <? f_nx f) && (0 <=? j) && (j <? f_ny f))%Z then Some (node 0%Q z i j) else None).
Proof.
  intros f z p M N i j. unfold nearest_at. fold j. replace (if f_circ f then qround ((fst p - f_x0 f) / f_xs f) mod f_nx f else qround ((fst p - f_x0 f) / f_xs f))%Z with i by reflexivity.
  clearbody i j. destruct (Z.leb_spec (f_nx f) i), (Z.ltb_spec i 0), (Z.leb_spec 0 i), (Z.ltb_spec i (f_nx f)), (Z.ltb_spec j 0), (Z.leb_spec 0 j), (Z.leb_spec (f_ny f) j), (Z.ltb_spec j (f_ny f)); try lia; cbn [orb andb]; try reflexivity.
  rewrite (get2_node f z i j 0%Q M) by lia. unfold row. destruct (Z.ltb_spec j 0); [lia|]. reflexivity.
Qed.
Lemma map_opt_total : forall {A B} (g : A -> option B) (h : A -> B) l, (forall a, In a l -> g a = Some (h a)) -> map_opt g l = Some (map h l).
Proof. intros A B g h l. induction l as [|a l IH]; intros H; [reflexivity|]. cbn [map_opt map]. rewrite (H a (or_introl eq_refl)). cbn [bind]. rewrite IH by (intros; apply H; right; auto). reflexivity. Qed.
