(** The tables of the contours. *)
From Coq Require Import List Arith ZArith QArith Qabs Lia Lqa Bool.
From Verif Require Import Base Qaux Poly_model Poly_pairs Ctr_model.
Import ListNotations.
Local Close Scope Q_scope.
Local Open Scope nat_scope.

Notation path := (list point).
Notation kept := (list point * (Q * Q * Q * Q))%type.
Definition kx0 (c : kept) : Q := fst (fst (fst (snd c))).
Definition kx1 (c : kept) : Q := snd (fst (fst (snd c))).
Definition ky0 (c : kept) : Q := snd (fst (snd c)).
Definition ky1 (c : kept) : Q := snd (snd c).

Lemma put_slice_at : forall A (d r v : list A), length v <= length r -> put_slice (d ++ r) (length d) v = Some ((d ++ v) ++ skipn (length v) r).
Proof.
  intros A d r v H. unfold put_slice. rewrite app_length. rewrite (proj2 (Nat.leb_le _ _)) by lia. f_equal.
  rewrite firstn_app, Nat.sub_diag, firstn_all, firstn_O, app_nil_r. rewrite <- app_assoc. f_equal. f_equal.
  rewrite skipn_app. rewrite skipn_all2 by lia. cbn [app]. f_equal. lia.
Qed.
Lemma store_at : forall A (d r : list A) v, 1 <= length r -> store (d ++ r) (length d) v = Some ((d ++ [v]) ++ skipn 1 r).
Proof.
  intros A d r v H. unfold store. rewrite app_length. rewrite (proj2 (Nat.ltb_lt _ _)) by lia. f_equal.
  destruct r as [|x r]; [cbn in H; lia|]. rewrite <- app_assoc. cbn [skipn app].
  clear H. induction d as [|y d IH]; [reflexivity|]. cbn [app length upd]. f_equal. exact IH.
Qed.

(** The state after the contours [P], [np] points and [nc] contours being still to come. *)
Definition filled (P : list kept) (np nc : nat) (s : filling) : Prop :=
  (exists r, length r = np /\ f_x s = flat_map (fun c => map fst (fst c)) P ++ r) /\
  (exists r, length r = np /\ f_y s = flat_map (fun c => map snd (fst c)) P ++ r) /\
  (exists r, length r = nc /\ f_nb s = map (fun c => length (fst c)) P ++ r) /\
  (exists r, length r = nc /\ f_x_min s = map kx0 P ++ r) /\ (exists r, length r = nc /\ f_x_max s = map kx1 P ++ r) /\
  (exists r, length r = nc /\ f_y_min s = map ky0 P ++ r) /\ (exists r, length r = nc /\ f_y_max s = map ky1 P ++ r) /\
  f_i_pt s = sum_list (map (fun c => length (fst c)) P) /\ f_i_c s = length P.

Lemma sum_list_app : forall a b, sum_list (a ++ b) = sum_list a + sum_list b.
Proof. induction a as [|x a IH]; intros b; [reflexivity|]. change (sum_list ((x :: a) ++ b)) with (x + sum_list (a ++ b)). change (sum_list (x :: a)) with (x + sum_list a). rewrite IH. lia. Qed.
Lemma flat_len : forall (f : point -> Q) (P : list kept), length (flat_map (fun c => map f (fst c)) P) = sum_list (map (fun c => length (fst c)) P).
Proof. induction P as [|c P IH]; [reflexivity|]. cbn [flat_map map]. rewrite app_length, IH, map_length. reflexivity. Qed.
Lemma flat_snoc : forall (f : point -> Q) (P : list kept) c, flat_map (fun c => map f (fst c)) (P ++ [c]) = flat_map (fun c => map f (fst c)) P ++ map f (fst c).
Proof. intros. rewrite flat_map_app. cbn [flat_map]. rewrite app_nil_r. reflexivity. Qed.

Lemma copy_contour_spec : forall s c P np nc, filled P (length (fst c) + np) (S nc) s -> exists s', copy_contour s c = Some s' /\ filled (P ++ [c]) np nc s'.
Proof.
  intros s [p [[[x0 x1] y0] y1]] P np nc ((rx & Lx & Ex) & (ry & Ly & Ey) & (rn & Ln & En) & (ra & La & Ea) & (rb & Lb & Eb) & (rc & Lc & Ec) & (rd & Ld & Ed) & Ei & Ej).
  cbn [fst] in *. unfold copy_contour.
  assert (SX : put_slice (f_x s) (f_i_pt s) (map fst p) = Some ((flat_map (fun c => map fst (fst c)) P ++ map fst p) ++ skipn (length (map fst p)) rx)).
  { rewrite Ex, Ei. rewrite <- (flat_len fst). apply put_slice_at. rewrite map_length, Lx. apply Nat.le_add_r. }
  assert (SY : put_slice (f_y s) (f_i_pt s) (map snd p) = Some ((flat_map (fun c => map snd (fst c)) P ++ map snd p) ++ skipn (length (map snd p)) ry)).
  { rewrite Ey, Ei. rewrite <- (flat_len snd). apply put_slice_at. rewrite map_length, Ly. apply Nat.le_add_r. }
  rewrite SX, SY. cbn [bind].
  assert (ST : forall B (g : kept -> B) buf r v, buf = map g P ++ r -> length r = S nc -> store buf (f_i_c s) v = Some ((map g P ++ [v]) ++ skipn 1 r)).
  { intros B g buf r v -> Lr. rewrite Ej. rewrite <- (map_length g P). apply store_at. lia. }
  rewrite (ST _ _ _ _ x0 Ea La), (ST _ _ _ _ y0 Ec Lc), (ST _ _ _ _ x1 Eb Lb), (ST _ _ _ _ y1 Ed Ld), (ST _ _ _ _ (length p) En Ln). cbn [bind].
  eexists. split; [reflexivity|].
  assert (SN : forall B (g : kept -> B) v r, g (p, (x0, x1, y0, y1)) = v -> length r = S nc -> exists r', length r' = nc /\ (map g P ++ [v]) ++ skipn 1 r = map g (P ++ [(p, (x0, x1, y0, y1))]) ++ r').
  { intros B g v r E Lr. exists (skipn 1 r). split; [rewrite skipn_length; lia|]. rewrite map_app. cbn [map]. rewrite E. reflexivity. }
  unfold filled. cbn [f_x f_y f_nb f_x_min f_x_max f_y_min f_y_max f_i_pt f_i_c].
  split. { eexists. split; [|rewrite flat_snoc; reflexivity]. rewrite skipn_length, map_length, Lx. rewrite Nat.add_comm. apply Nat.add_sub. }
  split. { eexists. split; [|rewrite flat_snoc; reflexivity]. rewrite skipn_length, map_length, Ly. rewrite Nat.add_comm. apply Nat.add_sub. }
  split; [apply (SN _ (fun c => length (fst c))); [reflexivity|exact Ln]|].
  split; [apply SN; [reflexivity|exact La]|].
  split; [apply SN; [reflexivity|exact Lb]|].
  split; [apply SN; [reflexivity|exact Lc]|].
  split; [apply SN; [reflexivity|exact Ld]|].
  split; [|rewrite app_length, Ej; reflexivity].
  rewrite map_app, sum_list_app, Ei. cbn [map fst]. change (sum_list [length p]) with (length p + 0). lia.
Qed.
Lemma copy_contours_spec : forall cs s P np nc, filled P (sum_list (map (fun c => length (fst c)) cs) + np) (length cs + nc) s ->
  exists s', copy_contours s cs = Some s' /\ filled (P ++ cs) np nc s'.
Proof.
  induction cs as [|c cs IH]; intros s P np nc F; cbn [copy_contours].
  - exists s. split; [reflexivity|]. rewrite app_nil_r. exact F.
  - destruct (copy_contour_spec s c P (sum_list (map (fun c => length (fst c)) cs) + np) (length cs + nc)) as (s' & E & F').
    { replace (length (fst c) + (sum_list (map (fun c => length (fst c)) cs) + np)) with (sum_list (map (fun c => length (fst c)) (c :: cs)) + np); [exact F|].
      cbn [map]. change (sum_list (length (fst c) :: map (fun c => length (fst c)) cs)) with (length (fst c) + sum_list (map (fun c => length (fst c)) cs)). lia. }
    rewrite E. cbn [bind]. destruct (IH s' (P ++ [c]) np nc F') as (s2 & E2 & F2). exists s2. split; [exact E2|]. rewrite <- app_assoc in F2. exact F2.
Qed.
Lemma copy_levels_spec : forall ls s P li, filled P (sum_list (map (fun cs => sum_list (map (fun c => length (fst c)) cs)) ls)) (sum_list (map (@length _) ls)) s ->
  forall r, length r = length ls ->
  exists s', copy_levels s (li ++ r) (length li) ls = Some (s', li ++ excl_sums (length P) (map (@length _) ls)) /\ filled (P ++ concat ls) 0 0 s'.
Proof.
  induction ls as [|cs ls IH]; intros s P li F r R; cbn [copy_levels].
  - destruct r; [|discriminate]. exists s. cbn [map excl_sums concat]. rewrite !app_nil_r. split; [reflexivity|]. exact F.
  - cbn [length] in R. rewrite (store_at _ li r) by lia. cbn [bind].
    destruct (copy_contours_spec cs s P (sum_list (map (fun cs => sum_list (map (fun c => length (fst c)) cs)) ls)) (sum_list (map (@length _) ls)) F) as (s' & E & F').
    rewrite E. cbn [bind]. destruct (IH s' (P ++ cs) (li ++ [f_i_c s]) F' (skipn 1 r)) as (s2 & E2 & F2). { rewrite skipn_length. lia. }
    exists s2. split.
    + rewrite app_length in E2. cbn [length] in E2. rewrite E2. rewrite <- app_assoc. f_equal. f_equal. cbn [app map excl_sums]. f_equal. rewrite app_length.
      destruct F as (_ & _ & _ & _ & _ & _ & _ & _ & Ej). rewrite Ej. reflexivity.
    + cbn [concat]. rewrite app_assoc. exact F2.
Qed.

Lemma steps_excl : forall ns acc, ns <> [] -> exists m, last (excl_sums acc ns) 0 = m /\ nth_error (excl_sums acc ns) (length ns - 1) = Some m /\
  steps (excl_sums acc ns) ++ [acc + sum_list ns - m] = ns.
Proof.
  induction ns as [|n ns IH]; intros acc H; [contradiction|]. destruct ns as [|n' ns].
  - cbn [excl_sums steps app length last]. exists acc. split; [reflexivity|]. split; [reflexivity|]. f_equal. change (sum_list [n]) with (n + 0). lia.
  - destruct (IH (acc + n)) as (m & A & B & C); [discriminate|]. exists m. change (excl_sums acc (n :: n' :: ns)) with (acc :: excl_sums (acc + n) (n' :: ns)).
    split; [exact A|]. split.
    + replace (length (n :: n' :: ns) - 1) with (S (length (n' :: ns) - 1)) by (cbn [length]; lia). exact B.
    + change (sum_list (n :: n' :: ns)) with (n + sum_list (n' :: ns)). rewrite Nat.add_assoc.
      change (excl_sums (acc + n) (n' :: ns)) with ((acc + n) :: excl_sums (acc + n + n') ns) in *.
      change (steps (acc :: (acc + n) :: excl_sums (acc + n + n') ns)) with ((acc + n - acc) :: steps ((acc + n) :: excl_sums (acc + n + n') ns)).
      cbn [app]. rewrite C. f_equal. lia.
Qed.

Lemma fill_tables_spec : forall junk junkn ls, ls <> [] -> fill_tables junk junkn ls = Some
  {| t_x := flat_map (fun c => map fst (fst c)) (concat ls); t_y := flat_map (fun c => map snd (fst c)) (concat ls);
     t_level_index := excl_sums 0 (map (@length _) ls); t_nb_contour := map (@length _) ls;
     t_nb_pt := map (fun c => length (fst c)) (concat ls); t_contour_index := excl_sums 0 (map (fun c => length (fst c)) (concat ls));
     t_x_min := map kx0 (concat ls); t_x_max := map kx1 (concat ls); t_y_min := map ky0 (concat ls); t_y_max := map ky1 (concat ls) |}.
Proof.
  intros junk junkn ls H. unfold fill_tables.
  set (np := sum_list (map (fun cs => sum_list (map (fun c => length (fst c)) cs)) ls)). set (nc := sum_list (map (@length kept) ls)).
  cbv zeta.
  destruct (copy_levels_spec ls {| f_x := repeat junk np; f_y := repeat junk np; f_nb := repeat junkn nc; f_x_min := repeat junk nc; f_x_max := repeat junk nc;
    f_y_min := repeat junk nc; f_y_max := repeat junk nc; f_i_pt := 0; f_i_c := 0 |} [] []) with (r := repeat junkn (length ls)) as (s & E & F).
  { unfold filled. cbn [f_x f_y f_nb f_x_min f_x_max f_y_min f_y_max f_i_pt f_i_c flat_map map app].
    repeat (split; [eexists; split; [apply repeat_length|reflexivity]|]). split; reflexivity. }
  { apply repeat_length. }
  change (copy_levels _ (repeat junkn (length ls)) 0 ls) with (copy_levels {| f_x := repeat junk np; f_y := repeat junk np; f_nb := repeat junkn nc; f_x_min := repeat junk nc; f_x_max := repeat junk nc;
    f_y_min := repeat junk nc; f_y_max := repeat junk nc; f_i_pt := 0; f_i_c := 0 |} (@nil nat ++ repeat junkn (length ls)) (length (@nil nat)) ls).
  rewrite E. cbn [bind app length]. clear E.
  assert (ST : store (excl_sums 0 (map (@length kept) ls)) 0 0 = Some (excl_sums 0 (map (@length kept) ls))). { destruct ls; [contradiction|]. reflexivity. }
  rewrite ST. cbn [bind]. rewrite excl_sums_length, map_length.
  destruct (steps_excl (map (@length kept) ls) 0) as (m & _ & B & C). { destruct ls; [contradiction|discriminate]. }
  rewrite map_length in B. rewrite B. cbn [bind]. change (0 + sum_list (map (@length kept) ls)) with nc in C.
  cbn [app] in F. destruct F as ((rx & Lx & Ex) & (ry & Ly & Ey) & (rn & Ln & En) & (ra & La & Ea) & (rb & Lb & Eb) & (rc & Lc & Ec) & (rd & Ld & Ed) & Ei & Ej).
  apply length_zero_iff_nil in Lx, Ly, Ln, La, Lb, Lc, Ld. subst. rewrite app_nil_r in *. rewrite Ex, Ey, En, Ea, Eb, Ec, Ed, C. reflexivity.
Qed.
Lemma fill_tables_nil : forall junk junkn, fill_tables junk junkn [] = None.
Proof. reflexivity. Qed.

(** ** Looking a contour up *)
Lemma nth_concat : forall A (ls : list (list A)) l ps i a, nth_error ls l = Some ps -> nth_error ps i = Some a ->
  nth_error (concat ls) (sum_list (firstn l (map (@length _) ls)) + i) = Some a.
Proof.
  induction ls as [|p ls IH]; intros [|l] ps i a H1 H2; try discriminate.
  - cbn in H1. apply Some_inj in H1. subst p. cbn [concat map firstn]. change (sum_list []) with 0. cbn [Nat.add].
    rewrite nth_error_app1; [exact H2|]. apply nth_error_Some. rewrite H2. discriminate.
  - cbn in H1. cbn [concat map firstn]. change (sum_list (length p :: firstn l (map (@length _) ls))) with (length p + sum_list (firstn l (map (@length _) ls))).
    rewrite nth_error_app2 by lia. rewrite <- (IH l ps i a H1 H2). f_equal. lia.
Qed.
Lemma nth_flat : forall (f : point -> Q) (P : list kept) g c j v, nth_error P g = Some c -> nth_error (fst c) j = Some v ->
  nth_error (flat_map (fun c => map f (fst c)) P) (sum_list (firstn g (map (fun c => length (fst c)) P)) + j) = Some (f v).
Proof.
  intros f P g c j v H1 H2. rewrite flat_map_concat_map.
  replace (map (fun c => length (fst c)) P) with (map (@length _) (map (fun c : kept => map f (fst c)) P)).
  2:{ rewrite map_map. apply map_ext. intros a. apply map_length. }
  apply (nth_concat _ _ g (map f (fst c))); [rewrite nth_error_map, H1; reflexivity|]. rewrite nth_error_map, H2. reflexivity.
Qed.
