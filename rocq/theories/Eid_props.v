(** C61 (detected eddies) and C89 (centre and amplitude of a contour). *)
From Coq Require Import List Arith ZArith QArith Qabs Qround Bool Lia Lqa Relations.
From Verif Require Import Base Qaux Spec Eid_model Eid_spec Eid_proofs Eid_run Eid_amp Eid_group Eid_win Eid_levels.
Import ListNotations.
Local Close Scope Q_scope.
Local Open Scope nat_scope.

Section C61.
Context {path : Type} (G : setting path) (nx ny : nat) (sea0 : list (list bool)).
(** What the contours are drawn from: a grid of heights with its mask, one height per level. *)
Definition well_formed : Prop := rect nx ny (g_data G) /\ rect nx ny sea0 /\ length (g_cvalues G) = length (g_paths G) /\ length (g_levels G) = length (g_paths G).

(** No cell is in two eddies, whatever their sense, and no cell of an eddy is masked. *)
Theorem C61_disjoint : forall A C, well_formed -> identification G sea0 = Some (A, C) ->
  (forall a b e e', a <> b -> nth_error (A ++ C) a = Some e -> nth_error (A ++ C) b = Some e' -> forall cell, covers G nx ny e cell -> ~ covers G nx ny e' cell) /\
  (forall e cell, In e (A ++ C) -> covers G nx ny e cell -> value_at sea0 cell false).
Proof.
  intros A C (RD & RZ & LC & LL) H. destruct (identification_spec G nx ny sea0 RD RZ LC LL A C H) as (sA & sC & ksA & ksC & _ & [[_ _ D F] _] & _). split.
  - intros a b e e' N EA EB cell X Y. destruct (Nat.lt_total a b) as [L|[L|L]]; [|contradiction|].
    + destruct (D a b e e' L EA EB) as [Z _]. exact (Z cell X Y).
    + destruct (D b a e' e L EB EA) as [Z _]. exact (Z cell Y X).
  - exact F.
Qed.
(** Each eddy meets the criteria, with the cells of the eddies found before it masked: anticyclones first, in the
    order of the list, then cyclones. *)
Theorem C61_criteria : forall A C, well_formed -> identification G sea0 = Some (A, C) ->
  (forall r1 e r2, A = r1 ++ e :: r2 -> accepted G nx ny sea0 true r1 e) /\ (forall r1 e r2, C = r1 ++ e :: r2 -> accepted G nx ny sea0 false (A ++ r1) e).
Proof.
  intros A C (RD & RZ & LC & LL) H. destruct (identification_spec G nx ny sea0 RD RZ LC LL A C H) as (sA & sC & ksA & ksC & (_ & DA & _) & (_ & DC & _) & _). split.
  - intros r1 e r2 E. exact (proj1 (proj2 (DA r1 e r2 E))).
  - intros r1 e r2 E. exact (proj1 (proj2 (DC r1 e r2 E))).
Qed.
(** The effective contour of an eddy is never a contour of the profile of an eddy found before; no two eddies have the same one. *)
Theorem C61_once : forall A C, well_formed -> identification G sea0 = Some (A, C) ->
  (forall a b e e', a < b -> nth_error (A ++ C) a = Some e -> nth_error (A ++ C) b = Some e' -> ~ In (contour_of e') (e_contours e)) /\
  NoDup (map contour_of (A ++ C)).
Proof.
  intros A C (RD & RZ & LC & LL) H. destruct (identification_spec G nx ny sea0 RD RZ LC LL A C H) as (sA & sC & ksA & ksC & (_ & DA & _) & ([_ _ D _] & DC & _) & _).
  assert (ON : forall a b e e', a < b -> nth_error (A ++ C) a = Some e -> nth_error (A ++ C) b = Some e' -> ~ In (contour_of e') (e_contours e)) by (intros a b e e' L EA EB; exact (proj2 (D a b e e' L EA EB))).
  assert (OWN : forall e, In e (A ++ C) -> In (contour_of e) (e_contours e)).
  { intros e I. apply in_app_or in I as [I|I]; apply in_split in I as (r1 & r2 & E); [destruct (DA r1 e r2 E) as (_ & _ & GP)|destruct (DC r1 e r2 E) as (_ & _ & GP)]; destruct GP as [GP _]; exact (nth_error_In _ _ GP). }
  split; [exact ON|]. apply NoDup_nth_error. intros a b L E. rewrite map_length in L. rewrite !nth_error_map in E. destruct (nth_error_lt_Some (A ++ C) a L) as [e EA]. rewrite EA in E. cbn in E. destruct (nth_error (A ++ C) b) as [e'|] eqn:EB; [|discriminate E]. cbn in E. apply Some_inj in E.
  destruct (Nat.lt_total a b) as [X|[X|X]]; [exfalso|exact X|exfalso].
  - apply (ON a b e e' X EA EB). rewrite <- E. apply OWN. exact (nth_error_In _ _ EA).
  - apply (ON b a e' e X EB EA). rewrite E. apply OWN. exact (nth_error_In _ _ EB).
Qed.
(** The profile of speeds, the contour of the largest speed and the inner contour. *)
Theorem C61_profile : forall A C, well_formed -> identification G sea0 = Some (A, C) -> Forall (good_profile G true) A /\ Forall (good_profile G false) C.
Proof.
  intros A C (RD & RZ & LC & LL) H. destruct (identification_spec G nx ny sea0 RD RZ LC LL A C H) as (sA & sC & ksA & ksC & (_ & DA & _) & (_ & DC & _) & _).
  split; apply Forall_forall; intros e I; apply in_split in I as (r1 & r2 & E); [exact (proj2 (proj2 (DA r1 e r2 E)))|exact (proj2 (proj2 (DC r1 e r2 E)))].
Qed.
(** Every contour is examined in both searches: it is the contour of an eddy or there is a reason. *)
Theorem C61_complete : forall A C, well_formed -> identification G sea0 = Some (A, C) -> forall k c, is_path G k c ->
  ((exists e, In e A /\ contour_of e = k) \/
   exists r1 r2 height level, A = r1 ++ r2 /\ nth_error (g_cvalues G) (fst k) = Some height /\ nth_error (g_levels G) (fst k) = Some level /\ refused G nx ny sea0 true r1 k c height level) /\
  ((exists e, In e C /\ contour_of e = k) \/
   exists r1 r2 height level, C = r1 ++ r2 /\ nth_error (g_cvalues G) (fst k) = Some height /\ nth_error (g_levels G) (fst k) = Some level /\ refused G nx ny sea0 false (A ++ r1) k c height level).
Proof.
  intros A C (RD & RZ & LC & LL) H k c P. destruct (identification_spec G nx ny sea0 RD RZ LC LL A C H) as (sA & sC & ksA & ksC & (_ & _ & CA) & (_ & _ & CC) & IK). destruct (IK k c P) as [IA IC]. exact (conj (CA k c IA P) (CC k c IC P)).
Qed.
End C61.
Print Assumptions C61_disjoint.
Print Assumptions C61_criteria.
Print Assumptions C61_once.
Print Assumptions C61_profile.
Print Assumptions C61_complete.

(** The levels: multiples of the step, from the one at or below the lowest height to the first above the highest. *)
Theorem C61_levels : forall z_min z_max step, (0 < step)%Q -> (z_min <= z_max)%Q ->
  exists k n, 2 <= n /\ length (levels_of z_min z_max step) = n /\
    (forall i, i < n -> exists z, nth_error (levels_of z_min z_max step) i = Some z /\ (z == inject_Z (k + Z.of_nat i) * step)%Q) /\
    (inject_Z k * step <= z_min < inject_Z (k + 1) * step)%Q /\ (inject_Z (k + Z.of_nat n - 2) * step <= z_max < inject_Z (k + Z.of_nat n - 1) * step)%Q.
Proof. intros z_min z_max step S L. exact (levels_spec z_min z_max step (fun _ => L) S). Qed.
Print Assumptions C61_levels.
Example C61_levels_case : map Qred (levels_of (-(7 # 100)) (1 # 10) (1 # 20)) = [-(1 # 10); -(1 # 20); 0; 1 # 20; 1 # 10; 3 # 20]%Q.
Proof. vm_compute. reflexivity. Qed.

(** A bump of height 3 and a hollow of depth 3; contours given by their pixels. *)
Definition case_data : list (list Q) :=
  [[0;0;0;0;0]; [0;2;2;2;0]; [0;2;3;2;0]; [0;2;2;2;0]; [0;0;0;0;0]; [0;-(2);-(2);-(2);0]; [0;-(2);-(3);-(2);0]; [0;-(2);-(2);-(2);0]; [0;0;0;0;0]]%Q.
Definition nine (x : Z) : list (Z * Z) := list_prod [x - 1; x; x + 1]%Z [1; 2; 3]%Z.
Definition case_setting : setting (list (Z * Z)) :=
  {| g_shape_error_of := fun p => Some (inject_Z (Z.of_nat (length p))); g_pixels_of := fun p => p; g_box_of := fun _ => ((0, 9), (0, 5))%Z;
     g_speed_of := fun p => (10 - inject_Z (Z.of_nat (length p)))%Q; g_nearest := fun l lon lat => if l <? 2 then (if Qlt_bool 4 lon then Some 0 else None) else if Qlt_bool lon 4 then Some 0 else None;
     g_contain := fun _ _ => true; g_paths := [[[(6, 2)]%Z]; [nine 6]; [nine 2; [(4, 2)]%Z]; [nine 2]; [[(2, 2)]%Z]];
     g_cvalues := [-(5 # 2); -(1); 1; 3 # 2; 5 # 2]%Q; g_levels := [-(5 # 2); -(1); 1; 3 # 2; 5 # 2]%Q;
     g_xs := [0; 1; 2; 3; 4; 5; 6; 7; 8]%Q; g_ys := [0; 1; 2; 3; 4]%Q; g_circular := false; g_data := case_data;
     g_shape_error := 55; g_pixel_min := 4; g_pixel_max := 100; g_step := (1 # 2)%Q; g_mle := 1; g_nb_step_min := 2; g_nb_step_to_be_mle := 2 |}.
Example C61_case : well_formed case_setting 9 5 (repeat (repeat false 5) 9) /\
  exists a c, identification case_setting (repeat (repeat false 5) 9) = Some ([a], [c]) /\
    contour_of a = (2, 0) /\ e_contours a = [(2, 0); (3, 0); (4, 0)] /\ e_speed_contour a = (3, 0) /\ e_inner_contour a = (4, 0) /\ Qred (e_amplitude a) = 2%Q /\ (e_lon a, e_lat a) = (2, 2)%Q /\
    contour_of c = (1, 0) /\ e_contours c = [(1, 0); (0, 0)] /\ Qred (e_amplitude c) = 2%Q /\ (e_lon c, e_lat c) = (6, 2)%Q.
Proof.
  split.
  - split; [split; [reflexivity|intros r I; repeat (destruct I as [<-|I]; [reflexivity|]); destruct I]|]. split; [split; [reflexivity|intros r I; apply repeat_spec in I; subst; reflexivity]|]. split; reflexivity.
  - eexists. eexists. split; [vm_compute; reflexivity|]. vm_compute. repeat split.
Qed.

(** ** C89 *)

Section C89.
Variables (nx ny : nat) (b : box) (below : bool) (data : list (list Q)) (mask : list (list bool)) (pixels : list (Z * Z)) (h_0 level interval : Q) (mle : nat).
Notation s := (if below then 1 else -(1))%Q.
Notation cell p := (cell_of nx ny p).
(** The window holds the pixels of the contour. *)
Definition window_of : Prop := valid_box nx ny b /\ rect nx ny data /\ rect nx ny mask /\ (forall p, In p pixels -> in_box nx ny b p) /\
  (forall c v, value_at data c v -> (Qabs v <= inject_Z 20000000000)%Q).
Definition clean : Prop := forall p, In p pixels -> value_at mask (cell p) false.
(** No height on the wrong side of the contour by more than a hundred millionth. *)
Definition on_side : Prop := forall p v, In p pixels -> value_at data (cell p) v -> ((v - h_0) * s <= 1 # 100000000)%Q.

(** A masked pixel or one on the wrong side: the contour is refused. *)
Theorem C89_refused : window_of -> (exists p, In p pixels /\ value_at mask (cell p) true) \/ (exists p v, In p pixels /\ value_at data (cell p) v /\ (1 # 100000000 < (v - h_0) * s)%Q) ->
  all_pixels below data mask b pixels h_0 level interval mle = Some None.
Proof. intros (VB & RD & RM & IB & _). exact (all_pixels_refused nx ny b VB below data mask pixels h_0 level interval mle RD RM IB). Qed.
(** Otherwise: the extrema of the contour, merged if more than [mle], the test on the deep ones, the centre at the lowest. *)
Theorem C89_amplitude : window_of -> clean -> on_side -> exists pts r vs res, all_pixels below data mask b pixels h_0 level interval mle = Some res /\
  NoDup pts /\ (forall c, In c pts <-> window_extremum nx ny b data mask pixels s c) /\
  (length pts <= mle -> r = pts) /\ (mle < length pts -> merged pts r) /\
  Forall2 (fun c v => value_at data (cell (place b c)) v) r vs /\
  (res = None <-> r = [] \/ (1 < length r /\ mle < length (filter (fun v => Qle_bool interval ((level - v) * s)) vs))) /\
  (forall centre a, res = Some (centre, a) -> exists i c v, nth_error r i = Some c /\ nth_error vs i = Some v /\ centre = place b c /\ a = Qabs (v - h_0) /\ forall u, In u vs -> (v * s <= u * s)%Q).
Proof. intros (VB & RD & RM & IB & BIG) FREE SIDE. exact (all_pixels_spec nx ny b VB below data mask pixels h_0 level interval mle RD RM IB BIG FREE SIDE). Qed.
(** At most [mle] extrema: refused only without any; the centre is the lowest of the extrema of the contour, the amplitude its distance to the contour. *)
Theorem C89_few : window_of -> clean -> on_side -> (forall l, NoDup l -> (forall c, In c l -> window_extremum nx ny b data mask pixels s c) -> length l <= mle) ->
  exists res, all_pixels below data mask b pixels h_0 level interval mle = Some res /\
  (res = None <-> forall c, ~ window_extremum nx ny b data mask pixels s c) /\
  (forall centre a, res = Some (centre, a) -> exists c v, window_extremum nx ny b data mask pixels s c /\ centre = place b c /\ value_at data (cell centre) v /\ a = Qabs (v - h_0) /\
    forall d w, window_extremum nx ny b data mask pixels s d -> value_at data (cell (place b d)) w -> (v * s <= w * s)%Q).
Proof.
  intros WO CL OS FEW. destruct (C89_amplitude WO CL OS) as (pts & r & vs & res & E & ND & SP & SMALL & _ & F2 & NO & YES). exists res. split; [exact E|].
  assert (L : length pts <= mle) by (apply FEW; [exact ND|intros c I; apply SP; exact I]). specialize (SMALL L). subst r.
  assert (LV : length vs = length pts) by (clear - F2; induction F2; cbn; [reflexivity|lia]).
  assert (FL : length (filter (fun v => Qle_bool interval ((level - v) * s)) vs) <= length vs) by (clear; induction vs as [|v vs IH]; cbn; [lia|destruct (Qle_bool _ _); cbn; lia]). split.
  - rewrite NO. split.
    + intros [->|[_ X]]; [|lia]. intros c C. apply SP in C. destruct C.
    + intros X. left. destruct pts as [|c pts]; [reflexivity|]. exfalso. apply (X c). apply SP. left. reflexivity.
  - intros centre a X. destruct (YES centre a X) as (i & c & v & I & J & -> & -> & LO).
    assert (VV : forall j d w, nth_error pts j = Some d -> nth_error vs j = Some w -> value_at data (cell (place b d)) w). { clear - F2. induction F2 as [|c0 v0 r vs X F IH]; intros [|i] d w I J; try discriminate I; cbn in I, J; [apply Some_inj in I; apply Some_inj in J; subst; exact X|exact (IH i d w I J)]. }
    exists c, v. split; [apply SP; exact (nth_error_In _ _ I)|]. split; [reflexivity|]. split; [exact (VV i c v I J)|]. split; [reflexivity|].
    intros d w D W. apply SP in D. apply In_nth_error in D as (j & D). destruct (nth_error_lt_Some vs j) as [u U]; [apply nth_error_Some_lt in D; lia|]. rewrite (value_fun data _ w u W (VV j d u D U)). apply LO. exact (nth_error_In _ _ U).
Qed.
End C89.
Print Assumptions C89_refused.
Print Assumptions C89_amplitude.
Print Assumptions C89_few.
Definition free7 : list (list bool) := repeat (repeat false 7) 7.
(** A contour of 9 pixels across the last column of a grid around the earth. *)
Definition turn_data : list (list Q) := [[0;0;-(2);-(3);-(2);0;0]; [0;0;-(2);-(2);-(2);0;0]; repeat 0 7; repeat 0 7; repeat 0 7; repeat 0 7; [0;0;-(2);-(2);-(2);0;0]]%Q.
Definition turn_pixels : list (Z * Z) := list_prod [6; 0; 1]%Z [2; 3; 4]%Z.
Ltac exists_cell i j := split; [cbn; lia|exists (i, j); split; [cbn; lia|]; split; [cbn; lia|]; split; [reflexivity|]; cbn; lia].
Example C89_case : window_of 7 7 ((5, 3), (1, 6))%Z turn_data free7 turn_pixels /\ clean 7 7 free7 turn_pixels /\ on_side 7 7 true turn_data turn_pixels (-(1)) /\
  all_pixels true turn_data free7 ((5, 3), (1, 6))%Z turn_pixels (-(1)) (-(1)) (1 # 2) 1 = Some (Some ((7, 3)%Z, 2%Q)) /\ cell_of 7 7 (7, 3)%Z = (0, 3).
Proof.
  assert (RT : rect 7 7 turn_data) by (split; [reflexivity|intros r I; repeat (destruct I as [<-|I]; [reflexivity|]); destruct I]).
  assert (ALL : forall v, In v (concat turn_data) -> (Qabs v <= inject_Z 20000000000)%Q) by (intros v I; repeat (destruct I as [<-|I]; [unfold Qle; cbn; lia|]); destruct I).
  split; [|split; [|split; [|split; reflexivity]]].
  - split; [cbn; lia|]. split; [exact RT|]. split; [split; [reflexivity|intros r I; apply repeat_spec in I; subst; reflexivity]|]. split.
    + intros p I. repeat (destruct I as [<-|I]; [|]); [exists_cell 1 1|exists_cell 1 2|exists_cell 1 3|exists_cell 2 1|exists_cell 2 2|exists_cell 2 3|exists_cell 3 1|exists_cell 3 2|exists_cell 3 3|destruct I].
    + intros c v (r & R1 & R2). apply ALL. apply in_concat. exists r. split; [exact (nth_error_In _ _ R1)|exact (nth_error_In _ _ R2)].
  - intros p I. repeat (destruct I as [<-|I]; [eexists; split; reflexivity|]). destruct I.
  - intros p v I (r & R1 & R2). repeat (destruct I as [<-|I]; [cbn in R1; apply Some_inj in R1; subst r; cbn in R2; apply Some_inj in R2; subst v; unfold Qle; cbn; lia|]). destruct I.
Qed.
(** More than [mle] extrema with a flat bottom: the centre may be a pixel out of the contour, higher than the contour, and the amplitude is then that of this pixel. *)
Theorem C89_plateau_refuted : exists data pixels centre a, all_pixels true data free7 ((0, 7), (0, 7))%Z pixels 0 0 (1 # 2) 1 = Some (Some (centre, a)) /\
  ~ In centre pixels /\ value_at data (cell_of 7 7 centre) 5%Q /\ a = 5%Q /\ (forall p v, In p pixels -> value_at data (cell_of 7 7 p) v -> v = (-(1))%Q).
Proof.
  exists [repeat 0 7; repeat 0 7; [0;0;-(1);-(1);-(1);0;0]; [0;0;-(1);5;5;0;0]; [0;0;-(1);-(1);-(1);0;0]; repeat 0 7; repeat 0 7]%Q, [(2,2);(2,3);(2,4);(3,2);(4,2);(4,3);(4,4)]%Z, (3, 3)%Z, 5%Q.
  split; [vm_compute; reflexivity|]. split; [intros I; repeat (destruct I as [E|I]; [discriminate E|]); exact I|]. split; [eexists; split; reflexivity|]. split; [reflexivity|].
  intros p v I (r & R1 & R2). repeat (destruct I as [<-|I]; [cbn in R1; apply Some_inj in R1; subst r; cbn in R2; apply Some_inj in R2; subst v; reflexivity|]). destruct I.
Qed.
Print Assumptions C89_plateau_refuted.
(** Two pixels of the bottom which touch by a corner are two extrema: the contour is refused; by a side they are one. *)
Theorem C89_corner_refuted : exists data data' pixels,
  all_pixels true data free7 ((0, 7), (0, 7))%Z pixels 0 0 (1 # 2) 1 = Some None /\
  (exists r, all_pixels true data' free7 ((0, 7), (0, 7))%Z pixels 0 0 (1 # 2) 1 = Some (Some r)) /\
  (forall p v, In p pixels -> value_at data (cell_of 7 7 p) v -> if (Z.eqb (fst p) 2 && Z.eqb (snd p) 2) || (Z.eqb (fst p) 3 && Z.eqb (snd p) 3) then v = (-(2))%Q else v = (-(1))%Q) /\
  (forall p v, In p pixels -> value_at data' (cell_of 7 7 p) v -> if (Z.eqb (fst p) 2 && Z.eqb (snd p) 2) || (Z.eqb (fst p) 2 && Z.eqb (snd p) 3) then v = (-(2))%Q else v = (-(1))%Q).
Proof.
  exists [repeat 0 7; repeat 0 7; [0;0;-(2);-(1);0;0;0]; [0;0;-(1);-(2);0;0;0]; repeat 0 7; repeat 0 7; repeat 0 7]%Q, [repeat 0 7; repeat 0 7; [0;0;-(2);-(2);0;0;0]; [0;0;-(1);-(1);0;0;0]; repeat 0 7; repeat 0 7; repeat 0 7]%Q, [(2,2);(2,3);(3,2);(3,3)]%Z.
  split; [vm_compute; reflexivity|]. split; [eexists; vm_compute; reflexivity|].
  split; intros p v I (r & R1 & R2); repeat (destruct I as [<-|I]; [cbn in R1; apply Some_inj in R1; subst r; cbn in R2; apply Some_inj in R2; subst v; reflexivity|]); destruct I.
Qed.
Print Assumptions C89_corner_refuted.
