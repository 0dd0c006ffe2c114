(** C152: names of the variables, access to the fields by their names, and names and units
    met when a file is loaded. *)
From Coq Require Import List Arith Bool String QArith Lia Permutation.
Import ListNotations.
From Verif Require Import Base Names_model.
From Verif Require Corr_model.
Open Scope string_scope.
Open Scope nat_scope.
Open Scope list_scope.

(** ** Specification *)
(** [name] is one of the names under which the files give the field [k]. *)
Definition name_of (name k : string) : Prop := exists e, In e table /\ key e = k /\ (name = nc_name e \/ In name (old e)).
(** A variable asked by the user: the included ones if there is a list of them, else those
    which are not removed. *)
Definition asked (remove include : option (list string)) (v : variable) : Prop :=
  match include with
  | Some i => In (v_name v) i
  | None => match remove with Some r => ~ In (v_name v) r | None => True end
  end.
(** Factor which takes the values of the variable to the units of the software. *)
Definition given (v : variable) : option string := match v_unit v with Some u => Some u | None => v_units v end.
Definition right_factor {U} (parse : string -> option U) (convert : U -> U -> option Q) (raw : bool) (v : variable) (k : string) (q : Q) : Prop :=
  exists e, In e table /\ key e = k /\
  ((raw = true \/ given v = None \/ units e = None \/ given v = units e
    \/ (exists i, given v = Some i /\ parse i = None) \/ (exists o, units e = Some o /\ parse o = None)) /\ q = 1%Q
   \/ raw = false /\ exists i o a b, given v = Some i /\ units e = Some o /\ i <> o /\ parse i = Some a /\ parse o = Some b /\ convert a b = Some q).

(** ** The table *)
Lemma mem_in x l : mem x l = true <-> In x l.
Proof. unfold mem. rewrite existsb_exists. split; [intros [y [I E]]; apply String.eqb_eq in E; now subst | intros I; exists x; split; [exact I | apply String.eqb_refl]]. Qed.
Lemma mem_not x l : mem x l = false <-> ~ In x l.
Proof. rewrite <- mem_in. destruct (mem x l); split; congruence. Qed.
Lemma get_in {A} (d : list (string * A)) k v : get d k = Some v -> In (k, v) d.
Proof. induction d as [| [x w] d IH]; [discriminate |]. cbn. destruct (String.eqb_spec k x) as [-> | N]; [intros [= ->]; now left | right; auto]. Qed.
Lemma get_none {A} (d : list (string * A)) k : get d k = None <-> ~ In k (map fst d).
Proof.
  induction d as [| [x w] d IH]; [cbn; intuition |]. cbn. destruct (String.eqb_spec k x) as [-> | N]; [split; [discriminate | intros B; elim B; now left] |].
  rewrite IH. split; [intros B [E | I]; [now apply N | now apply B] | intros B I; apply B; now right].
Qed.
Lemma get_some {A} (d : list (string * A)) k v : NoDup (map fst d) -> In (k, v) d -> get d k = Some v.
Proof.
  induction d as [| [x w] d IH]; [easy |]. cbn. intros ND I. apply NoDup_cons_iff in ND as [N ND].
  destruct I as [[= -> ->] | I]; [now rewrite String.eqb_refl |].
  destruct (String.eqb_spec k x) as [-> | _]; [elim N; apply in_map_iff; exists (x, v); auto | auto].
Qed.
Lemma fwd_all : forallb (fun p => existsb (fun e => String.eqb (key e) (snd p) && (String.eqb (fst p) (nc_name e) || mem (fst p) (old e))) table) (inverse table) = true.
Proof. vm_compute. reflexivity. Qed.
Lemma bwd_all : forallb (fun e => forallb (fun n => match field_of n with Some k => String.eqb k (key e) | None => false end) (nc_name e :: old e)) table = true.
Proof. vm_compute. reflexivity. Qed.
Lemma capture_all : forallb (fun p => negb (mem (fst p) (map key table)) || String.eqb (fst p) (snd p)) (inverse table) = true.
Proof. vm_compute. reflexivity. Qed.
Lemma keys_nodup : NoDup (map key table).
Proof. pose (l := map key table). fold l. let r := eval vm_compute in l in change l with r. repeat constructor; cbn; intuition discriminate. Qed.
Lemma field_of_names name k : field_of name = Some k <-> name_of name k.
Proof.
  split.
  - intros E. apply get_in in E. pose proof fwd_all as F. rewrite forallb_forall in F. apply F in E. cbn [fst snd] in E. apply existsb_exists in E as [e [I B]].
    apply andb_prop in B as [B1 B2]. apply String.eqb_eq in B1. exists e. split; [exact I |]. split; [exact B1 |].
    apply orb_prop in B2 as [B2 | B2]; [left; now apply String.eqb_eq | right; now apply mem_in].
  - intros [e [I [K N]]]. pose proof bwd_all as F. rewrite forallb_forall in F. apply F in I. rewrite forallb_forall in I.
    assert (M : In name (nc_name e :: old e)) by (destruct N as [-> | N]; [now left | now right]). apply I in M.
    destruct (field_of name); [| discriminate]. apply String.eqb_eq in M. congruence.
Qed.
Lemma not_captured name k : field_of name = Some k -> In name (map key table) -> k = name.
Proof.
  intros E I. apply get_in in E. pose proof capture_all as F. rewrite forallb_forall in F. apply F in E. cbn [fst snd] in E.
  apply mem_in in I. rewrite I in E. cbn in E. apply String.eqb_eq in E. now symmetry.
Qed.
Lemma entry_some e : In e table -> entry (key e) = Some e.
Proof.
  intros I. unfold entry. pose proof keys_nodup as ND. revert I ND. generalize table. intros t. induction t as [| x t IH]; [easy |].
  cbn [In map find]. intros I ND. apply NoDup_cons_iff in ND as [N ND]. destruct I as [-> | I]; [now rewrite String.eqb_refl |].
  destruct (String.eqb_spec (key x) (key e)) as [Q | _]; [elim N; rewrite Q; now apply in_map | auto].
Qed.
Lemma entry_in k e : entry k = Some e -> In e table /\ key e = k.
Proof. intros E. apply find_some in E as [I K]. now apply String.eqb_eq in K. Qed.
Lemma field_entry name k : field_of name = Some k -> exists e, entry k = Some e.
Proof. intros E. apply field_of_names in E as [e [I [<- _]]]. exists e. now apply entry_some. Qed.

(** Every name of a field leads to it and to nothing else; the name of a field is never
    the name in the files of another one; two fields never have the same name in the
    files written. *)
Theorem C152_names :
  (forall name k, field_of name = Some k <-> name_of name k) /\
  (forall name k, name_of name k -> In name (map key table) -> k = name) /\
  (forall e e', In e table -> In e' table -> nc_name e = nc_name e' -> e = e').
Proof.
  split; [exact field_of_names |]. split; [intros name k N; now apply not_captured, field_of_names |].
  intros e e' I I' E. assert (A : field_of (nc_name e) = Some (key e)) by (apply field_of_names; exists e; auto).
  assert (B : field_of (nc_name e') = Some (key e')) by (apply field_of_names; exists e'; auto).
  rewrite E in A. rewrite A in B. injection B as B. apply entry_some in I. apply entry_some in I'. congruence.
Qed.
Print Assumptions C152_names.
Example C152_names_ex : field_of "Lon" = Some "lon" /\ field_of "effective_radius" = Some "radius_e" /\ field_of "radius" = None /\ field_of "eke" = None.
Proof. vm_compute. auto. Qed.

(** ** Access *)
Theorem C152_access : forall C (els : list string) (obs : list (string * C)) name k,
  (forall x, In x els <-> In x (map fst obs)) -> (forall x, In x els -> In x (map key table)) ->
  name_of name k \/ name = k /\ In k (map key table) ->
  (forall c, get obs k = Some c -> getitem els obs name = Column c /\ getattr els obs name = Column c) /\
  (get obs k = None -> forall c, getitem els obs name <> Column c /\ getattr els obs name <> Column c).
Proof.
  intros C els obs name k EO EK N. assert (O : forall x, In x els -> exists c, get obs x = Some c).
  { intros x I. apply EO in I. destruct (get obs x) as [c |] eqn:G; [eauto | now apply get_none in G]. }
  unfold getitem, getattr. destruct (mem name els) eqn:M.
  - apply mem_in in M. assert (k = name) as -> by (destruct N as [N | [N _]]; [apply (not_captured name); [now apply field_of_names | auto] | auto]).
    destruct (O _ M) as [c G]. unfold of_obs. rewrite G. split; [intros c' [= ->]; auto | discriminate].
  - apply mem_not in M. destruct N as [N | [-> KT]].
    + apply field_of_names in N. rewrite N. unfold of_obs. split; [intros c ->; auto | intros ->; split; discriminate].
    + assert (G : get obs k = None) by (apply get_none; now rewrite <- EO). rewrite G. split; [discriminate |]. intros _ c.
      destruct (field_of k) as [k' |] eqn:F.
      * pose proof (not_captured _ _ F KT). subst k'. unfold of_obs. rewrite G. split; discriminate.
      * destruct (mem k ["lifetime"; "age"]); split; discriminate.
Qed.
Print Assumptions C152_access.
Example C152_access_ex :
  let obs := [("lon", [1]); ("radius_e", [2])] in
  getitem ["lon"; "radius_e"] obs "Dia" = Column [2] /\ getattr ["lon"; "radius_e"] obs "longitude" = Column [1] /\ getitem ["lon"; "radius_e"] obs "lon" = Column [1]
  /\ getitem ["lon"; "radius_e"] obs "latitude" = No_field.
Proof. vm_compute. auto. Qed.

(** A name which belongs to no field gives the error of the class, except lifetime and age
    with eddies[name]. *)
Theorem C152_no_name : forall C (els : list string) (obs : list (string * C)) name,
  ~ In name els -> (forall k, ~ name_of name k) ->
  getattr els obs name = Unknown /\ has_attr els obs name = Some false /\
  getitem els obs name = (if string_dec name "lifetime" then Attribute name else if string_dec name "age" then Attribute name else Unknown).
Proof.
  intros C els obs name M N. apply mem_not in M. assert (F : field_of name = None) by (destruct (field_of name) as [k |] eqn:F; [elim (N k); now apply field_of_names | reflexivity]).
  unfold has_attr, getitem, getattr. rewrite M, F. split; [reflexivity |]. split; [reflexivity |]. unfold mem. cbn [existsb].
  destruct (string_dec name "lifetime") as [-> | A]; [reflexivity |]. destruct (string_dec name "age") as [-> | B]; [reflexivity |].
  apply String.eqb_neq in A, B. now rewrite A, B.
Qed.
Print Assumptions C152_no_name.
Example C152_no_name_ex : getitem ["lon"] [("lon", 1)] "eke" = Unknown /\ getitem ["lon"] [("lon", 1)] "age" = Attribute "age".
Proof. vm_compute. auto. Qed.

(** hasattr(eddies, name) does not answer for the names of a field which the dataset does
    not have: the error of the array goes through. *)
Theorem C152_hasattr_refuted : forall C (els : list string) (obs : list (string * C)) name k,
  (forall x, In x els <-> In x (map fst obs)) -> (forall x, In x els -> In x (map key table)) ->
  name_of name k -> get obs k = None -> has_attr els obs name = None.
Proof.
  intros C els obs name k EO EK N G. pose proof (C152_access C els obs name k EO EK (or_introl N)) as [_ A]. specialize (A G).
  unfold has_attr, getattr in *. apply field_of_names in N. destruct (mem name els) eqn:M.
  - apply mem_in in M. assert (k = name) by (apply (not_captured name); auto). subst k. apply EO in M. now apply get_none in G.
  - rewrite N. unfold of_obs. now rewrite G.
Qed.
Print Assumptions C152_hasattr_refuted.
Example C152_hasattr_ex : has_attr ["lon"] [("lon", 1)] "longitude_max" = None /\ has_attr ["lon"] [("lon", 1)] "longitude" = Some true.
Proof. vm_compute. auto. Qed.

(** ** Load *)
Section Load.
Context {U : Type}.
Variables (parse : string -> option U) (convert : U -> U -> option Q).
Lemma sequence_forall {A} (l : list (option A)) r : Corr_model.sequence l = Some r -> Forall2 (fun o a => o = Some a) l r.
Proof.
  revert r. induction l as [| x l IH]; cbn; intros r; [intros [= <-]; constructor |].
  destruct x as [a |]; [cbn | discriminate]. destruct (Corr_model.sequence l) as [r' |]; [cbn | discriminate]. intros [= <-]. constructor; auto.
Qed.
Lemma sequence_total {A} (l : list (option A)) : (forall o, In o l -> exists a, o = Some a) -> exists r, Corr_model.sequence l = Some r.
Proof.
  induction l as [| x l IH]; cbn; intros T; [eauto |]. destruct (T x (or_introl eq_refl)) as [a ->]. destruct IH as [r ->]; [auto |]. cbn. eauto.
Qed.
Lemma sequence_in {A B} (f : A -> option B) (l : list A) r b : Corr_model.sequence (map f l) = Some r -> In b r <-> exists a, In a l /\ f a = Some b.
Proof.
  intros E. revert r E. induction l as [| x l IH]; cbn; intros r; [intros [= <-]; split; [easy | intros [a [[] _]]] |].
  destruct (f x) as [y |] eqn:F; [cbn | discriminate]. destruct (Corr_model.sequence (map f l)) as [r' |]; [cbn | discriminate].
  intros [= <-]. specialize (IH _ eq_refl). cbn. rewrite IH. split.
  - intros [<- | [a [I E]]]; [exists x; auto | exists a; auto].
  - intros [a [[<- | I] E]]; [left; congruence | right; eauto].
Qed.
Lemma chosen_in l remove include v : In v (build_var_list l remove include) <-> In v l /\ asked remove include v.
Proof.
  unfold build_var_list, asked. destruct include as [i |]; [rewrite filter_In, mem_in; reflexivity |].
  destruct remove as [r |]; [rewrite filter_In; rewrite negb_true_iff, mem_not; reflexivity | tauto].
Qed.
Lemma set_get obs k c obs' : set_column obs k c = Some obs' -> get obs' k = Some c /\ (forall x, x <> k -> get obs' x = get obs x) /\ map fst obs' = map fst obs
  /\ (exists w, get obs k = Some w /\ List.length w = List.length c).
Proof.
  revert obs'. induction obs as [| [x w] obs IH]; [discriminate |]. cbn [set_column get map fst]. intros obs'. destruct (String.eqb_spec k x) as [-> | N].
  - destruct (Nat.eqb_spec (List.length c) (List.length w)); [| discriminate]. intros [= <-]. cbn. rewrite String.eqb_refl. repeat split; eauto.
    intros y M. apply String.eqb_neq in M. now rewrite M.
  - destruct (set_column obs k c) as [r |]; [| discriminate]. cbn. intros [= <-]. destruct (IH _ eq_refl) as [G [O [K L]]]. cbn.
    pose proof N as N'. apply String.eqb_neq in N'. rewrite N'. repeat split; auto; [| now rewrite K]. intros y M. destruct (String.eqb y x); auto.
Qed.
Lemma set_total obs k c w : get obs k = Some w -> List.length w = List.length c -> exists obs', set_column obs k c = Some obs'.
Proof.
  induction obs as [| [x u] obs IH]; [discriminate |]. cbn. destruct (String.eqb_spec k x) as [-> | N].
  - intros [= ->] ->. rewrite Nat.eqb_refl. eauto.
  - intros G L. destruct (IH G L) as [r ->]. cbn. eauto.
Qed.
Lemma factor_right raw v k q : factor parse convert raw v k = Some q -> (exists e, entry k = Some e) -> right_factor parse convert raw v k q.
Proof.
  unfold factor, right_factor. intros F [e E]. pose proof (entry_in _ _ E) as [I K]. exists e. split; [exact I |]. split; [exact K |]. fold (given v) in F.
  destruct raw; [injection F as <-; left; auto |]. rewrite E in F. cbn [bind] in F. unfold compare_units in F.
  destruct (units e) as [o |] eqn:UO; [| injection F as <-; left; intuition]. destruct (given v) as [i |] eqn:GI; [| injection F as <-; left; intuition].
  destruct (String.eqb_spec o i) as [-> | N]; [injection F as <-; left; intuition |].
  destruct (parse i) as [a |] eqn:PI; [| injection F as <-; left; split; [do 4 right; left; eauto | reflexivity]].
  destruct (parse o) as [b |] eqn:PO; [| injection F as <-; left; split; [do 5 right; eauto | reflexivity]].
  right. split; [reflexivity |]. exists i, o, a, b. repeat split; auto.
Qed.
Lemma right_factor_is raw v k q : right_factor parse convert raw v k q -> factor parse convert raw v k = Some q.
Proof.
  intros [e [I [<- H]]]. unfold factor. fold (given v). rewrite (entry_some e I). cbn [bind]. destruct raw; [destruct H as [[_ ->] | [? _]]; [reflexivity | discriminate] |].
  unfold compare_units. destruct H as [[H ->] | [_ [i [o [a [b [G [UO [N [PI [PO CV]]]]]]]]]]].
  - destruct (units e) as [o |]; [| reflexivity]. destruct (given v) as [i |]; [| reflexivity]. destruct (String.eqb_spec o i) as [| N]; [reflexivity |].
    destruct H as [H | [H | [H | [H | [[j [[= <-] ->]] | [j [[= <-] ->]]]]]]]; try discriminate; [congruence | reflexivity | destruct (parse i); reflexivity].
  - rewrite G, UO, PI, PO. destruct (String.eqb_spec o i); [congruence | exact CV].
Qed.
Definition converted (q : Q) (c r : list (list Q)) : Prop := Forall2 (Forall2 (fun y x => (y == x * q)%Q)) c r.
Lemma convert_rows q r : converted q (if Qeq_bool q 1 then r else map (map (fun x => Qmult x q)) r) r.
Proof.
  unfold converted. destruct (Qeq_bool q 1) eqn:E.
  - apply Qeq_bool_iff in E. induction r as [| x r IH]; constructor; [| exact IH]. induction x; constructor; [| assumption]. rewrite E. ring.
  - induction r as [| x r IH]; constructor; [| exact IH]. induction x; constructor; [reflexivity | assumption].
Qed.
Lemma fill_keys raw l obs obs' : fill parse convert raw l obs = Some obs' -> map fst obs' = map fst obs.
Proof.
  revert obs. induction l as [| v l IH]; cbn [fill]; intros obs; [intros [= <-]; reflexivity |].
  destruct (field_of (v_name v)) as [k |]; [cbn [bind] | discriminate]. destruct (factor parse convert raw v k) as [q |]; [cbn [bind] | discriminate].
  destruct (set_column obs k _) as [o |] eqn:SC; [cbn [bind] | discriminate]. intros F. apply IH in F. apply set_get in SC as [_ [_ [K _]]]. congruence.
Qed.
Lemma fill_other raw l obs obs' k : fill parse convert raw l obs = Some obs' -> (forall v, In v l -> field_of (v_name v) <> Some k) -> get obs' k = get obs k.
Proof.
  revert obs. induction l as [| v l IH]; cbn [fill]; intros obs; [intros [= <-]; reflexivity |].
  destruct (field_of (v_name v)) as [x |] eqn:FO; [cbn [bind] | discriminate]. destruct (factor parse convert raw v x) as [q |]; [cbn [bind] | discriminate].
  destruct (set_column obs x _) as [o |] eqn:SC; [cbn [bind] | discriminate]. intros F N. apply IH in F; [| intros w I; apply N; now right].
  apply set_get in SC as [_ [O _]]. rewrite F. apply O. intros ->. apply (N v); [now left | exact FO].
Qed.
Lemma fill_last raw l1 v l2 obs obs' k : fill parse convert raw (l1 ++ v :: l2) obs = Some obs' -> field_of (v_name v) = Some k ->
  (forall w, In w l2 -> field_of (v_name w) <> Some k) -> exists q c, right_factor parse convert raw v k q /\ get obs' k = Some c /\ converted q c (rows v).
Proof.
  revert obs. induction l1 as [| x l1 IH]; cbn [app fill]; intros obs F FO N.
  - rewrite FO in F. cbn [bind] in F. destruct (factor parse convert raw v k) as [q |] eqn:FA; [cbn [bind] in F | discriminate].
    destruct (set_column obs k _) as [o |] eqn:SC; [cbn [bind] in F | discriminate]. rewrite (fill_other _ _ _ _ _ F N).
    apply set_get in SC as [G _]. exists q. eexists. split; [apply factor_right; [exact FA | eapply field_entry; eauto] |]. split; [exact G | apply convert_rows].
  - destruct (field_of (v_name x)) as [y |]; [cbn [bind] in F | discriminate]. destruct (factor parse convert raw x y) as [q |]; [cbn [bind] in F | discriminate].
    destruct (set_column obs y _) as [o |]; [cbn [bind] in F | discriminate]. eauto.
Qed.
Lemma fill_total raw n l obs : (forall k w, get obs k = Some w -> List.length w = n) ->
  (forall v, In v l -> List.length (rows v) = n /\ exists k q, field_of (v_name v) = Some k /\ right_factor parse convert raw v k q /\ In k (map fst obs)) ->
  exists obs', fill parse convert raw l obs = Some obs'.
Proof.
  revert obs. induction l as [| v l IH]; cbn [fill]; intros obs LN T; [eauto |].
  destruct (T v (or_introl eq_refl)) as [LR [k [q [FO [RF I]]]]]. rewrite FO. cbn [bind]. rewrite (right_factor_is _ _ _ _ RF). cbn [bind].
  destruct (get obs k) as [w |] eqn:G; [| now apply get_none in G].
  set (c := if Qeq_bool q 1 then rows v else _). assert (LC : List.length c = n) by (subst c; destruct (Qeq_bool q 1); [| rewrite map_length]; exact LR).
  destruct (set_total obs k c w G) as [o SC]; [rewrite LC; eauto |]. rewrite SC. cbn [bind]. apply set_get in SC as [G' [O [K _]]]. apply IH.
  - intros x u. destruct (string_dec x k) as [-> | N]; [rewrite G'; intros [= <-]; exact LC | rewrite (O x N); apply LN].
  - intros x J. destruct (T x (or_intror J)) as [? [k' [q' [? [? ?]]]]]. split; [assumption |]. exists k', q'. rewrite K. auto.
Qed.
Lemma zero_get {A} (g : string -> A) l k : get (map (fun x => (x, g x)) l) k = if in_dec string_dec k l then Some (g k) else None.
Proof.
  induction l as [| x l IH]; [reflexivity |]. cbn [map get]. destruct (String.eqb_spec k x) as [-> | N].
  - destruct (in_dec string_dec x (x :: l)) as [| B]; [reflexivity | elim B; now left].
  - rewrite IH. destruct (in_dec string_dec k l) as [I | I], (in_dec string_dec k (x :: l)) as [J | J]; try reflexivity; [elim J; now right | destruct J; [congruence | contradiction]].
Qed.

(** Parts of a load which succeeds. *)
Lemma load_parts f raw remove include obs : load parse convert f raw remove include = Some obs ->
  exists dim n samples arrays keys only,
    obs_dimension (dims f) = Some dim /\ get (dims f) dim = Some n /\
    (forall k, In k arrays -> exists v, In v (build_var_list (vars f) remove include) /\ field_of (v_name v) = Some k) /\
    Corr_model.sequence (map (fun v => field_of (v_name v)) (build_var_list (vars f) remove include)) = Some keys /\
    match include with None => only = None | Some i => exists o, only = Some o /\ Corr_model.sequence (map field_of i) = Some o end /\
    fill parse convert raw (build_var_list (vars f) remove include)
      (map (fun k => (k, repeat (if mem k arrays then repeat 0%Q samples else [0%Q]) n))
        (elements samples arrays (filter (fun k => negb (mem k base) && negb (mem k arrays)) keys) only)) = Some obs.
Proof.
  unfold load. set (l := build_var_list (vars f) remove include). destruct (obs_dimension (dims f)) as [dim |]; [cbn [bind] | discriminate].
  destruct (get (dims f) dim) as [n |] eqn:GD; [cbn [bind] | discriminate].
  destruct (match get (dims f) "NbSample" with Some _ => _ | None => _ end) as [[samples arrays] |] eqn:SA; [cbn [bind fst snd] | discriminate].
  destruct (Corr_model.sequence (map (fun v => field_of (v_name v)) l)) as [keys |]; [cbn [bind] | discriminate].
  destruct (match include with None => Some None | Some _ => _ end) as [only |] eqn:ON; [cbn [bind] | discriminate].
  intros F. exists dim, n, samples, arrays, keys, only. repeat split; auto.
  - intros k I. destruct (get (dims f) "NbSample") as [m |]; [| injection SA as <- <-; destruct I].
    destruct (Corr_model.sequence (map (fun v => field_of (v_name v)) (filter v_array l))) as [a |] eqn:SQ; [| discriminate]. injection SA as <- <-.
    apply (sequence_in _ _ _ k SQ) in I as [v [I E]]. apply filter_In in I as [I _]. eauto.
  - destruct include as [i |]; [| now injection ON as <-]. destruct (Corr_model.sequence (map field_of i)) as [o |]; [| discriminate]. injection ON as <-. eauto.
Qed.
End Load.

(** What a load gives: a field has the values of the last variable asked which has one of
    its names, converted; the field of the class which no variable gives is full of
    zeros, unless there is a list of included variables without any name of it; there is
    no other field. *)
Theorem C152_load : forall U parse (convert : U -> U -> option Q) f raw remove include obs,
  load parse convert f raw remove include = Some obs ->
  (forall l1 v l2 k, vars f = l1 ++ v :: l2 -> asked remove include v -> name_of (v_name v) k ->
     (forall w, In w l2 -> asked remove include w -> ~ name_of (v_name w) k) ->
     exists q c, right_factor parse convert raw v k q /\ get obs k = Some c /\ converted q c (rows v)) /\
  (forall k, (forall v, In v (vars f) -> asked remove include v -> ~ name_of (v_name v) k) ->
     (In k base /\ (forall i, include = Some i -> exists name, In name i /\ name_of name k) ->
        exists dim n, obs_dimension (dims f) = Some dim /\ get (dims f) dim = Some n /\ get obs k = Some (repeat [0%Q] n)) /\
     (~ (In k base /\ (forall i, include = Some i -> exists name, In name i /\ name_of name k)) -> get obs k = None)).
Proof.
  intros U parse convert f raw remove include obs L. destruct (load_parts _ _ _ _ _ _ _ L) as [dim [n [samples [arrays [keys [only [D [GN [AR [SK [ON F]]]]]]]]]]].
  split.
  - intros l1 v l2 k E A N W.
    assert (B : exists m1 m2, build_var_list (vars f) remove include = m1 ++ v :: m2 /\ forall w, In w m2 -> In w l2 /\ asked remove include w).
    { assert (P : forall g : variable -> bool, (forall w, g w = true <-> asked remove include w) -> filter g (vars f) = build_var_list (vars f) remove include ->
          exists m1 m2, build_var_list (vars f) remove include = m1 ++ v :: m2 /\ forall w, In w m2 -> In w l2 /\ asked remove include w).
      { intros g G <-. rewrite E. exists (filter g l1), (filter g l2). split; [rewrite filter_app; cbn; apply G in A; now rewrite A |].
        intros w I. apply filter_In in I as [I Gw]. split; [exact I | now apply G]. }
      unfold asked in *. destruct include as [i |]; [apply (P (fun v => mem (v_name v) i)); [intros w; apply mem_in | reflexivity] |].
      destruct remove as [r |]; [apply (P (fun v => negb (mem (v_name v) r))); [intros w; rewrite negb_true_iff; apply mem_not | reflexivity] |].
      apply (P (fun _ => true)); [tauto |]. cbn. clear. induction (vars f) as [| x l IH]; [reflexivity | cbn; now rewrite IH]. }
    destruct B as [m1 [m2 [B M]]]. rewrite B in F. eapply fill_last; [exact F | now apply field_of_names |].
    intros w I C. apply M in I as [I Aw]. apply (W w I Aw). now apply field_of_names.
  - intros k N. assert (N' : forall v, In v (build_var_list (vars f) remove include) -> field_of (v_name v) <> Some k)
      by (intros v I C; apply chosen_in in I as [I A]; apply (N v I A); now apply field_of_names).
    rewrite (fill_other _ _ _ _ _ _ _ F N'), zero_get.
    assert (NA : ~ In k arrays) by (intros I; apply AR in I as [v [I E]]; now apply (N' v)).
    assert (NK : ~ In k keys) by (intros I; apply (sequence_in _ _ _ k SK) in I as [v [I E]]; now apply (N' v)).
    assert (EL : In k (elements samples arrays (filter (fun k => negb (mem k base) && negb (mem k arrays)) keys) only) <->
                 In k base /\ (forall i, include = Some i -> exists name, In name i /\ name_of name k)).
    { unfold elements. rewrite nodup_In.
      assert (P : In k (base ++ (if 0 <? samples then arrays else []) ++ filter (fun k => negb (mem k base) && negb (mem k arrays)) keys) <-> In k base).
      { rewrite !in_app_iff. rewrite filter_In. destruct (0 <? samples); cbn [In]; tauto. }
      destruct include as [i |].
      - destruct ON as [o [-> SO]]. rewrite filter_In, P, mem_in, (sequence_in _ _ _ k SO). split.
        + intros [I [a [J E]]]. split; [exact I |]. intros i' [= <-]. exists a. split; [exact J | now apply field_of_names].
        + intros [I T]. split; [exact I |]. destruct (T i eq_refl) as [a [J E]]. exists a. split; [exact J | now apply field_of_names].
      - rewrite ON, P. split; [intros I; split; [exact I | discriminate] | tauto]. }
    split; intros T.
    + exists dim, n. split; [exact D |]. split; [exact GN |]. destruct (in_dec _ k _) as [| B]; [| now elim B; apply EL]. apply mem_not in NA. now rewrite NA.
    + destruct (in_dec _ k _) as [I |]; [now apply EL in I | reflexivity].
Qed.
Print Assumptions C152_load.
(** Units of the example: kilometres and metres. *)
Definition pint (s : string) : option nat := if String.eqb s "km" then Some 1000 else if String.eqb s "m" then Some 1 else None.
Definition ratio (a b : nat) : option Q := Some (inject_Z (Z.of_nat a) / inject_Z (Z.of_nat b))%Q.
Definition old_file : file := File [("Nobs", 2)]
  [Var "Lon" false None (Some "degrees") [[10%Q]; [11%Q]]; Var "L" false (Some "km") (Some "m") [[50%Q]; [60%Q]]; Var "radius_s" false None (Some "m") [[7%Q]; [8%Q]]; Var "cyc" false None None [[1%Q]; [1%Q]]].
Example C152_load_ex : exists obs, load pint ratio old_file false (Some ["radius_s"]) None = Some obs /\ get obs "lon" = Some [[10%Q]; [11%Q]]
  /\ (exists c, get obs "radius_s" = Some c /\ Forall2 (Forall2 Qeq) c [[50000%Q]; [60000%Q]]) /\ get obs "type_cyc" = Some [[1%Q]; [1%Q]] /\ get obs "lat" = Some [[0%Q]; [0%Q]] /\ get obs "eke" = None.
Proof.
  let r := eval vm_compute in (load pint ratio old_file false (Some ["radius_s"]) None) in match r with Some ?o => exists o end.
  repeat split; try (vm_compute; reflexivity). eexists. split; [vm_compute; reflexivity |]. repeat constructor.
Qed.
Example C152_load_last_ex : exists obs, load pint ratio old_file false None None = Some obs /\ get obs "radius_s" = Some [[7%Q]; [8%Q]].
Proof. let r := eval vm_compute in (load pint ratio old_file false None None) in match r with Some ?o => exists o end. split; vm_compute; reflexivity. Qed.

(** When a load succeeds, and when it does not. *)
Theorem C152_loads : forall U parse (convert : U -> U -> option Q) f raw remove include n,
  (exists dim, In dim ["obs"; "Nobs"; "observation"; "i"] /\ In dim (map fst (dims f))) ->
  (forall dim, In dim ["obs"; "Nobs"; "observation"; "i"] -> forall m, get (dims f) dim = Some m -> m = n) ->
  (forall v, In v (vars f) -> asked remove include v -> v_array v = true -> exists m, get (dims f) "NbSample" = Some m /\ 0 < m) ->
  (forall i name, include = Some i -> In name i -> exists k, name_of name k) ->
  (forall v, In v (vars f) -> asked remove include v -> List.length (rows v) = n /\ exists k q, name_of (v_name v) k /\ right_factor parse convert raw v k q) ->
  exists obs, load parse convert f raw remove include = Some obs.
Proof.
  intros U parse convert f raw remove include n HD HN HA HI HV. unfold load. set (l := build_var_list (vars f) remove include).
  assert (HL : forall v, In v l -> In v (vars f) /\ asked remove include v) by (intros v I; now apply chosen_in).
  assert (FK : forall v, In v l -> exists k, field_of (v_name v) = Some k).
  { intros v I. apply HL in I as [I A]. destruct (HV v I A) as [_ [k [q [N _]]]]. exists k. now apply field_of_names. }
  assert (OD : exists dim, obs_dimension (dims f) = Some dim /\ get (dims f) dim = Some n).
  { unfold obs_dimension. destruct HD as [dim [I J]]. destruct (find _ _) as [d |] eqn:FD.
    - exists d. split; [reflexivity |]. apply find_some in FD as [I' B]. destruct (get (dims f) d) as [m |] eqn:G; [| discriminate]. now rewrite (HN d I' m G).
    - pose proof (find_none _ _ FD dim I) as B. cbn beta in B. destruct (get (dims f) dim) eqn:G; [discriminate | now apply get_none in G]. }
  destruct OD as [dim [-> GD]]. cbn [bind]. rewrite GD. cbn [bind].
  assert (SA : exists m a, match get (dims f) "NbSample" with
      | Some m => let! a := Corr_model.sequence (map (fun v => field_of (v_name v)) (filter v_array l)) in Some (m, a) | None => Some (0, []) end = Some (m, a)
      /\ forall v k, In v l -> v_array v = true -> field_of (v_name v) = Some k -> In k a /\ 0 < m).
  { destruct (get (dims f) "NbSample") as [m |] eqn:GS.
    - destruct (sequence_total (map (fun v => field_of (v_name v)) (filter v_array l))) as [a SQ].
      { intros o I. apply in_map_iff in I as [v [<- I]]. apply filter_In in I as [I _]. now apply FK. }
      exists m, a. rewrite SQ. split; [reflexivity |]. intros v k I B E. split; [apply (sequence_in _ _ _ k SQ); exists v; split; [apply filter_In; auto | exact E] |].
      apply HL in I as [I A]. destruct (HA v I A B) as [m' [[= <-] P]]. exact P.
    - exists 0, []. split; [reflexivity |]. intros v k I B E. apply HL in I as [I A]. destruct (HA v I A B) as [m' [? _]]. discriminate. }
  destruct SA as [m [a [SA HIN]]]. rewrite SA. cbn [bind fst snd].
  assert (AIN : forall k, In k a -> 0 < m).
  { intros k I. destruct (get (dims f) "NbSample") as [m' |] eqn:GS; [| injection SA as <- <-; destruct I].
    destruct (Corr_model.sequence (map (fun v => field_of (v_name v)) (filter v_array l))) as [a' |] eqn:SQ; [| discriminate]. injection SA as <- <-.
    apply (sequence_in _ _ _ k SQ) in I as [v [I E]]. apply filter_In in I as [I B]. now apply (HIN v k). }
  destruct (sequence_total (map (fun v => field_of (v_name v)) l)) as [keys SK]; [intros o I; apply in_map_iff in I as [v [<- I]]; now apply FK |].
  rewrite SK. cbn [bind].
  assert (ON : exists only, match include with None => Some None | Some i => let! o := Corr_model.sequence (map field_of i) in Some (Some o) end = Some only /\
     forall v k, In v l -> field_of (v_name v) = Some k -> match only with None => True | Some o => In k o end).
  { destruct include as [i |]; [| exists None; auto]. destruct (sequence_total (map field_of i)) as [o SO].
    { intros x I. apply in_map_iff in I as [name [<- I]]. destruct (HI i name eq_refl I) as [k N]. exists k. now apply field_of_names. }
    exists (Some o). rewrite SO. split; [reflexivity |]. intros v k I E. apply (sequence_in _ _ _ k SO). exists (v_name v). split; [now apply HL in I as [_ A] | exact E]. }
  destruct ON as [only [-> OI]]. cbn [bind]. apply (fill_total _ _ raw n).
  - intros k w. rewrite zero_get. destruct (in_dec _ _ _); [| discriminate]. intros [= <-]. apply repeat_length.
  - intros v I. pose proof (HL v I) as [J A]. destruct (HV v J A) as [LR [k [q [N RF]]]]. split; [exact LR |]. apply field_of_names in N. exists k, q. split; [exact N |]. split; [exact RF |].
    rewrite map_map. cbn [fst]. rewrite map_id. unfold elements. rewrite nodup_In.
    assert (P : In k (base ++ (if 0 <? m then a else []) ++ filter (fun k => negb (mem k base) && negb (mem k a)) keys)).
    { rewrite !in_app_iff, filter_In. destruct (mem k base) eqn:MB; [left; now apply mem_in |]. destruct (mem k a) eqn:MA.
      - apply mem_in in MA. pose proof (AIN k MA) as PM. apply Nat.ltb_lt in PM. rewrite PM. auto.
      - right. right. split; [apply (sequence_in _ _ _ k SK); eauto | reflexivity]. }
    specialize (OI v k I N). destruct only as [o |]; [apply filter_In; split; [exact P | now apply mem_in] | exact P].
Qed.
Print Assumptions C152_loads.
Example C152_loads_ex : exists obs, load pint ratio (File [("obs", 1); ("NbSample", 2)] [Var "effective_contour_longitude" true None None [[1%Q; 2%Q]]]) false None None = Some obs
  /\ get obs "contour_lon_e" = Some [[1%Q; 2%Q]].
Proof.
  let r := eval vm_compute in (load pint ratio (File [("obs", 1); ("NbSample", 2)] [Var "effective_contour_longitude" true None None [[1%Q; 2%Q]]]) false None None) in match r with Some ?o => exists o end.
  split; vm_compute; reflexivity.
Qed.
(** One variable with a name which the software does not know, and which is not removed,
    stops the load; so do an unknown name in the list of included ones, a file without
    any of the four dimensions, and units of another nature. *)
Theorem C152_fails : forall U parse (convert : U -> U -> option Q) f raw remove include,
  (exists v, In v (vars f) /\ asked remove include v /\ forall k, ~ name_of (v_name v) k) \/
  (exists i name, include = Some i /\ In name i /\ forall k, ~ name_of name k) \/
  (forall dim, In dim ["obs"; "Nobs"; "observation"; "i"] -> ~ In dim (map fst (dims f))) \/
  (raw = false /\ exists v e i o a b, In v (vars f) /\ asked remove include v /\ In e table /\ name_of (v_name v) (key e) /\
     given v = Some i /\ units e = Some o /\ i <> o /\ parse i = Some a /\ parse o = Some b /\ convert a b = None) ->
  load parse convert f raw remove include = None.
Proof.
  intros U parse convert f raw remove include H. destruct (load parse convert f raw remove include) as [obs |] eqn:L; [exfalso | reflexivity].
  destruct (load_parts _ _ _ _ _ _ _ L) as [dim [n [samples [arrays [keys [only [D [GN [AR [SK [ON F]]]]]]]]]]].
  destruct H as [[v [I [A N]]] | [[i [name [-> [I N]]]] | [N | [-> [v [e [i [o [a [b [I [A [T [N [GV [UO [NE [PI [PO CV]]]]]]]]]]]]]]]]]]].
  - apply sequence_forall in SK. assert (J : In v (build_var_list (vars f) remove include)) by now apply chosen_in.
    apply in_split in J as [l1 [l2 E]]. rewrite E, map_app in SK. apply Forall2_app_inv_l in SK as [r1 [r2 [_ [SK _]]]]. inversion SK as [| ? k ? ? FO]; subst.
    apply (N k). now apply field_of_names.
  - destruct ON as [o [_ SO]]. apply sequence_forall in SO. apply in_split in I as [l1 [l2 ->]]. rewrite map_app in SO. apply Forall2_app_inv_l in SO as [r1 [r2 [_ [SO _]]]].
    inversion SO as [| ? k ? ? FO]; subst. apply (N k). now apply field_of_names.
  - unfold obs_dimension in D. apply find_some in D as [I B]. destruct (get (dims f) dim) eqn:G; [| discriminate]. apply get_in in G. apply (N dim I). apply in_map_iff. eexists. split; [| exact G]. reflexivity.
  - assert (J : In v (build_var_list (vars f) remove include)) by now apply chosen_in. revert F. generalize (map (fun k => (k, repeat (if mem k arrays then repeat 0%Q samples else [0%Q]) n))
        (elements samples arrays (filter (fun k => negb (mem k base) && negb (mem k arrays)) keys) only)).
    clear AR SK. induction (build_var_list (vars f) remove include) as [| x l IH]; [destruct J |]. intros s. cbn [fill]. destruct (field_of (v_name x)) as [k |] eqn:FO; [cbn [bind] | discriminate].
    destruct (factor parse convert false x k) as [q |] eqn:FA; [cbn [bind] | discriminate]. destruct (set_column s k _) as [s' |]; [cbn [bind] | discriminate].
    destruct J as [-> | J]; [| now apply IH]. exfalso. apply field_of_names in N. rewrite N in FO. injection FO as <-.
    unfold factor in FA. fold (given v) in FA. rewrite (entry_some e T) in FA. cbn [bind] in FA. unfold compare_units in FA. rewrite UO, GV, PI, PO in FA.
    destruct (String.eqb_spec o i); congruence.
Qed.
Print Assumptions C152_fails.
Example C152_fails_ex : load pint ratio (File [("obs", 1)] [Var "longitude" false None None [[1%Q]]; Var "crs" false None None [[0%Q]]]) false None None = None
  /\ load pint ratio (File [("obs", 1)] [Var "longitude" false None None [[1%Q]]; Var "crs" false None None [[0%Q]]]) false (Some ["crs"]) None <> None
  /\ load pint ratio (File [("time", 1)] [Var "longitude" false None None [[1%Q]]]) false None None = None.
Proof. vm_compute. repeat split; discriminate. Qed.

(** A dataset written then loaded has its fields and its values back, whatever the order
    of the variables in the file. *)
Theorem C152_round_trip : forall U parse (convert : U -> U -> option Q) arrays obs l l' n m raw,
  NoDup (map fst obs) -> written arrays obs = Some l -> Permutation l l' -> (forall k c, In (k, c) obs -> List.length c = n) -> (0 < m)%nat ->
  exists back, load parse convert (File [("obs", n); ("NbSample", m)] l') raw None None = Some back /\
    forall k c, get obs k = Some c -> exists c', get back k = Some c' /\ Forall2 (Forall2 Qeq) c' c.
Proof.
  intros U parse convert arrays obs l l' n m raw ND W P LN M. pose proof W as W0. unfold written in W0. apply sequence_forall in W.
  assert (VS : forall v, In v l' -> exists k c e, In (k, c) obs /\ entry k = Some e /\ v = Var (nc_name e) (mem k arrays) None (units e) c).
  { intros v I. apply (Permutation_in v (Permutation_sym P)) in I. apply (sequence_in _ _ _ v W0) in I as [[k c] [J Eo]]. cbn [fst snd] in Eo.
    destruct (entry k) as [e |] eqn:En; [| discriminate]. injection Eo as <-. exists k, c, e. auto. }
  assert (SV : forall k c, In (k, c) obs -> exists e, entry k = Some e /\ In (Var (nc_name e) (mem k arrays) None (units e) c) l').
  { intros k c I. assert (EN : exists e, entry k = Some e).
    { clear -W I. revert l W. induction obs as [| p o IH]; [destruct I |]. intros l W. inversion W as [| ? v ? y FO WR]; subst. destruct I as [-> | I]; [| eauto].
      cbn [fst] in FO. destruct (entry k); [eauto | discriminate]. }
    destruct EN as [e EN]. exists e. split; [exact EN |]. apply (Permutation_in _ P). apply (sequence_in _ _ _ _ W0). exists (k, c). split; [exact I |]. cbn [fst snd]. now rewrite EN. }
  assert (NM : forall k e, entry k = Some e -> name_of (nc_name e) k) by (intros k e E; apply entry_in in E as [I K]; exists e; auto).
  destruct (C152_loads U parse convert (File [("obs", n); ("NbSample", m)] l') raw None None n) as [back L].
  - exists "obs". split; [now left | now left].
  - intros dim I x. cbn [dims]. destruct I as [<- | [<- | [<- | [<- | []]]]]; cbn; congruence.
  - intros v _ _ _. exists m. split; [reflexivity | exact M].
  - discriminate.
  - cbn [vars]. intros v I _. destruct (VS v I) as [k [c [e [J [E ->]]]]]. cbn [rows v_name]. split; [now apply (LN k) |]. exists k, 1%Q. split; [now apply NM |].
    apply entry_in in E as [IE KE]. exists e. split; [exact IE |]. split; [exact KE |]. left. split; [| reflexivity]. right. right. right. left. reflexivity.
  - exists back. split; [exact L |]. intros k c G. apply get_in in G. destruct (SV k c G) as [e [E I]]. apply in_split in I as [l1 [l2 EL]].
    destruct (C152_load _ _ _ _ _ _ _ _ L) as [A _]. specialize (A l1 _ l2 k EL I (NM k e E)).
    assert (NW : forall w, In w l2 -> asked None None w -> ~ name_of (v_name w) k).
    { intros w J _ N. destruct (VS w) as [k' [c' [e' [J' [E' ->]]]]]; [rewrite EL; apply in_or_app; right; now right |]. cbn [v_name] in N.
      assert (k' = k) as -> by (apply field_of_names in N; pose proof (NM k' e' E') as N'; apply field_of_names in N'; congruence).
      assert (NDL : NoDup (map v_name l)).
      { clear -W ND NM. revert l W. induction obs as [| [k c] obs IH]; intros l W; inversion W as [| ? v ? l0 FO WR]; subst; [constructor |]. cbn [fst snd map] in *.
        apply NoDup_cons_iff in ND as [NK ND]. constructor; [| now apply IH]. destruct (entry k) as [e |] eqn:E; [| discriminate]. injection FO as <-. cbn [v_name]. intros B. apply in_map_iff in B as [w [B I]].
        assert (J : exists k' d e', In (k', d) obs /\ entry k' = Some e' /\ v_name w = nc_name e').
        { clear -WR I. revert l0 WR I. induction obs as [| [k' d] o IH]; intros l0 WR I; inversion WR as [| ? v ? y FO WR']; subst; [destruct I |]. destruct I as [-> | I].
          - cbn [fst snd] in FO. destruct (entry k') as [e' |] eqn:E'; [| discriminate]. injection FO as <-. exists k', d, e'. repeat split; auto. now left.
          - destruct (IH _ WR' I) as [k2 [d2 [e2 [J R2]]]]. exists k2, d2, e2. split; [now right | exact R2]. }
        destruct J as [k' [d [e' [J [E' B']]]]]. rewrite B' in B.
        pose proof (NM k e E) as N1. pose proof (NM k' e' E') as N2. apply field_of_names in N1. apply field_of_names in N2. rewrite B, N1 in N2. injection N2 as <-. apply NK. now apply (in_map fst) in J. }
      apply (Permutation_NoDup (Permutation_map v_name P)) in NDL. rewrite EL, map_app in NDL. cbn [map] in NDL. apply NoDup_remove_2 in NDL. apply NDL. apply in_or_app. right.
      rewrite E in E'. injection E' as <-. apply (in_map v_name) in J. exact J. }
    destruct (A NW) as [q [c' [RF [G' CV]]]]. exists c'. split; [exact G' |].
    assert (Q1 : q = 1%Q).
    { destruct RF as [e' [IE [KE [[_ Q1] | [_ [i [o [a [b [GV [UO [NE _]]]]]]]]]]]]; [exact Q1 |]. apply entry_some in IE. rewrite KE, E in IE. injection IE as <-.
      cbn [given v_unit v_units] in GV. congruence. }
    subst q. cbn [rows] in CV. clear -CV. induction CV as [| x y c' c HX CV IH]; constructor; [| exact IH]. clear -HX. induction HX as [| a b x y HA HX IH]; constructor; [| exact IH]. rewrite HA. ring.
Qed.
Print Assumptions C152_round_trip.
Example C152_round_trip_ex : exists l, written ["contour_lon_s"] [("lon", [[1%Q]]); ("contour_lon_s", [[2%Q; 3%Q]]); ("track", [[4%Q]])] = Some l /\ map v_name l = ["longitude"; "speed_contour_longitude"; "track"].
Proof. eexists. split; vm_compute; reflexivity. Qed.

(** An included variable must be named as in the file: another name of the same field is
    accepted, and the field comes back full of zeros although the file has it. *)
Theorem C152_include_refuted : forall U parse (convert : U -> U -> option Q) v k i f raw,
  In v (vars f) -> name_of (v_name v) k -> In k base -> (exists name, In name i /\ name_of name k) ->
  (forall w, In w (vars f) -> name_of (v_name w) k -> ~ In (v_name w) i) ->
  forall obs, load parse convert f raw None (Some i) = Some obs -> exists n, get obs k = Some (repeat [0%Q] n).
Proof.
  intros U parse convert v k i f raw I N B [name [IN NN]] W obs L. destruct (C152_load _ _ _ _ _ _ _ _ L) as [_ A]. destruct (A k) as [Z0 _].
  - intros w IW AW NW. now apply (W w IW NW).
  - destruct Z0 as [dim [n [_ [_ G]]]]; [| eauto]. split; [exact B |]. intros j [= <-]. eauto.
Qed.
Print Assumptions C152_include_refuted.
Example C152_include_ex : load pint ratio (File [("obs", 2)] [Var "longitude" false None None [[5%Q]; [6%Q]]]) false None (Some ["lon"]) = Some [("lon", [[0%Q]; [0%Q]])].
Proof. vm_compute. reflexivity. Qed.

(** Dates counted from another day are taken as they are when the expression of their
    units is not one which the library of units reads: they are read as days since
    1950. *)
Theorem C152_dates_refuted : forall U parse (convert : U -> U -> option Q) name units0 dates,
  name_of name "time" -> parse units0 = None \/ parse "days since 1950-01-01 00:00:00" = None ->
  exists obs, load parse convert (File [("obs", List.length dates)] [Var name false None (Some units0) (map (fun d => [d]) dates)]) false None None = Some obs /\
    exists c, get obs "time" = Some c /\ Forall2 (Forall2 Qeq) c (map (fun d => [d]) dates).
Proof.
  intros U parse convert name units0 dates N PN. set (v := Var name false None (Some units0) (map (fun d => [d]) dates)).
  assert (RF : right_factor parse convert false v "time" 1%Q).
  { exists (Descr "time" "time" ["j1"] (Some "days since 1950-01-01 00:00:00")). split; [now left |]. split; [reflexivity |]. left. split; [| reflexivity]. do 4 right.
    destruct PN as [PN | PN]; [left; exists units0; auto | right; eexists; split; [reflexivity | exact PN]]. }
  destruct (C152_loads U parse convert (File [("obs", List.length dates)] [v]) false None None (List.length dates)) as [obs L].
  - exists "obs". split; now left.
  - intros dim I x. cbn [dims]. destruct I as [<- | [<- | [<- | [<- | []]]]]; cbn; congruence.
  - cbn [vars]. intros w [<- | []] _ E. discriminate.
  - discriminate.
  - cbn [vars]. intros w [<- | []] _. split; [apply map_length |]. exists "time", 1%Q. split; [exact N | exact RF].
  - exists obs. split; [exact L |]. destruct (C152_load _ _ _ _ _ _ _ _ L) as [A _]. destruct (A [] v [] "time" eq_refl I N) as [q [c [RF' [G CV]]]]; [easy |]. exists c. split; [exact G |].
    apply right_factor_is in RF. apply right_factor_is in RF'. rewrite RF in RF'. injection RF' as <-. change (rows v) with (map (fun d => [d]) dates) in CV. revert CV. generalize (map (fun d : Q => [d]) dates). intros r CV.
    clear -CV. induction CV as [| x y c' c HX CV IH]; constructor; [| exact IH]. clear -HX. induction HX as [| a b x y HA HX IH]; constructor; [| exact IH]. rewrite HA. ring.
Qed.
Print Assumptions C152_dates_refuted.
Example C152_dates_ex : name_of "j1" "time" /\ pint "days since 1970-01-01" = None.
Proof. split; [apply field_of_names |]; vm_compute; reflexivity. Qed.
