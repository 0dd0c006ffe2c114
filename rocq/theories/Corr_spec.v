(** Small specification of a tracking run, independent of the way it is
    computed: [H] is the list of the steps in chronological order, step [t]
    links the date [t] to the date [t + 1]. *)
From Coq Require Import List Arith QArith.
From Verif Require Import Base Corr_model.
Import ListNotations.
Local Close Scope Q_scope.
Local Open Scope nat_scope.

(** [c] is a link of step [t]. *)
Definition link_at (H : list (list corr)) (t : nat) (c : corr) : Prop :=
  exists s, nth_error H t = Some s /\ In c s.

(** The track [id] has a link at step [t]. *)
Definition seen (H : list (list corr)) (t id : nat) : Prop := exists c, link_at H t c /\ c_id c = id.

(** First and last step of a track: its eddies lie between the dates [f] and [l + 1]. *)
Definition first_link (H : list (list corr)) (id f : nat) : Prop :=
  seen H f id /\ forall t, seen H t id -> f <= t.
Definition last_link (H : list (list corr)) (id l : nat) : Prop :=
  seen H l id /\ forall t, seen H t id -> t <= l.

(** The association used by the run never fails, links existing eddies and is
    one-to-one (what C01 proves of the solver). *)
Definition one_to_one {Obs} (associate : list Obs -> list Obs -> option (list (nat * nat * Q))) : Prop :=
  forall p c, exists links, associate p c = Some links /\
    NoDup (map (fun l => fst (fst l)) links) /\ NoDup (map (fun l => snd (fst l)) links) /\
    forall i o q, In (i, o, q) links -> i < length p /\ o < length c.

(** [s'] holds the links of [s] whose number is in [keep], in the same order and
    unchanged but for the number, which becomes the position in [keep]. *)
Definition renumbered (keep : list nat) (s s' : list corr) : Prop :=
  Forall2 (fun c c' => exists j, nth_error keep j = Some (c_id c) /\
             c' = mkcorr (c_in c) (c_out c) j (c_cost c) (c_virtual c) (c_vlen c))
    (filter (fun c => existsb (Nat.eqb (c_id c)) keep) s) s'.

(** First row of the block of track [id] when the blocks have the sizes [nb]. *)
Definition block (nb : list nat) (id : nat) : nat := sum_list (firstn id nb).
