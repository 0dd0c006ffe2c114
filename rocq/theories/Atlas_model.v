(** Model of the numbers of the summary of an atlas of networks
    (observations/network.py, __repr__, lines 114-130).  The layout of the text and the
    rounding are not modelled; the merging and splitting events are those of
    NetEvt_model.v, here their numbers. *)
From Coq Require Import List Arith ZArith Bool QArith.
Import ListNotations.
From Verif Require Import Base Generic_model Corr_model NetTab_model.
Local Close Scope Q_scope.
Local Open Scope nat_scope.

(** max of an array; an empty one raises. *)
Definition zmax (l : list Z) : option Z := match l with [] => None | a :: r => Some (zmax_from a r) end.
Definition zsum (l : list Z) : Z := fold_right Z.add 0%Z l.
(** [n / period] with the period in years, line 119: nothing finite for a period of zero. *)
Definition by_year (n : Z) (days : Q) : option Q := if Qeq_bool days 0 then None else Some (inject_Z n / (days / (36525 # 100)))%Q.
Record atlas := Atlas { a_networks : nat; a_segments : nat; a_rows : nat; a_many : nat; a_biggest : Z; a_cumulated : Z; a_trash : Z;
  a_networks_year : option Q; a_segments_year : option Q; a_rows_year : option Q; a_merging_year : option Q; a_splitting_year : option Q }.
(** Lines 114-130; [days] is the last time minus the first one, [big] the number of line
    122, [merging] and [splitting] the numbers of events. *)
Definition summary (big : Z) (n : net) (days : Q) (merging splitting : nat) : option atlas :=
  let! (sizes, n1) := network_sizes n in
  let! (t, n2) := index_network n1 in
  let! first := nth_error sizes 0 in
  let trash := if (lowest t =? 0)%Z then first else 0%Z in
  let! (nb, n3) := nb_network n2 in
  let! (ns, n4) := nb_segment n3 in
  let! biggest := zmax sizes in
  let large := filter (fun z => (big <? z)%Z) sizes in
  let rate k := by_year (Z.of_nat k) days in
  Some (Atlas nb ns (length (tr n4)) (length large) biggest (zsum large) trash (rate nb) (rate ns) (rate (length (tr n4))) (rate merging) (rate splitting)).
Definition repr (n : net) (days : Q) (merging splitting : nat) : option atlas := summary 50000 n days merging splitting.
