(** Properties C12-C19 and C66: array helpers of generic.py. *)
From Coq Require Import List Arith ZArith Bool QArith Qabs Permutation Lia Lqa.
From Verif Require Import Base Qaux Spec Generic_model Generic_proofs.
Import ListNotations.

(** C12. The index tables of a sorted label array tile it: label [i0 + k] is
    exactly at the positions [first[k] <= j < last[k]]. *)
Theorem C12_index_tables_tile : forall groups : list Z,
  groups <> [] -> zsorted groups ->
  exists first last i0,
    build_index groups = Some (first, last, i0) /\
    length last = length first /\ In i0 groups /\
    (forall v, In v groups -> (i0 <= v < i0 + Z.of_nat (length first))%Z) /\
    (forall k a b, nth_error first k = Some a -> nth_error last k = Some b ->
       (a <= b)%nat /\
       forall j, (a <= j < b)%nat <-> nth_error groups j = Some (i0 + Z.of_nat k)%Z) /\
    nth_error first 0 = Some 0%nat /\
    (forall k, (S k < length first)%nat -> nth_error first (S k) = nth_error last k) /\
    nth_error last (length first - 1) = Some (length groups).
Proof. exact build_index_tile. Qed.
Print Assumptions C12_index_tables_tile.

Example C12_case : build_index [3; 3; 6; 6; 6; 7]%Z
  = Some ([0; 2; 2; 2; 5], [2; 2; 2; 5; 6], 3%Z)%nat.
Proof. reflexivity. Qed.

(** C13. Complement of an index list. *)
Theorem C13_reverse_index_is_complement : forall (index : list nat) (nb : nat),
  (forall i, In i index -> (i < nb)%nat) ->
  exists r, reverse_index index nb = Some r /\
    (forall a b u v, (a < b)%nat -> nth_error r a = Some u -> nth_error r b = Some v -> (u < v)%nat) /\
    forall j, In j r <-> (j < nb)%nat /\ ~ In j index.
Proof. exact reverse_index_complement. Qed.
Print Assumptions C13_reverse_index_is_complement.

Example C13_case : reverse_index [4; 1; 4]%nat 6 = Some [0; 2; 3; 5]%nat.
Proof. reflexivity. Qed.

(** C14. Cumulative sum restarts with each run of equal track numbers. *)
Theorem C14_cumsum_restarts : forall (field : list Q) (track : list Z),
  length field = length track ->
  length (cumsum_by_track field track) = length field /\
  forall i c, nth_error (cumsum_by_track field track) i = Some c ->
  exists s : nat, (s <= i)%nat /\
    (forall j, (s <= j <= i)%nat -> nth_error track j = nth_error track i) /\
    ((0 < s)%nat -> nth_error track (s - 1) <> nth_error track s) /\
    c == Qsum (firstn (i + 1 - s) (skipn s field)).
Proof.
  exact (fun field track L =>
    conj (length_cumsum_from field track 0 0 L) (cumsum_by_track_spec field track)).
Qed.
Print Assumptions C14_cumsum_restarts.

Example C14_case : cumsum_by_track [1; 2; 3; 4; 5] [7; 7; 0; 0; 7]%Z = [0 + 1; 0 + 1 + 2; 0 + 3; 0 + 3 + 4; 0 + 5].
Proof. reflexivity. Qed.

(** C15. [ord] is the permutation returned by argsort, [xs] the sorted values. *)
Theorem C15_window_exact : forall (x : list Q) (ord : list nat) (xs x0 : list Q) (hw : Q) first last oob,
  Permutation (seq 0 (length x)) ord -> gather x ord = Some xs -> qsorted xs ->
  qsorted x0 -> 0 <= hw ->
  window_index xs x0 hw = (first, last, oob) ->
  length first = length x0 /\ length last = length x0 /\
  forall k c a b, nth_error x0 k = Some c -> nth_error first k = Some a -> nth_error last k = Some b ->
    (a <= b)%nat /\
    forall p v, nth_error x p = Some v ->
      (In p (slice ord a b) <-> (c - hw < v /\ v <= c + hw)).
Proof. exact window_index_spec. Qed.
Print Assumptions C15_window_exact.

Example C15_case :
  let x := [5; 1; 3; 2; 9] in let ord := [1; 3; 2; 0; 4]%nat in
  gather x ord = Some [1; 2; 3; 5; 9] /\
  window_index [1; 2; 3; 5; 9] [2; 4] 1 = ([1; 3], [3; 4], true)%nat.
Proof. vm_compute. auto. Qed.

(** The compiled loop reads one centre past the end exactly when some value is
    above every lower bound; the value read never reaches the result (C15). *)
Theorem C15_window_reads_past_end : forall (xs x0 : list Q) (hw : Q),
  qsorted xs -> x0 <> [] -> 0 <= hw ->
  (snd (window_index xs x0 hw) = true <-> exists x, In x xs /\ forall c, In c x0 -> c - hw < x).
Proof. exact window_index_oob. Qed.
Print Assumptions C15_window_reads_past_end.

Example C15_no_read_past_end : snd (window_index [1; 2; 3] [2; 9] 1) = false.
Proof. reflexivity. Qed.

(** C16. Longitude wrapping. *)
Theorem C16_wrap_canonical : forall (ref : Q) (x : list Q) i v,
  nth_error x i = Some v ->
  exists w, nth_error (wrap_longitude x ref) i = Some w /\
    ref <= w /\ w < ref + 360 /\
    (exists k : Z, w - v == 360 * inject_Z k) /\
    (forall w', ref <= w' -> w' < ref + 360 -> (exists k : Z, w' - v == 360 * inject_Z k) -> w' == w).
Proof.
  exact (fun ref x i v H => wrap_longitude_canonical ref x i v H).
Qed.
Print Assumptions C16_wrap_canonical.

Theorem C16_wrap_idempotent : forall (ref : Q) (x : list Q) i w w',
  nth_error (wrap_longitude x ref) i = Some w ->
  nth_error (wrap_longitude (wrap_longitude x ref) ref) i = Some w' -> w' == w.
Proof. exact wrap_longitude_idempotent. Qed.
Print Assumptions C16_wrap_idempotent.

Example C16_case : map Qred (wrap_longitude [370; -10; 725 # 2] (-180)) = [10; -10; 5 # 2].
Proof. reflexivity. Qed.

(** C16, cut variant: with steps below one turn, the output line draws exactly
    the segments of the input line, moved by whole turns. *)
Theorem C16_cut_draws_same_segments : forall (ref : Q) (pts : list (option Q * Q)) out,
  wrap_longitude_cut ref pts = Some out ->
  (forall j xa ya xb yb, nth_error pts j = Some (Some xa, ya) -> nth_error pts (S j) = Some (Some xb, yb) ->
     - (360) < xb - xa /\ xb - xa < 360) ->
  (forall k u v u' v',
    nth_error out k = Some (Some u, Some v) -> nth_error out (S k) = Some (Some u', Some v') ->
    exists j xa xb, nth_error pts j = Some (Some xa, v) /\ nth_error pts (S j) = Some (Some xb, v') /\
      (exists t : Z, u - xa == 360 * inject_Z t) /\ u' - u == xb - xa) /\
  (forall j xa v xb v',
    nth_error pts j = Some (Some xa, v) -> nth_error pts (S j) = Some (Some xb, v') ->
    exists k u u', nth_error out k = Some (Some u, Some v) /\ nth_error out (S k) = Some (Some u', Some v') /\
      ref <= u /\ u < ref + 360 /\
      (exists t : Z, u - xa == 360 * inject_Z t) /\ u' - u == xb - xa).
Proof. exact wrap_longitude_cut_spec. Qed.
Print Assumptions C16_cut_draws_same_segments.

Example C16_cut_case :
  option_map (map (fun p => match p with (Some a, b) => (Some (Qred a), b) | (None, b) => (None, b) end))
    (wrap_longitude_cut 0 [(Some 350, 1); (Some 365, 2); (None, 3); (Some 10, 4)])
  = Some [(Some 350, Some 1); (Some 365, Some 2); (None, None); (Some (-10), Some 1); (Some 5, Some 2);
          (None, Some 3); (Some 10, Some 4)].
Proof. reflexivity. Qed.

(** C17. Line splitting: point [j] lands at [pos j]; positions advance by one
    inside a group and by two over a gap at a change. *)
Theorem C17_split_line_exact : forall (A : Type) (pts : list A) (i : list Z),
  length i = length pts ->
  exists out (pos : nat -> nat),
    split_line pts i = Some out /\
    values out = pts /\ ~ In Uninit out /\
    pos 0%nat = 0%nat /\
    (pts <> [] -> length out = S (pos (length pts - 1)%nat)) /\
    (forall j p, nth_error pts j = Some p -> nth_error out (pos j) = Some (Val p)) /\
    (forall j a b, nth_error i j = Some a -> nth_error i (S j) = Some b ->
       (a = b -> pos (S j) = S (pos j)) /\
       (a <> b -> pos (S j) = S (S (pos j)) /\ nth_error out (S (pos j)) = Some Nan)).
Proof. exact @split_line_spec. Qed.
Print Assumptions C17_split_line_exact.

Example C17_case : split_line [10; 11; 12; 13]%nat [1; 1; 2; 1]%Z
  = Some [Val 10; Val 11; Nan; Val 12; Nan; Val 13]%nat.
Proof. reflexivity. Qed.

(** C18. Flattening: value [(i, j)] is at [i * (n + 1) + j], a gap follows each
    row but the last, and nothing else is in the result. *)
Theorem C18_flatten_content : forall (A : Type) n (rows : list (list A)),
  Forall (fun r => length r = n) rows -> (2 <= length rows \/ (length rows = 1 /\ 1 <= n))%nat ->
  let out := ob_cells (flatten_line_matrix n rows) in
  length out = (length rows * n + (length rows - 1))%nat /\
  (forall i r j a, nth_error rows i = Some r -> nth_error r j = Some a ->
     nth_error out (i * (n + 1) + j) = Some (Val a)) /\
  (forall i, (S i < length rows)%nat -> nth_error out (i * (n + 1) + n) = Some Nan).
Proof. exact @flatten_cells. Qed.
Print Assumptions C18_flatten_content.

(** C18, defect: on every non trivial matrix the loop stores one cell past the
    end of its output array. *)
Theorem C18_flatten_writes_past_end : forall (A : Type) n (rows : list (list A)),
  Forall (fun r => length r = n) rows -> (2 <= length rows \/ (length rows = 1 /\ 1 <= n))%nat ->
  ob_oob (flatten_line_matrix n rows) = true.
Proof. exact (fun A n rows F D => proj2 (@flatten_spec A n rows F D)). Qed.
Print Assumptions C18_flatten_writes_past_end.

Example C18_case : ob_cells (flatten_line_matrix 2 [[1; 2]; [3; 4]; [5; 6]]%nat)
  = [Val 1; Val 2; Nan; Val 3; Val 4; Nan; Val 5; Val 6]%nat.
Proof. reflexivity. Qed.

(** C19. Run lengths. *)
Theorem C19_run_lengths : forall (mask : list bool),
  length (count_consecutive mask) = length mask /\
  forall i k, nth_error (count_consecutive mask) i = Some k ->
  exists b, nth_error mask i = Some b /\
  (b = false -> k = 0%Z) /\
  (b = true -> exists n, k = Z.of_nat (S n) /\ (n <= i)%nat /\
     (forall j, (i - n <= j <= i)%nat -> nth_error mask j = Some true) /\
     ((n < i)%nat -> nth_error mask (i - n - 1) = Some false)).
Proof.
  exact (fun mask => conj (length_count_consecutive_from mask 0) (count_consecutive_spec mask)).
Qed.
Print Assumptions C19_run_lengths.

Example C19_case : count_consecutive [true; true; false; true; true; true] = [1; 2; 0; 1; 2; 3]%Z.
Proof. reflexivity. Qed.

(** C66. Simplification keeps a point exactly when it is further than the
    precision from the last kept point. *)
Theorem C66_simplify_keeps_far_points : forall (p : Q) (pts : list (option (Q * Q))) m,
  0 <= p -> simplify_mask p pts = Some m ->
  length m = length pts /\
  forall j0 q0, nth_error pts j0 = Some (Some q0) -> (S j0 < length pts)%nat ->
    (forall k, (k < j0)%nat -> nth_error pts k = Some None) ->
    (forall k, (k < j0)%nat -> nth_error m k = Some false) /\
    nth_error m j0 = Some true /\
    (forall i q, (j0 < i)%nat -> nth_error pts i = Some (Some q) ->
       exists j r, (j < i)%nat /\ nth_error pts j = Some (Some r) /\ nth_error m j = Some true /\
         (forall j' q', (j < j' < i)%nat -> nth_error pts j' = Some (Some q') -> nth_error m j' = Some false) /\
         (nth_error m i = Some true <-> p * p < dist2 q r)) /\
    (forall i, (j0 < i)%nat -> nth_error pts i = Some None ->
       (nth_error m i = Some true <-> nth_error pts (i - 1) <> Some None)).
Proof. exact simplify_mask_spec. Qed.
Print Assumptions C66_simplify_keeps_far_points.

Example C66_case :
  simplify_mask 1 [None; Some (0, 0); Some (1, 0); Some (-2, 0); None; None; Some (-2, 1); Some (0, 0)]
  = Some [false; true; false; true; true; false; false; true].
Proof. reflexivity. Qed.

(** C66, defect: when the only valid point is the last one, it is dropped. *)
Theorem C66_single_last_point_lost_refuted : exists pts : list (option (Q * Q)),
  In (Some (1, 2)) pts /\ simplify 0 pts = Some [].
Proof. exact simplify_lost. Qed.
Print Assumptions C66_single_last_point_lost_refuted.
