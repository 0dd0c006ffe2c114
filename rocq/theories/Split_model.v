(** Splitting of groups in segments,
    src/py_eddy_tracker/observations/tracking.py lines 607-793.

    The contours are parameters: [meet i j] tells whether bbox_intersection
    returns the pair, [overlap i j] is the value of vertice_overlap, [rnd] the
    rounding to single precision of a cost which is stored.  The value -1 of
    previous_obs and next_obs is [None].  Times are whole numbers of steps and
    are not bounded (the code casts them to 32 bits). *)
From Coq Require Import List Arith ZArith QArith Bool.
From Verif Require Import Base Qaux Generic_model Solver_model TrackObs_model.
Import ListNotations.
Local Close Scope Q_scope.
Local Open Scope nat_scope.

(** Fields of the structured array ids, lines 617-636; the fields group and
    time are kept apart. *)
Record ids := Ids { i_track : list nat; i_pcost : list Q; i_ncost : list Q; i_prev : list (option nat); i_next : list (option nat) }.

(** Python [range(a, b)] and [range(a, b, -1)]. *)
Definition range_up (a b : Z) : list Z := map (fun k => (a + Z.of_nat k)%Z) (seq 0 (Z.to_nat (b - a))).
Definition range_down (a b : Z) : list Z := map (fun k => (a - Z.of_nat k)%Z) (seq 0 (Z.to_nat (a - b))).

Section Group.
Variables (meet : nat -> nat -> bool) (overlap : nat -> nat -> Q) (rnd : Q -> Q).
Variables (time : list Z) (window : Z).
Variables (time_s time_e : list nat) (time_ref : Z).

(** One date of the search, lines 725-741 and 767-783: the array of overlaps is
    zero where the boxes do not meet; the first maximum is taken, nothing when
    it is zero. *)
Definition best_at (cur i0 i1 : nat) : option (nat * Q) :=
  let rows := seq i0 (i1 - i0) in
  if existsb (meet cur) rows then
    let c := map (fun j => if meet cur j then overlap cur j else 0%Q) rows in
    let! i := argmax c in
    let! c_i := nth_error c i in
    if Qeq_bool c_i 0 then None else Some (i0 + i, c_i)
  else None.

(** Loops over the dates, lines 721-745 and 765-792; the outer [None] is an
    index out of the tables. *)
Fixpoint search (cur : nat) (steps : list Z) : option (option (nat * Q)) :=
  match steps with
  | [] => Some None
  | t :: steps' =>
      let! i0 := pyget time_s t in
      let! i1 := pyget time_e t in
      if i0 =? i1 then search cur steps' else
      match best_at cur i0 i1 with
      | None => search cur steps'
      | Some r => Some (Some r)
      end
  end.

(** get_previous_obs, lines 707-745. *)
Definition get_previous_obs (cur : nat) (s : ids) : option ids :=
  let! time_cur := nth_error time cur in
  let t0 := (time_cur - 1 - time_ref)%Z in
  let t1 := Z.max (time_cur - window - time_ref) 0 in
  let! r := search cur (range_down t0 (t1 - 1)) in
  match r with
  | None => Some s
  | Some (target, c_i) =>
      let! pc := store (i_pcost s) cur (rnd c_i) in
      let! pv := store (i_prev s) cur (Some target) in
      Some (Ids (i_track s) pc (i_ncost s) pv (i_next s))
  end.

(** get_next_obs, lines 747-793: target ([None] for -1) and new state. *)
Definition get_next_obs (cur : nat) (s : ids) : option (option nat * ids) :=
  let time_max := (Z.of_nat (length time_e) - 1)%Z in
  let! time_cur := nth_error time cur in
  let t0 := (time_cur + 1 - time_ref)%Z in
  let t1 := Z.min (time_cur + window - time_ref) time_max in
  if (time_max <? t0)%Z then Some (None, s) else
  let! r := search cur (range_up t0 (t1 + 1)) in
  match r with
  | None => Some (None, s)
  | Some (target, c_i) =>
      let! c_target := nth_error (i_pcost s) target in
      let! pc :=
        if (negb (Qeq_bool c_target 0) && Qlt_bool c_target c_i) || Qeq_bool c_target 0
        then store (i_pcost s) target (rnd c_i) else Some (i_pcost s) in
      let! nc := store (i_ncost s) cur (rnd c_i) in
      Some (Some target, Ids (i_track s) pc nc (i_prev s) (i_next s))
  end.

(** Lines 699-700: the rows from [j] on with the number [old] get the number
    [new]. *)
Definition relabel (track : list nat) (j old new : nat) : list nat :=
  firstn j track ++ map (fun t => if t =? old then new else t) (skipn j track).

(** follow_obs, lines 682-705.  [fuel] bounds the loop, [None] when it runs
    out. *)
Fixpoint follow_obs (fuel : nat) (i track_id : nat) (used : list bool) (s : ids) : option (list bool * ids) :=
  match fuel with
  | O => None
  | S fuel =>
      let! used := store used i true in
      let! tr := store (i_track s) i track_id in
      let! (target, s) := get_next_obs i (Ids tr (i_pcost s) (i_ncost s) (i_prev s) (i_next s)) in
      match target with
      | None => Some (used, s)
      | Some j =>
          let! nx := store (i_next s) i (Some j) in
          let! u := nth_error used j in
          if u then
            let! c := nth_error (i_ncost s) i in
            let! c' := nth_error (i_pcost s) j in
            if Qeq_bool c c' then
              let! old := nth_error (i_track s) j in
              let! pv := store (i_prev s) j (Some i) in
              Some (used, Ids (relabel (i_track s) j old track_id) (i_pcost s) (i_ncost s) pv nx)
            else Some (used, Ids (i_track s) (i_pcost s) (i_ncost s) (i_prev s) nx)
          else
            let! pv := store (i_prev s) j (Some i) in
            follow_obs fuel j track_id used (Ids (i_track s) (i_pcost s) (i_ncost s) pv nx)
      end
  end.

(** Loop of set_tracks, lines 670-680. *)
Fixpoint set_tracks_loop (rows : list nat) (track_id : nat) (used : list bool) (s : ids) : option ids :=
  match rows with
  | [] => Some s
  | i :: rows' =>
      let! u := nth_error used i in
      if u then set_tracks_loop rows' track_id used s else
      let! (used, s) := follow_obs (S (length time)) i track_id used s in
      let! s := get_previous_obs i s in
      set_tracks_loop rows' (S track_id) used s
  end.
End Group.

(** set_tracks, lines 658-680, on one group. *)
Definition set_tracks meet overlap rnd (time : list Z) (window : Z) (s : ids) : option ids :=
  let! (time_s, time_e, time_ref) := build_index time in
  set_tracks_loop meet overlap rnd time window time_s time_e time_ref (seq 0 (length time)) 1 (repeat false (length time)) s.

(** ** split_network, lines 607-656 *)

(** Lines 610-613: median of the differences between the distinct dates;
    [None] for a single date (the code goes on with nan). *)
Fixpoint drop_equal (l : list Q) : list Q :=
  match l with
  | a :: (b :: _) as l' => if Qeq_bool a b then drop_equal l' else a :: drop_equal l'
  | _ => l
  end.
Fixpoint differences (l : list Q) : list Q :=
  match l with
  | a :: (b :: _) as l' => (b - a)%Q :: differences l'
  | _ => []
  end.
Definition timestep_of (time : list Q) : option Q :=
  match differences (drop_equal (qsort time)) with [] => None | d => Some (np_median d) end.

(** [int_(x)]: truncation toward zero. *)
Definition trunc (x : Q) : Z := Z.quot (Qnum x) (Zpos (Qden x)).

(** Lines 628-635. *)
Definition ids_init (n : nat) : ids := Ids (repeat 0 n) (repeat 0%Q n) (repeat 0%Q n) (repeat None n) (repeat None n).
Definition ids_slice (s : ids) (a b : nat) : ids :=
  Ids (slice (i_track s) a b) (slice (i_pcost s) a b) (slice (i_ncost s) a b) (slice (i_prev s) a b) (slice (i_next s) a b).
(** The local array is a view: what is written in it is in the whole array. *)
Definition write_back {A} (l local : list A) (a b : nat) : list A := firstn a l ++ local ++ skipn b l.
(** Lines 650-653. *)
Definition shift_links (i_s : nat) (l : list (option nat)) : list (option nat) := map (option_map (fun k => k + i_s)) l.

Section Split.
Variables (meet : nat -> nat -> bool) (overlap : nat -> nat -> Q) (rnd : Q -> Q) (window : Z).
(** Loop of lines 639-653. *)
Fixpoint split_loop (tracks : list nat) (time : list Z) (bounds : list (nat * nat)) (s : ids) : option ids :=
  match bounds with
  | [] => Some s
  | (i_s, i_e) :: bounds' =>
      if i_s =? i_e then split_loop tracks time bounds' s else
      let! g := nth_error tracks i_s in
      if g =? 0 then split_loop tracks time bounds' s else
      let! l := set_tracks (fun i j => meet (i_s + i) (i_s + j)) (fun i j => overlap (i_s + i) (i_s + j)) rnd (slice time i_s i_e) window (ids_slice s i_s i_e) in
      split_loop tracks time bounds'
        (Ids (write_back (i_track s) (i_track l) i_s i_e) (write_back (i_pcost s) (i_pcost l) i_s i_e) (write_back (i_ncost s) (i_ncost l) i_s i_e)
             (write_back (i_prev s) (shift_links i_s (i_prev l)) i_s i_e) (write_back (i_next s) (shift_links i_s (i_next l)) i_s i_e))
  end.
(** Result: the dates returned (line 656) and the other fields. *)
Definition split_network (tracks : list nat) (time : list Q) : option (list Q * ids) :=
  let! dt := timestep_of time in
  let! (track_s, track_e, _) := build_index (map Z.of_nat tracks) in
  let steps := map (fun t => trunc (t / dt)) time in
  let! s := split_loop tracks steps (combine track_s track_e) (ids_init (length tracks)) in
  Some (map (fun z => (inject_Z z * dt)%Q) steps, s).
End Split.
