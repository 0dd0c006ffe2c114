(** Model of the coherence of segments: src/py_eddy_tracker/observations/network.py
    (segment_coherence_forward, segment_coherence_backward, statistics around an
    event) and src/py_eddy_tracker/observations/groups.py (advect,
    particle_candidate). *)
From Coq Require Import List Arith ZArith QArith Qabs Bool.
From Verif Require Import Base Qaux Corr_model Generic_model Split_model Obs_model Grp_model.
Import ListNotations.
Local Close Scope Q_scope.
Local Open Scope nat_scope.

(** ** Coherence of all the dates *)
Section Coherence.
(** [D]: speeds of a date; [P]: position of a particle (nan included). *)
Context {D P : Type}.
(** [load]: file of a date and its grid (network.py lines 1761-1764, 1838-1841;
    [None]: no such file); [create]: particles in the contours of some rows, with
    the rank of their contour in these rows (groups.py line 160); [drift]: moves
    of the particles, day after day, in the fields of two dates (grid.py lines
    2552-2597) with the time since the first one and the time between both;
    [locate]: rank, among some rows, of the contour which holds each particle
    (groups.py line 172). *)
Variables (load : Z -> option D) (create : list nat -> option (list P * list nat))
  (drift : list (D * D * Z * Z) -> list P -> option (list P)) (locate : list nat -> list P -> option (list (option nat))).

(** GridCollection.from_netcdf_list, grid.py lines 2358-2370: dates and fields. *)
Definition from_list (dates : list Z) : option (list (Z * D)) :=
  sequence (map (fun t => let! d := load t in Some (t, d)) dates).
(** shift_files, grid.py lines 2382-2391. *)
Definition shift_file (c : list (Z * D)) (t : Z) : option (list (Z * D)) :=
  let! d := load t in Some (tl c ++ [(t, d)]).

(** GridCollection.advect, grid.py lines 2538-2597, with one release by day
    (groups.py line 83: six steps of four hours): the pair of fields of each
    release; [None]: no more date.  Times in days. *)
Fixpoint day_pairs (backward : bool) (n : nat) (a b : Z * D) (t : Z) (rest : list (Z * D)) : option (list (D * D * Z * Z)) :=
  match n with
  | O => Some []
  | S n' =>
      let late := (if backward then t <=? fst b else fst b <=? t)%Z in
      let! s := (if late then match rest with [] => None | c :: rest' => Some (b, c, rest') end else Some (a, b, rest)) in
      let '(a', b', rest') := s in
      let! l := day_pairs backward n' a' b' (if backward then t - 1 else t + 1)%Z rest' in
      Some ((snd a', snd b', t - fst a', fst b' - fst a')%Z :: l)
  end.
(** get_next_time_step and get_previous_time_step, grid.py lines 2599-2616. *)
Definition dates_from (backward : bool) (c : list (Z * D)) (t : Z) : list (Z * D) :=
  if backward then filter (fun p => fst p <=? t)%Z (rev c) else filter (fun p => t <=? fst p)%Z c.
(** advect, groups.py lines 69-91: last time (in days) and positions.  Without
    any day the variable [t] is never set. *)
Definition advect (c : list (Z * D)) (t0 n_days : Z) (xs : list P) : option (Z * list P) :=
  let backward := (n_days <? 0)%Z in
  if (n_days =? 0)%Z then None else
  match dates_from backward c t0 with
  | a :: b :: rest =>
      let! l := day_pairs backward (Z.abs_nat n_days) a b t0 rest in
      let! xs' := drift l xs in
      Some ((t0 + n_days)%Z, xs')
  | _ => None
  end.

(** [where(eddies.time == t)[0]]. *)
Definition rows_at (times : list Q) (t : Z) : list nat := where_ (map (fun d => Qeq_bool d (inject_Z t)) times).
(** particle_candidate, groups.py lines 130-176. *)
Definition particle_candidate (c : list (Z * D)) (times : list Q) (t n_days : Z) (all : list best2) : option (list best2) :=
  let rows := rows_at times t in
  let! (xs, i_start) := create rows in
  let! (t_end, xs') := advect c t n_days xs in
  let rows_end := rows_at times t_end in
  let! i_end := locate rows_end xs' in
  get_matrix i_start i_end rows rows_end all.

(** Loops on the dates, network.py lines 1769-1799 (backward) and 1847-1874
    (forward).  The message logged after each date divides by the number of
    dates minus one. *)
Fixpoint coherence_loop (backward : bool) (times : list Q) (n_days range_start range_end : Z) (dates : list Z) (first : bool) (c : list (Z * D)) (all : list best2) : option (list best2) :=
  match dates with
  | [] => Some all
  | t :: dates' =>
      let! c' := (if first then Some c else shift_file c (if backward then t else t + n_days)%Z) in
      let! all' := particle_candidate c' times t (if backward then - n_days else n_days)%Z all in
      if (range_end - range_start - 1 =? 0)%Z then None
      else coherence_loop backward times n_days range_start range_end dates' false c' all'
  end.
(** segment_coherence_backward and segment_coherence_forward, network.py lines
    1722-1800 and 1802-1875: the two targets of each row. *)
Definition segment_coherence (backward : bool) (times : list Q) (n_days : Z) : option (list best2) :=
  match times with
  | [] => None
  | v :: r =>
      let t_start := trunc (qmin_from v r) in
      let t_end := trunc (qmax_from v r) in
      let! c := from_list (zrange t_start (Z.min (t_start + n_days + 1) (t_end + 1))) in
      let range_start := (if backward then t_start + n_days else t_start)%Z in
      let range_end := (if backward then t_end + 1 else t_end - n_days + 1)%Z in
      coherence_loop backward times n_days range_start range_end (zrange range_start range_end) true c (repeat no_target (length times))
  end.
End Coherence.

(** ** Statistics around an event *)
Section Percentile.
(** [follow], [t], [segment]: next row to follow (-1: none), date and segment of
    each row; [ind], [pct]: the two targets of each row (-1: none) and their
    percentages. *)
Variables (follow : list Z) (t : list Q) (segment : list nat) (ind : list (Z * Z)) (pct : list (Q * Q)).

(** Lines 2131-2135: percentages stored for one row, the buffer having [window]
    places; [None]: write out of it. *)
Definition add_target (window : Z) (target : nat) (index : Z) (percent : Q) (acc : list Q) : option (list Q) :=
  if (index =? -1)%Z then Some acc else
  let! s := pyget segment index in
  if s =? target then (if (Z.of_nat (length acc) <? window)%Z then Some (acc ++ [percent]) else None) else Some acc.
(** Loop of lines 2129-2136; without [fuel] it never ends. *)
Fixpoint follow_loop (fuel : nat) (window : Z) (last_t : Q) (own target : nat) (i : Z) (acc : list Q) : option (list Q) :=
  match fuel with
  | O => None
  | S fuel' =>
      let! ti := pyget t i in
      let! si := pyget segment i in
      if Qlt_bool (Qabs (last_t - ti)) (inject_Z window) && negb (i =? -1)%Z && (own =? si) then
        let! tgt := pyget ind i in
        let! pc := pyget pct i in
        let! acc1 := add_target window target (fst tgt) (fst pc) acc in
        let! acc2 := add_target window target (snd tgt) (snd pc) acc1 in
        let! i' := pyget follow i in
        follow_loop fuel' window last_t own target i' acc2
      else Some acc
  end.
(** get_percentile_on_following_obs, lines 2104-2139: the percentages given to
    the percentile; inner [None]: nan. *)
Definition percents_on_following (i i_target window : Z) (nb_min : nat) : option (option (list Q)) :=
  let! last_t := pyget t i in
  let! own := pyget segment i in
  let! target := pyget segment i_target in
  if (window <? 0)%Z then None else
  let! l := follow_loop (S (length t)) window last_t own target i [] in
  Some (if length l <? nb_min then None else Some l).
(** get_percentile_around_event, lines 2142-2188: for each event the target, the
    primary and the secondary origins. *)
Definition percents_around_event (events : list (Z * Z * Z)) (window : Z) (follow_parent : bool) (nb_min : nat)
  : option (list (option (list Q) * option (list Q))) :=
  sequence (map (fun e => let '(i, i1, i2) := e in
    let! a := (if follow_parent then percents_on_following i i1 window nb_min else percents_on_following i1 i window nb_min) in
    let! b := (if follow_parent then percents_on_following i i2 window nb_min else percents_on_following i2 i window nb_min) in
    Some (a, b)) events).
End Percentile.
