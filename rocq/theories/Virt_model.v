(** Model of the positions of virtual eddies: [propagate] of
    [src/py_eddy_tracker/observations/observation.py] lines 1128-1178, column by
    column (and of [featured_tracking/area_tracker.py]), and one row of it, which instantiates the parameters of
    [Corr_model].

    Simplifications: positions are exact rationals; all the elements other than
    lon, lat, time and the contours form one value of type [K] by row (with
    [zero_k] for a row of zeros), all the contours one value of type [C]
    ([zero_c]). *)
From Coq Require Import List ZArith QArith Bool.
From Verif Require Import Base Obs_model Corr_model.
Import ListNotations.
Local Close Scope Q_scope.
Local Open Scope nat_scope.

Section Propagate.
Context {K C : Type} (zero_k : K) (zero_c : C).

(** One row of EddiesObservations. *)
Record eddy := Eddy { lon : Q; lat : Q; time : Q; other : K; contour : C }.
(** One row of VirtualEddiesObservations (lines 2617-2626) without track and
    segment_size, which are in [vobs]. *)
Record virtual_eddy := VEddy { row : eddy; dlon : Q; dlat : Q }.

(** The columns of a VirtualEddiesObservations. *)
Record columns := Columns {
  col_lon : list Q; col_lat : list Q; col_time : list Q; col_other : list K; col_contour : list C;
  col_dlon : list Q; col_dlat : list Q; col_track : list nat; col_size : list Z }.

(** [a - b] and [a + b] of two columns of the same size. *)
Fixpoint qminus (a b : list Q) : list Q :=
  match a, b with x :: a', y :: b' => (x - y)%Q :: qminus a' b' | _, _ => [] end.
Fixpoint qplus (a b : list Q) : list Q :=
  match a, b with x :: a', y :: b' => (x + y)%Q :: qplus a' b' | _, _ => [] end.

(** Lines 1143-1178.  [a]: previous_obs; [b]: current_obs; the loops over keys
    (lines 1154-1157 and 1165-1171) treat the same keys as [other] here, plus dlon
    and dlat for the second one; [None] is the ValueError of a column which does not fit. *)
Definition propagate (a b : list eddy) (to_extend : list (@vobs virtual_eddy)) (dead_track : list nat) (nb_next : nat) : option columns :=
  let nb_dead := length a in
  let head := Some (Z.of_nat nb_dead) in
  let zeros := repeat 0%Q nb_next in
  let! other1 := assign (repeat zero_k nb_next) None head (map other b) in
  let! dlon1 := assign zeros None head (qminus (map lon b) (map lon a)) in
  let! dlat1 := assign zeros None head (qminus (map lat b) (map lat a)) in
  let! lon1 := assign zeros None head (qplus (map lon b) (pyslice dlon1 None head)) in
  let! lat1 := assign zeros None head (qplus (map lat b) (pyslice dlat1 None head)) in
  let! track1 := assign (repeat 0 nb_next) None head dead_track in
  let! c :=
    if (0 <? Z.of_nat nb_next - Z.of_nat nb_dead)%Z then
      let ext := map v_data to_extend in
      let! other2 := assign other1 head None (map (fun v => other (row v)) ext) in
      let! dlon2 := assign dlon1 head None (map dlon ext) in
      let! dlat2 := assign dlat1 head None (map dlat ext) in
      let! lon2 := assign lon1 head None (qplus (map (fun v => lon (row v)) ext) (map dlon ext)) in
      let! lat2 := assign lat1 head None (qplus (map (fun v => lat (row v)) ext) (map dlat ext)) in
      let! track2 := assign track1 head None (map v_track to_extend) in
      let! size2 := assign (repeat 0%Z nb_next) head None (map v_size to_extend) in
      Some (Columns lon2 lat2 zeros other2 (repeat zero_c nb_next) dlon2 dlat2 track2 size2)
    else Some (Columns lon1 lat1 zeros other1 (repeat zero_c nb_next) dlon1 dlat1 track1 (repeat 0%Z nb_next)) in
  Some (Columns (col_lon c) (col_lat c) (col_time c) (col_other c) (col_contour c) (col_dlon c) (col_dlat c) (col_track c)
          (map (fun s => i8 (s + 1)) (col_size c))).

(** AreaTracker.propagate (featured_tracking/area_tracker.py lines 54-68): the
    contours are copied, without being moved. *)
Definition propagate_area (a b : list eddy) (to_extend : list (@vobs virtual_eddy)) (dead_track : list nat) (nb_next : nat) : option columns :=
  let! v := propagate a b to_extend dead_track nb_next in
  let head := Some (Z.of_nat (length a)) in
  let! contour1 := assign (col_contour v) None head (map contour b) in
  let! contour2 :=
    if (0 <? Z.of_nat nb_next - Z.of_nat (length a))%Z then assign contour1 head None (map (fun v => contour (row (v_data v))) to_extend)
    else Some contour1 in
  Some (Columns (col_lon v) (col_lat v) (col_time v) (col_other v) contour2 (col_dlon v) (col_dlat v) (col_track v) (col_size v)).

(** One row of the first part (lines 1154-1162); [area]: with AreaTracker. *)
Definition extrapolate (area : bool) (a b : eddy) : virtual_eddy :=
  VEddy (Eddy (lon b + (lon b - lon a)) (lat b + (lat b - lat a)) 0 (other b) (if area then contour b else zero_c)) (lon b - lon a) (lat b - lat a).
(** One row of the second part (lines 1165-1173). *)
Definition prolong (area : bool) (v : virtual_eddy) : virtual_eddy :=
  VEddy (Eddy (lon (row v) + dlon v) (lat (row v) + dlat v) 0 (other (row v)) (if area then contour (row v) else zero_c)) (dlon v) (dlat v).
(** Virtual eddies after the real ones in merge (lines 547-562): all the
    fields of the real ones are fields of the virtual ones. *)
Definition as_eddy (v : virtual_eddy) : eddy := row v.
End Propagate.
