(** Model of the track datasets, observations/tracking.py (class
    TrackEddiesObservations and its numba kernels) and of the two dataset
    joins of observations/observation.py.  A dataset is given by its columns;
    track numbers are naturals. *)
From Coq Require Import List Arith ZArith Bool QArith Qabs.
Import ListNotations.
From Verif Require Import Base Qaux Corr_model.
Local Close Scope Q_scope.
Local Open Scope nat_scope.

(** ** Index tables *)

(** numba compute_index, tracking.py lines 795-803.  [prev] is previous_track,
    [index] holds -1 for tracks not met yet. *)
Fixpoint compute_index_loop (i : nat) (prev : Z) (tracks : list nat)
    (index : list Z) (number : list nat) : option (list Z * list nat) :=
  match tracks with
  | [] => Some (index, number)
  | t :: rest =>
      let! index' := (if (Z.of_nat t =? prev)%Z then Some index
                      else store index t (Z.of_nat i)) in
      let! n := nth_error number t in
      let! number' := store number t (S n) in
      compute_index_loop (S i) (Z.of_nat t) rest index' number'
  end.

(** TrackEddiesObservations.compute_index, lines 301-313, seen through the
    properties index_from_track and nb_obs_by_track (lines 343-351).  The
    maximum of an empty array raises. *)
Definition compute_index (tracks : list nat) : option (list Z * list nat) :=
  match tracks with
  | [] => None
  | _ =>
      let s := S (list_max tracks) in
      compute_index_loop 0 (-1)%Z tracks (repeat (-1)%Z s) (repeat 0 s)
  end.

(** Bound of a Python slice on an array of [n] elements. *)
Definition pybound (n : nat) (z : Z) : nat :=
  if (z <? 0)%Z then Z.to_nat (z + Z.of_nat n) else Nat.min (Z.to_nat z) n.

(** numba compute_mask_from_id, lines 813-816. *)
Fixpoint compute_mask_from_id (tracks : list nat) (index : list Z) (number : list nat)
    (mask : list bool) : option (list bool) :=
  match tracks with
  | [] => Some mask
  | t :: rest =>
      let! f := nth_error index t in
      let! k := nth_error number t in
      let n := length mask in
      compute_mask_from_id rest index number
        (fill mask (pybound n f) (pybound n (f + Z.of_nat k)%Z) true)
  end.

(** get_mask_from_id, lines 296-299. *)
Definition get_mask_from_id (tracks ids : list nat) : option (list bool) :=
  let! t := compute_index tracks in
  compute_mask_from_id ids (fst t) (snd t) (repeat false (length tracks)).

(** numba count_by_track, lines 806-810, and its caller, lines 329-341. *)
Fixpoint count_by_track_loop (tracks : list nat) (mask : list bool) (number : list nat) : option (list nat) :=
  match tracks, mask with
  | t :: rest, b :: mask' =>
      if b then
        let! n := nth_error number t in
        let! number' := store number t (S n) in
        count_by_track_loop rest mask' number'
      else count_by_track_loop rest mask' number
  | _, _ => Some number
  end.
Definition count_by_track (tracks : list nat) (mask : list bool) : option (list nat) :=
  match tracks with
  | [] => None
  | _ => count_by_track_loop tracks mask (repeat 0 (S (list_max tracks)))
  end.

(** lifetime, lines 353-356. *)
Definition lifetime (tracks : list nat) : option (list nat) :=
  let! t := compute_index tracks in Some (repeat_by (snd t) (snd t)).

(** ** Extraction *)

(** compress_id branch of extract_with_mask, lines 506-513: a table
    0..max, overwritten at the present numbers by 1..k. *)
Definition compress_id (tracks : list nat) : option (list nat) :=
  let list_id := usort tracks in
  let! table := stores (seq 0 (S (list_max list_id))) list_id (seq 1 (length list_id)) in
  gather table tracks.

(** extract_with_mask, lines 465-514.  [tracks] is what the attribute track
    gives, [rows] stands for the records of the dataset, with all the fields and
    among them the field track.  Line 513 sets an attribute of the new object
    (GroupEddiesObservations has no __slots__, and nothing defines __setattr__):
    the attribute then hides the field, which is not written.  The log messages
    are left out. *)
Definition extract_with_mask {A} (tracks : list nat) (virtual : list bool) (rows : list A)
    (mask : list bool) (full_path remove_incomplete compress reject_virtual : bool)
    : option (list nat * list A) :=
  let! mask' :=
    (if full_path then
       let m := if reject_virtual
                then map (fun p => fst p && negb (snd p)) (combine mask virtual) else mask in
       get_mask_from_id tracks (usort (select m tracks))
     else if remove_incomplete then
       let! m := get_mask_from_id tracks (usort (select (map negb mask) tracks)) in
       Some (map negb m)
     else Some mask) in
  let new_tracks := select mask' tracks in
  let new_rows := select mask' rows in
  match new_tracks with
  | [] => Some ([], [])
  | _ =>
      if compress then
        let! tr := compress_id new_tracks in Some (tr, new_rows)
      else Some (new_tracks, new_rows)
  end.

(** extract_longer_eddies, lines 201-217; [nb_obs] is the argument of this name.
    obs is a plain structured array, which has no attribute track: line 212 is
    an AttributeError. *)
Definition extract_longer_eddies {A} (rows : list A) (nb_min : nat) (nb_obs : list nat) (compress : bool) : option (list A) :=
  if negb (length nb_obs =? length rows) then None
  else
    let eddies := select (map (fun k => nb_min <=? k) nb_obs) rows in
    if compress then None else Some eddies.

(** extract_with_length, lines 414-436: the mask given to extract_with_mask.
    The empty dataset is returned unchanged (empty mask). *)
Definition length_mask (tracks : list nat) (b0 b1 : Z) : option (list bool) :=
  match tracks with
  | [] => Some []
  | _ =>
      let! t := compute_index tracks in
      let nb := snd t in
      let! track_mask :=
        (if (0 <=? b0)%Z && negb (b1 =? -1)%Z then
           Some (map (fun k => (b0 <=? Z.of_nat k)%Z && (Z.of_nat k <=? b1)%Z) nb)
         else if (b0 =? -1)%Z && (0 <=? b1)%Z then
           Some (map (fun k => (Z.of_nat k <=? b1)%Z) nb)
         else if (0 <=? b0)%Z && (b1 =? -1)%Z then
           Some (map (fun k => (b0 <=? Z.of_nat k)%Z) nb)
         else None) in
      Some (repeat_by track_mask nb)
  end.

(** extract_with_period, lines 245-268, and NetworkObservations
    get_mask_with_period, network.py lines 1519-1540: the mask.  Times are
    integers (days); [self.period] (observation.py lines 2408-2420) is the
    minimum and the maximum, nan for the empty dataset, where no test is
    made. *)
Definition zmin_list (l : list Z) : Z :=
  match l with [] => 0%Z | a :: l' => fold_left Z.min l' a end.
Definition zmax_list (l : list Z) : Z :=
  match l with [] => 0%Z | a :: l' => fold_left Z.max l' a end.
Definition period_mask (time : list Z) (p_min p_max : Z) : list bool :=
  let m0 :=
    if (0 <? p_min)%Z then map (fun t => (p_min <=? t)%Z) time
    else if (p_min <? 0)%Z then map (fun t => (zmin_list time - p_min <=? t)%Z) time
    else repeat true (length time) in
  if (0 <? p_max)%Z then
    map (fun p => fst p && snd p) (combine m0 (map (fun t => (t <=? p_max)%Z) time))
  else if (p_max <? 0)%Z then
    map (fun p => fst p && snd p) (combine m0 (map (fun t => (t <=? zmax_list time + p_max)%Z) time))
  else m0.

(** ** Joins of datasets *)

(** TrackEddiesObservations.concatenate, lines 315-327, after
    EddiesObservations.concatenate (observation.py lines 529-545) has put the
    rows one after the other.  A dataset is its track column and its other
    fields.  The maximum of an empty dataset raises.  Track numbers are
    unbounded (uint32 in the code); the check that all datasets have the same
    fields is left out. *)
Fixpoint concatenate_loop {A} (last_track : nat) (obs : list (list nat * list A)) : option (list nat * list A) :=
  match obs with
  | [] => Some ([], [])
  | (tracks, rows) :: rest =>
      let new_track := map (fun t => t + last_track) tracks in
      match new_track with
      | [] => None
      | _ =>
          let! r := concatenate_loop (S (list_max new_track)) rest in
          Some (new_track ++ fst r, rows ++ snd r)
      end
  end.
Definition concatenate {A} (obs : list (list nat * list A)) : option (list nat * list A) :=
  match obs with [] => None | _ => concatenate_loop 0 obs end.

(** EddiesObservations.merge, observation.py lines 547-562, both datasets
    having a track field: the tracks of the second one are shifted by the last
    stored track of the first one plus one, read by Python index
    [nb_obs_self - 1]. *)
Definition merge_tracks (a b : list nat) : option (list nat) :=
  let! l := pyget (a ++ b) (Z.of_nat (length a) - 1)%Z in
  Some (a ++ map (fun t => t + S l) b).

(** ** Distances *)

(** distance_to_next, lines 156-171.  [dist] is the spherical distance between
    two positions. *)
Section Distance.
Variables (P : Type) (dist : P -> P -> Q).

(** [lon[:-1]] against [lon[1:]]. *)
Fixpoint steps (pts : list P) : list Q :=
  match pts with
  | p :: ((q :: _) as r) => dist p q :: steps r
  | _ => []
  end.

(** [d[z - 1] = 0] for the indices [z] in order. *)
Fixpoint zero_before (d : list Q) (ix : list Z) : option (list Q) :=
  match ix with
  | [] => Some d
  | z :: r => let! d' := pystore d (z - 1)%Z 0%Q in zero_before d' r
  end.

Definition distance_to_next (tracks : list nat) (pts : list P) : option (list Q) :=
  let! t := compute_index tracks in
  let! d := zero_before (steps pts) (tl (fst t)) in
  Some (d ++ [0%Q]).

(** add_distance, lines 148-154: [new["distance_next"][:1] = d]; numpy stores
    [n] values in a slice of one element only when [n] is 1.  The other cells
    keep the 0 of the new field. *)
Definition add_distance (tracks : list nat) (pts : list P) : option (list Q) :=
  let! d := distance_to_next tracks pts in
  match d with
  | [v] => Some [v]
  | _ => None
  end.
End Distance.

(** ** Longitudes and directions *)

(** numpy [l[ix]] with indices that can be negative. *)
Fixpoint pygather {A} (l : list A) (ix : list Z) : option (list A) :=
  match ix with
  | [] => Some []
  | z :: r => let! a := pyget l z in let! r' := pygather l r in Some (a :: r')
  end.

(** normalize_longitude, lines 173-199: [lon] then a field relative to it
    (longitude of the maximum, or one vertex of each contour). *)
Definition normalize_lon (tracks : list nat) (lon : list Q) : option (list Q) :=
  match lon with
  | [] => Some []
  | _ =>
      let! t := compute_index tracks in
      let! l0 := pygather lon (fst t) in
      let lon0 := repeat_by (map (fun l => l - 180)%Q l0) (snd t) in
      Some (map (fun p => Qmod (fst p - snd p) 360 + snd p)%Q (combine lon lon0))
  end.
Definition normalize_rel (field lon : list Q) : list Q :=
  map (fun p => Qmod (fst p - snd p + 180) 360 + snd p - 180)%Q (combine field lon).

(** extract_toward_direction, lines 366-385: the mask. *)
Definition toward_mask (tracks : list nat) (lon : list Q) (west : bool) (delta_lon : option Q) : option (list bool) :=
  let! t := compute_index tracks in
  let i1 := map (fun p => fst p - 1 + Z.of_nat (snd p))%Z (combine (fst t) (snd t)) in
  let! l1 := pygather lon i1 in
  let! l0 := pygather lon (fst t) in
  let d := map (fun p => fst p - snd p)%Q (combine l1 l0) in
  let m := map (fun x => if west then Qlt_bool x 0 else Qlt_bool 0 x) d in
  let m' := match delta_lon with
            | None => m
            | Some v => map (fun p => fst p && Qlt_bool v (snd p)) (combine m d)
            end in
  Some (repeat_by m' (snd t)).

(** extract_in_direction, lines 397-412: the mask.  [South] and [North] use
    the latitude, anything else but "W" is east. *)
Inductive direction := South | North | West | East.
Definition direction_mask (tracks : list nat) (lon lat : list Q) (dir : direction) (value : Q) : option (list bool) :=
  let! t := compute_index tracks in
  let i_stop := map (fun p => fst p + Z.of_nat (snd p) - 1)%Z (combine (fst t) (snd t)) in
  let! mask :=
    match dir with
    | South | North =>
        let! b := pygather lat i_stop in
        let! a := pygather lat (fst t) in
        Some (map (fun p =>
          let d := (fst p - snd p)%Q in
          (match dir with South => Qlt_bool d 0 | _ => Qlt_bool 0 d end) && Qlt_bool value (Qabs d)) (combine b a))
    | West | East =>
        let! a := pygather lon (fst t) in
        let! b := pygather lon i_stop in
        Some (map (fun p =>
          let lon_end := (Qmod (fst p - (snd p - 180)) 360 + snd p - 180)%Q in
          let d := (lon_end - snd p)%Q in
          (match dir with West => Qlt_bool d 0 | _ => Qlt_bool 0 d end) && Qlt_bool value (Qabs d)) (combine b a))
    end in
  Some (repeat_by mask (snd t)).

(** extract_first_obs_in_box, lines 387-395: numpy unique with return_index
    gives the first position of each distinct (box, track).  Box coordinates
    are exact. *)
Definition box_key (res : Q) (lon lat : Q) : Q * Q := ((lon - Qmod lon res)%Q, (lat - Qmod lat res)%Q).
Definition same_key (a b : (Q * Q) * nat) : bool :=
  Qeq_bool (fst (fst a)) (fst (fst b)) && Qeq_bool (snd (fst a)) (snd (fst b)) && (snd a =? snd b).
Fixpoint first_seen (seen keys : list ((Q * Q) * nat)) : list bool :=
  match keys with
  | [] => []
  | k :: r => negb (existsb (same_key k) seen) :: first_seen (k :: seen) r
  end.
Definition first_in_box_mask (res : Q) (tracks : list nat) (lon lat : list Q) : list bool :=
  first_seen [] (combine (map (fun p => box_key res (fst p) (snd p)) (combine lon lat)) tracks).

(** ** Filters along tracks *)

(** numba track_median_filter, lines 864-892.  [med] is the median of a list.
    A read out of range is an error. *)
Section Median.
Variables (hw : Q) (x : list Q) (track : list nat).

(** First inner loop. *)
Fixpoint advance_previous (fuel : nat) (xi : Q) (cur p : nat) : option nat :=
  match fuel with
  | O => None
  | S fuel' =>
      let! xp := nth_error x p in
      let! tp := nth_error track p in
      if Qlt_bool hw (xi - xp) || negb (cur =? tp) then advance_previous fuel' xi cur (S p)
      else Some p
  end.

(** Second inner loop; the test on [i_next < nb] stops the reads. *)
Fixpoint advance_next (fuel : nat) (xi : Q) (cur n : nat) : option nat :=
  match fuel with
  | O => None
  | S fuel' =>
      match nth_error x n, nth_error track n with
      | Some xn, Some tn =>
          if Qle_bool (xn - xi) hw && (cur =? tn) then advance_next fuel' xi cur (S n) else Some n
      | _, _ => Some n
      end
  end.

Fixpoint median_loop {Y} (med : list Y -> Y) (y : list Y) (is : list nat) (p n : nat) : option (list Y) :=
  match is with
  | [] => Some []
  | i :: rest =>
      let! xi := nth_error x i in
      let! cur := nth_error track i in
      let! p' := advance_previous (S (length x)) xi cur p in
      let! n' := advance_next (S (length x)) xi cur n in
      let! r := median_loop med y rest p' n' in
      Some (med (slice y p' n') :: r)
  end.
End Median.
Definition track_median_filter {Y} (med : list Y -> Y) (hw : Q) (x : list Q) (y : list Y) (track : list nat) : option (list Y) :=
  median_loop hw x track med y (seq 0 (length y)) 0 0.

(** The median of numpy on rationals: middle value of the sorted list, mean of
    the two middle values for an even size (library function). *)
Fixpoint qinsert (a : Q) (l : list Q) : list Q :=
  match l with
  | [] => [a]
  | b :: l' => if Qle_bool a b then a :: l else b :: qinsert a l'
  end.
Definition qsort (l : list Q) : list Q := fold_right qinsert [] l.
Definition np_median (l : list Q) : Q :=
  let s := qsort l in
  let n := length s in
  ((nth ((n - 1) / 2) s 0 + nth (n / 2) s 0) / 2)%Q.

(** numba track_loess_filter, lines 819-861. *)
Section Loess.
Variables (hw : Q) (x y : list Q) (track : list nat).
Definition cube (a : Q) : Q := (a * a * a)%Q.
Definition loess_weight (dx : Q) : Q := cube (1 - cube (dx / hw)).

(** Backward loop: [p] is i_previous; stops at [p = 0]. *)
Fixpoint loess_back (xi : Q) (cur p : nat) (acc : Q * Q) : option (Q * Q) :=
  match p with
  | O => Some acc
  | S p' =>
      let! xp := nth_error x p in
      let! tp := nth_error track p in
      let! yp := nth_error y p in
      let dx := (xi - xp)%Q in
      if Qlt_bool dx hw && (cur =? tp) then
        let w := loess_weight dx in
        loess_back xi cur p' (fst acc + yp * w, snd acc + w)%Q
      else Some acc
  end.

(** Forward loop: [n] is i_next, [k] is [last - n]; stops at [n = last]. *)
Fixpoint loess_next (xi : Q) (cur k n : nat) (acc : Q * Q) : option (Q * Q) :=
  match k with
  | O => Some acc
  | S k' =>
      let! xn := nth_error x n in
      let! tn := nth_error track n in
      let! yn := nth_error y n in
      let dx := (xn - xi)%Q in
      if Qlt_bool dx hw && (cur =? tn) then
        let w := loess_weight dx in
        loess_next xi cur k' (S n) (fst acc + yn * w, snd acc + w)%Q
      else Some acc
  end.

Definition loess_at (i : nat) : option Q :=
  let last := length y - 1 in
  let! xi := nth_error x i in
  let! cur := nth_error track i in
  let! yi := nth_error y i in
  let! a := (if i =? 0 then Some (yi, 1%Q) else loess_back xi cur (i - 1) (yi, 1%Q)) in
  let! b := (if i =? last then Some a else loess_next xi cur (last - (i + 1)) (i + 1) a) in
  Some (fst b / snd b)%Q.
End Loess.

Definition track_loess_filter (hw : Q) (x y : list Q) (track : list nat) : option (list Q) :=
  sequence (map (loess_at hw x y track) (seq 0 (length y))).
