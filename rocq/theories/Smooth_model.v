(** Model of the smoothing of the positions: median_filter, loess_filter and
    position_filter of tracks, src/py_eddy_tracker/observations/tracking.py lines
    438-463, and of networks, observations/network.py lines 734-758. *)
From Coq Require Import List Arith Bool QArith.
From Verif Require Import Base Generic_model NetGroup_model TrackObs_model.
Import ListNotations.
Local Close Scope Q_scope.

(** The fields used: time, longitude, latitude, number of the track, and for a
    network number of the segment.  Floats are exact rationals. *)
Record sobs := { s_time : list Q; s_lon : list Q; s_lat : list Q; s_track : list nat; s_segment : list nat }.
Definition set_lon (o : sobs) (l : list Q) : sobs := {| s_time := s_time o; s_lon := l; s_lat := s_lat o; s_track := s_track o; s_segment := s_segment o |}.
Definition set_lat (o : sobs) (l : list Q) : sobs := {| s_time := s_time o; s_lon := s_lon o; s_lat := l; s_track := s_track o; s_segment := s_segment o |}.

(** position_filter (tracking.py lines 457-463, network.py lines 734-740): median
    then loess on the longitude against the time, in place, then on the latitude;
    [group] separates the paths: the tracks, tracking.py lines 438-455, or the
    unique numbers of the segments, network.py lines 742-758. *)
Definition filter_with (group : list nat) (mhw lhw : Q) (o : sobs) : option sobs :=
  let! a := track_median_filter np_median mhw (s_time o) (s_lon o) group in
  let! b := track_loess_filter lhw (s_time o) a group in
  let o := set_lon o b in
  let! c := track_median_filter np_median mhw (s_time o) (s_lat o) group in
  let! d := track_loess_filter lhw (s_time o) c group in
  Some (set_lat o d).
Definition position_filter (mhw lhw : Q) (o : sobs) : option sobs := filter_with (s_track o) mhw lhw o.
(** segment_track_array, network.py lines 1121-1126. *)
Definition network_position_filter (mhw lhw : Q) (o : sobs) : option sobs :=
  let! g := build_unique_array (s_segment o) (s_track o) in filter_with g mhw lhw o.
