(** Model of the match of two datasets (observations/observation.py) and of the
    selection of the tracks and networks of another atlas which stay close
    (observations/tracking.py, observations/network.py). *)
From Coq Require Import List Arith ZArith Bool QArith Qabs.
Import ListNotations.
From Verif Require Import Base Qaux Corr_model Obs_model Poly_model TrackObs_model Net_model NetTab_model.
Local Close Scope Q_scope.
Local Open Scope nat_scope.

(** An observation: effective contour, speed contour and centre. *)
Record eddy := Eddy { effective : list point; speed_contour : list point; centre : point }.
(** EddiesObservations.intern, observation.py lines 1180-1188: the contour used. *)
Definition contour (intern : bool) (e : eddy) : list point := if intern then speed_contour e else effective e.
(** Argument method of match with the arguments of vertice_overlap or close_center. *)
Inductive way := Overlap (mode : overlap_mode) (hybrid : bool) (min_overlap : Q) | CloseCenter (delta : Q) | OtherMethod.
(** Arguments i_self and i_other (lines 1219-1222): all, a slice or indices, a mask. *)
Inductive subset := Whole | Rows (r : rows) | Mask (m : list bool).
Definition take {A} (l : list A) (s : subset) : option (list A) :=
  match s with
  | Whole => Some l
  | Rows (Slice a b) => Some (slice l a b)
  | Rows (Index ix) => gather l ix
  | Mask m => if length m =? length l then Some (select m l) else None
  end.

Section Match.
(** Areas of the intersection of two contours and of each of them, given by the
    library Polygon. *)
Variable areas : list point -> list point -> Q * Q * Q.

(** vertice_overlap, poly.py lines 462-500, for one pair. *)
Definition pair_score (mode : overlap_mode) (hybrid : bool) (min_overlap : Q) (c0 c1 : list point) : option Q :=
  let! v1 := get_wrap_vertice c0 c1 in
  let '(i, a0, a1) := areas c0 v1 in Some (overlap_score mode hybrid min_overlap i a0 a1).
(** match, observation.py lines 1190-1234. *)
Definition match_ (w : way) (intern : bool) (cmin : Q) (self other : list eddy) (i_self i_other : subset) : option (list (nat * nat * Q)) :=
  let! s := take self i_self in
  let! o := take other i_other in
  let! scored :=
    match w with
    | Overlap mode hybrid t =>
        let x0 := map (contour intern) s in
        let x1 := map (contour intern) o in
        let! pairs := bbox_intersection x0 x1 in
        sequence (map (fun p => let! c0 := nth_error x0 (fst p) in let! c1 := nth_error x1 (snd p) in let! c := pair_score mode hybrid t c0 c1 in Some (p, c)) pairs)
    | CloseCenter delta => Some (map (fun p => (p, 1%Q)) (close_center (map centre s) (map centre o) delta))
    | OtherMethod => None (* c is not bound *)
    end in
  Some (filter (fun x => Qle_bool cmin (snd x)) scored).
(** re_reference_index, lines 1236-1249; a slice without start raises, and a mask
    would give booleans, which is not modelled. *)
Definition re_reference_index (index : list nat) (ref : rows) : option (list nat) :=
  match ref with Slice a _ => Some (map (fun k => k + a) index) | Index l => gather l index end.

(** Loops of close_tracks (tracking.py lines 571-577) and of close_network
    (network.py lines 673-679): the numbers kept, or an error; [bins] holds the
    days of the first dataset. *)
Definition close_ids (argsort : list Z -> list nat) (w : way) (intern : bool) (cmin : Q) (nb_obs_min : nat)
    (self : list eddy) (t_self : list Q) (other : list eddy) (t_other : list Q) (tracks : list nat) (bins : list Q) : option (list nat) :=
  let '(ps, ok) := align_on false (iter_on argsort false t_self (Some bins)) (iter_on argsort false t_other (Some bins)) in
  if negb ok then None else
  match ps with
  | [] => None (* concatenate of an empty list *)
  | _ =>
    let! indexs := sequence (map (fun p : aligned =>
        let '(r, s, _, _) := p in
        let! m := match_ w intern cmin self other (Rows r) (Rows s) in
        re_reference_index (map (fun x => snd (fst x)) m) s) ps) in
    let! tr := gather tracks (concat indexs) in
    Some (filter (fun t => nb_obs_min <=? count_occ Nat.eq_dec tr t) (usort tr))
  end.
(** Property period, observation.py lines 2408-2421; (nan, nan) of an empty
    dataset makes the callers below fail. *)
Definition period (t : list Q) : option (Q * Q) :=
  match t with [] => None | a :: r => Some (qmin_from a r, qmax_from a r) end.
(** close_tracks, tracking.py lines 555-577, with extract_ids (362-364).
    [rows] stands for the other fields, [virtual] for the column of this name. *)
Definition close_tracks {A} (argsort : list Z -> list nat) (w : way) (intern : bool) (cmin : Q) (nb_obs_min : nat)
    (self : list eddy) (t_self : list Q) (other : list eddy) (t_other : list Q) (tracks : list nat) (virtual : list bool) (rows : list A) : option (list nat * list A) :=
  let! p := period t_self in
  let! q := period t_other in
  if Qlt_bool (snd q) (fst p) || Qlt_bool (snd p) (fst q) then Some ([], []) else
  let! ids := close_ids argsort w intern cmin nb_obs_min self t_self other t_other tracks (qarange (fst p) (snd p + 2)%Q) in
  let! m := get_mask_from_id tracks ids in
  TrackObs_model.extract_with_mask tracks virtual rows m false false false false.
End Match.
