(** Model of src/py_eddy_tracker/observations/observation.py: selections of
    observations by area, polygons and dates, first and last observations,
    contour of points, histograms. *)
From Coq Require Import List Arith ZArith QArith Qround Bool.
From Verif Require Import Base Qaux PolyIdx_model.
Import ListNotations.
Local Close Scope Q_scope.
Local Open Scope nat_scope.

(** extract_with_mask, lines 1867-1889: [rows] are the observations with all
    their fields.  An empty selection is a dataset without row. *)
Definition extract_with_mask {A} (rows : list A) (mask : list bool) : list A :=
  let nb_obs := count_true mask in
  if nb_obs =? 0 then [] else select mask rows.

(** The dictionary given to extract_with_area; [None] is an absent key. *)
Record area := { llcrnrlon : option Q; llcrnrlat : option Q; urcrnrlon : option Q; urcrnrlat : option Q }.
Definition get (o : option Q) (d : Q) : Q := match o with Some v => v | None => d end.

(** Mask of extract_with_area on one observation, lines 1842-1847. *)
Definition in_area (lat0 lat1 lon0 lon1 : Q) (x y : Q) : bool :=
  let mask := Qlt_bool lat0 y && Qlt_bool y lat1 in
  let lon := (Qmod (x - lon0) 360 + lon0)%Q in
  mask && (Qlt_bool lon0 lon && Qlt_bool lon lon1).
(** extract_with_area, lines 1826-1848; [None] is the KeyError of an absent
    longitude.  [lon] and [lat] read the fields of an observation. *)
Definition extract_with_area {A} (lon lat : A -> Q) (rows : list A) (a : area) : option (list A) :=
  let lat0 := get (llcrnrlat a) (-90) in
  let lat1 := get (urcrnrlat a) 90 in
  let! lon0 := llcrnrlon a in
  let! lon1 := urcrnrlon a in
  Some (extract_with_mask rows (map (fun r => in_area lat0 lat1 lon0 lon1 (lon r) (lat r)) rows)).

(** time_sub_sample, lines 1855-1863.  A null step (a division by zero) is not
    modelled, the result is [None]. *)
Definition time_sub_sample {A} (time : A -> Q) (rows : list A) (t0 time_step : Q) : option (list A) :=
  if Qeq_bool time_step 0 then None
  else Some (extract_with_mask rows (map (fun r => Qeq_bool (Qmod (time r - t0) time_step) 0) rows)).

(** first_obs, lines 2154-2162; [n] reads the observation number. *)
Definition first_obs {A} (n : A -> Z) (rows : list A) : list A :=
  extract_with_mask rows (map (fun r => (n r =? 0)%Z) rows).

(** Store of lines 2174: [m[:-1][self.n[1:] == 0] = True]. *)
Fixpoint mark (m : list bool) (next : list Z) : list bool :=
  match m, next with
  | b :: m', k :: next' => (if (k =? 0)%Z then true else b) :: mark m' next'
  | _, _ => m
  end.
(** last_obs, lines 2164-2175; [None] is the IndexError of [m[-1]] on a dataset
    without observation. *)
Definition last_obs {A} (n : A -> Z) (rows : list A) : option (list A) :=
  let m := repeat false (length rows) in
  let! m := pystore m (-1) true in
  let m := mark m (tl (map n rows)) in
  Some (extract_with_mask rows m).

(** mask_from_polygons, lines 1807-1824: loop over the next polygons. *)
Fixpoint mask_next (argsort : list Z -> list nat) (pts : list (Q * Q)) (polygons : list (list (Q * Q))) (m : list bool) : option (list bool) :=
  match polygons with
  | [] => Some m
  | c :: polygons' =>
      let m_ := map negb m in
      let! v := insidepoly argsort (select m_ pts) [c] in
      let! m := mask_store m_ m v in
      mask_next argsort pts polygons' m
  end.
Definition mask_from_polygons (argsort : list Z -> list nat) (pts : list (Q * Q)) (polygons : list (list (Q * Q))) : option (list bool) :=
  match polygons with
  | [] => None
  | c :: polygons' =>
      let! m := insidepoly argsort pts [c] in
      mask_next argsort pts polygons' m
  end.

(** contains, lines 2187-2203: a coordinate [None] is nan.  [contours] are the
    contours of the observations. *)
Definition known (p : option Q * option Q) : bool := match p with (Some _, Some _) => true | _ => false end.
Definition value (p : option Q * option Q) : Q * Q := (get (fst p) 0, get (snd p) 0).
Definition contains_ (argsort : list Z -> list nat) (contours : list (list (Q * Q))) (pts : list (option Q * option Q)) : option (list Z) :=
  let m := map known pts in
  let i := repeat (-1)%Z (length pts) in
  if negb (length pts =? 0) && existsb (fun b => b) m
  then let! v := poly_indexs argsort (map value (select m pts)) contours in mask_store m i v
  else Some i.
(** inside, lines 2205-2217: nan coordinates are not modelled. *)
Definition inside_ (argsort : list Z -> list nat) (contours : list (list (Q * Q))) (pts : list (Q * Q)) : option (list bool) :=
  insidepoly argsort pts contours.

(** ** Histograms *)

(** numpy / numba [histogram(x, bins, weights)], used by hist_numba
    (generic.py lines 95-98) and lines 301-303, 2072, 2077: bin [i] holds the
    values from edge [i] to edge [i + 1] excluded; the last bin holds its right
    edge too.  Values outside the edges are ignored. *)
Definition in_bin (last : bool) (a b v : Q) : bool := Qle_bool a v && (if last then Qle_bool v b else Qlt_bool v b).
Fixpoint histogram (bins : list Q) (xw : list (Q * Q)) : list Q :=
  match bins with
  | a :: ((b :: r) as bins') =>
      let last := match r with [] => true | _ => false end in
      Qsum (map snd (filter (fun p => in_bin last a b (fst p)) xw)) :: histogram bins' xw
  | _ => []
  end.
Definition hist_numba (x bins : list Q) : list Q := histogram bins (map (fun v => (v, 1%Q)) x).

(** [y_ / y] of arrays: [None] is the nan of a division by zero.  The infinity
    of a non null value divided by zero does not occur: the weights of an empty
    bin have a null sum. *)
Definition divide (a b : Q) : option Q := if Qeq_bool b 0 then None else Some (a / b)%Q.
Fixpoint divides (a b : list Q) : list (option Q) :=
  match a, b with x :: a', y :: b' => divide x y :: divides a' b' | _, _ => [] end.

(** hist, lines 285-307, [w] the weights (field [varname]).  The conversion to
    32 bits floats is not modelled.  [None] is the TypeError of the division in
    place of an array of integers, when the mean of counts is asked. *)
Definition hist (x w bins : list Q) (percent mean nb : bool) : option (list (option Q)) :=
  let v := if nb then hist_numba x bins else histogram bins (combine x w) in
  if percent then Some (map (fun a => option_map (fun q => (q * 100)%Q) (divide a (Qsum v))) v)
  else if mean then (if nb then None else Some (divides v (hist_numba x bins)))
  else Some (map Some v).

(** numpy [arange(a, b)] with a step of one. *)
Definition arange (a b : Q) : list Q := map (fun i => (a + inject_Z (Z.of_nat i))%Q) (seq 0 (Z.to_nat (Qceiling (b - a)))).
(** [v.min()], [v.max()]: [None] is the ValueError of an empty array. *)
Definition qmin (v : list Q) : option Q :=
  match v with [] => None | a :: r => Some (fold_left (fun m x => if Qlt_bool x m then x else m) r a) end.
Definition qmax (v : list Q) : option Q :=
  match v with [] => None | a :: r => Some (fold_left (fun m x => if Qlt_bool m x then x else m) r a) end.
(** Line 2073. *)
Fixpoint middles (x : list Q) : list Q :=
  match x with a :: ((b :: _) as r) => ((b + a) / 2)%Q :: middles r | _ => [] end.
(** The documented values of the argument [method]. *)
Inductive method := Count | Mean | Std.
(** bins_stat, lines 2051-2080, with a boolean mask or none (merge_filters on
    one filter). *)
Definition bins_stat (x : list Q) (bins : option (list Q)) (y : list Q) (meth : method) (mask : option (list bool)) : option (list Q * list (option Q)) :=
  let sub l := match mask with None => l | Some m => select m l end in
  let v := sub x in
  let! bins := match bins with
               | Some b => Some b
               | None => let! lo := qmin v in let! hi := qmax v in Some (arange lo (hi + 2)%Q)
               end in
  let nb := hist_numba v bins in
  let xc := middles bins in
  match meth with
  | Mean => Some (xc, divides (histogram bins (combine v (sub y))) nb)
  | _ => Some (xc, map Some nb)
  end.
