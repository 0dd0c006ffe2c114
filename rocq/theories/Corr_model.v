(** Model of the tracking run: class [Correspondances] of
    [src/py_eddy_tracker/tracking.py].

    Simplifications, for the whole file: the content of one eddy is an abstract
    type [Obs] and the content of one virtual eddy an abstract type [V]; the
    association of two dates is a parameter [associate] (see [Solver_model] for
    the actual solver); integers of the columns in/out/id/n are unbounded (u2 and
    u4 in the code) with [None] for UINT32_MAX; the signed byte of segment_size
    and the unsigned byte of virtual_length are modelled.  Log messages and
    [nb_link_max] are left out. *)
From Coq Require Import List Arith ZArith Bool QArith.
From Verif Require Import Base Generic_model.
Import ListNotations.
Local Close Scope Q_scope.
Local Open Scope nat_scope.

(** One row of a correspondence array, tracking.py lines 80-87 and 113-120. *)
Record corr := mkcorr {
  c_in : nat; c_out : nat; c_id : nat; c_cost : Q; c_virtual : bool; c_vlen : nat
}.

(** Signed byte ([segment_size], __init__.py line 155). *)
Definition i8 (z : Z) : Z := ((z + 128) mod 256 - 128)%Z.
(** Unsigned byte ([VIRTUAL_DTYPE], tracking.py line 56). *)
Definition u1 (z : Z) : nat := Z.to_nat (z mod 256).

(** numpy unique: sorted without repetition. *)
Fixpoint uinsert (x : nat) (l : list nat) : list nat :=
  match l with
  | [] => [x]
  | a :: l' => if x <? a then x :: l else if x =? a then l else a :: uinsert x l'
  end.
Definition usort (l : list nat) : list nat := fold_right uinsert [] l.
Definition mem (x : nat) (l : list nat) : bool := existsb (Nat.eqb x) l.
(** numpy setdiff1d(a, b). *)
Definition setdiff1d (a b : list nat) : list nat := filter (fun x => negb (mem x b)) (usort a).

(** tracking.py lines 38-46: position of the first occurrence of each item.
    An item that is absent leaves an uninitialised cell: [None] here. *)
Fixpoint find_index (x : nat) (ar : list nat) : option nat :=
  match ar with
  | [] => None
  | a :: ar' => if a =? x then Some 0 else option_map S (find_index x ar')
  end.
Fixpoint index (ar items : list nat) : option (list nat) :=
  match items with
  | [] => Some []
  | x :: items' => let! k := find_index x ar in let! r := index ar items' in Some (k :: r)
  end.

(** id_generator (lines 284-288) applied to the cells still at UINT32_MAX
    (lines 265-274): new numbers in order, and the next free number. *)
Fixpoint number_new (cur : nat) (ids : list (option nat)) : list nat * nat :=
  match ids with
  | [] => ([], cur)
  | Some i :: r => let (l, c) := number_new cur r in (i :: l, c)
  | None :: r => let (l, c) := number_new (S cur) r in (cur :: l, c)
  end.

Section Track.
  Context {Obs V : Type}.
  (** Content of a virtual eddy seen as an ordinary one (merge, observation.py 547-562). *)
  Context (as_obs : V -> Obs).
  (** Extrapolation C = B + AB and its continuation (propagate, observation.py 1152-1174). *)
  Context (extrapolate : Obs -> Obs -> V) (prolong : V -> V).
  (** [previous.tracking(current)]: links (in, out, cost); [None] is an exception. *)
  Context (associate : list Obs -> list Obs -> option (list (nat * nat * Q))).
  Context (nb_virtual : nat).

  (** One virtual eddy: VirtualEddiesObservations, observation.py 2617-2626. *)
  Record vobs := mkvobs { v_data : V; v_track : nat; v_size : Z }.

  (** Attributes of the object during [track]; [s_links] is the list itself,
      most recent step first. *)
  Record state := mkstate {
    s_links : list (list corr);
    s_id : nat;
    s_prev2 : option (list Obs);
    s_prev : option (list Obs);
    s_cur : option (list Obs);
    s_virt : option (list vobs);
    s_pvirt : option (list vobs);
    s_flg : bool
  }.

  (** [self.virtual], line 109. *)
  Definition virtual : bool := 0 <? nb_virtual.

  (** swap_dataset, lines 170-180. *)
  Definition swap (st : state) (d : list Obs) : state :=
    mkstate (s_links st) (s_id st) (s_prev st) (s_cur st) (Some d) (s_virt st) (s_pvirt st) (s_flg st).

  (** Virtual cells of a correspondence, lines 245-262: (id, virtual_length). *)
  Definition virtual_cell (virt : option (list vobs)) (nb_real : nat) (i : nat) (id : option nat)
    : option (option nat * nat) :=
    if virtual && (nb_real <=? i) then
      let! vs := virt in let! v := nth_error vs (i - nb_real) in
      Some (Some (v_track v), u1 (v_size v))
    else Some (id, 255).
  Fixpoint virtual_cells (virt : option (list vobs)) (nb_real : nat)
    (ins : list nat) (ids : list (option nat)) : option (list (option nat * nat)) :=
    match ins, ids with
    | [], [] => Some []
    | i :: ins', id :: ids' =>
        let! x := virtual_cell virt nb_real i id in
        let! r := virtual_cells virt nb_real ins' ids' in Some (x :: r)
    | _, _ => None
    end.

  (** Assembling the structured array from its columns. *)
  Fixpoint build (nb_real : nat) (links : list (nat * nat * Q)) (ids vlens : list nat) : list corr :=
    match links, ids, vlens with
    | (i, o, c) :: links', id :: ids', k :: vlens' =>
        mkcorr i o id c (virtual && (nb_real <=? i)) k :: build nb_real links' ids' vlens'
    | _, _, _ => []
    end.

  (** store_correspondance, lines 215-278: the new array, the next free number
      and the returned flag (true on the first step). *)
  Definition store_correspondance (st : state) (nb_real : nat) (links : list (nat * nat * Q))
    : option (list corr * nat * bool) :=
    let ins := map (fun l => fst (fst l)) links in
    match s_prev2 st with
    | None =>
        let n := length links in
        Some (build nb_real links (seq (s_id st) n) (repeat 255 n), s_id st + n, true)
    | Some _ =>
        let! prev := s_prev st in
        let! last := hd_error (s_links st) in
        let! id_previous := stores (repeat None (length prev)) (map c_out last) (map (fun c => Some (c_id c)) last) in
        let! ids := gather id_previous ins in
        let! cells := virtual_cells (s_virt st) nb_real ins ids in
        let (ids', cur) := number_new (s_id st) (map fst cells) in
        Some (build nb_real links ids' (map snd cells), cur, false)
    end.

  (** Elements [l[ix]] combined by [f]. *)
  Fixpoint map3 {A B C D} (f : A -> B -> C -> D) (a : list A) (b : list B) (c : list C) : list D :=
    match a, b, c with
    | x :: a', y :: b', z :: c' => f x y z :: map3 f a' b' c'
    | _, _, _ => []
    end.

  (** recense_dead_id_to_extend, lines 290-333, with propagate
      (observation.py 1128-1178) for the new virtual observations. *)
  Definition recense (st : state) : option state :=
    match s_links st with
    | last :: before :: _ =>
        let dead_id := setdiff1d (map c_id before) (map c_id last) in
        if negb virtual then Some st
        else
          let! to_extend :=
            match s_virt st with
            | None => Some []
            | Some vs =>
                let virtual_dead := setdiff1d (map v_track vs) (map c_id last) in
                let! ix := index (map v_track vs) virtual_dead in
                let! sel := gather vs ix in
                Some (filter (fun v => (v_size v <? Z.of_nat nb_virtual)%Z) sel)
            end in
          let! i_dead := index (map c_id before) dead_id in
          let! rows := gather before i_dead in
          let! prev2 := s_prev2 st in
          let! prev := s_prev st in
          let! obs_a := gather prev2 (map c_in rows) in
          let! obs_b := gather prev (map c_out rows) in
          let fresh := map3 (fun a b t => mkvobs (extrapolate a b) t (i8 (0 + 1))) obs_a obs_b dead_id in
          let extended := map (fun v => mkvobs (prolong (v_data v)) (v_track v) (i8 (v_size v + 1))) to_extend in
          Some (mkstate (s_links st) (s_id st) (s_prev2 st) (s_prev st) (s_cur st)
                  (Some (fresh ++ extended)) (s_virt st) (s_flg st))
    | _ => None
    end.

  (** Body of the loop of [track], lines 376-403. *)
  Definition step (st0 : state) (d : list Obs) : option state :=
    let st := swap st0 d in
    let! real := s_prev st in
    let nb_real := length real in
    let! prev :=
      if s_flg st then let! vs := s_virt st in Some (real ++ map (fun v => as_obs (v_data v)) vs)
      else Some real in
    let st1 := mkstate (s_links st) (s_id st) (s_prev2 st) (Some prev) (s_cur st) (s_virt st) (s_pvirt st) (s_flg st) in
    let! links := associate prev d in
    let! (x, is_first) := store_correspondance st1 nb_real links in
    let (corrs, cur) := x in
    let st2 := mkstate (corrs :: s_links st1) cur (s_prev2 st1) (s_prev st1) (s_cur st1) (s_virt st1) (s_pvirt st1) (s_flg st1) in
    if is_first : bool then Some st2
    else
      let! st3 := recense st2 in
      Some (mkstate (s_links st3) (s_id st3) (s_prev2 st3) (s_prev st3) (s_cur st3) (s_virt st3) (s_pvirt st3)
              (if virtual then true else s_flg st3)).

  Fixpoint steps (st : state) (ds : list (list Obs)) : option state :=
    match ds with
    | [] => Some st
    | d :: ds' => let! st' := step st d in steps st' ds'
    end.

  (** State once the first file is loaded, lines 365-373 without previous file. *)
  Definition start (d : list Obs) : state := mkstate [] 0 None None (Some d) None None false.

  (** track, lines 365-403, without previous file. *)
  Definition track (ds : list (list Obs)) : option state :=
    match ds with [] => None | d :: ds' => steps (start d) ds' end.

  (** What a saved file holds: to_netcdf, lines 405-489. Names of the datasets
      are left out (the code writes a constant); values are stored unchanged. *)
  Record saved := mksaved {
    f_links : list (list corr); f_id : nat;
    f_virt : option (list vobs); f_pvirt : option (list vobs)
  }.
  (** Lines 477-483: both groups are written as soon as there is a virtual_obs;
      a missing previous_virtual_obs is an exception. *)
  Definition save (st : state) : option saved :=
    match s_virt st, s_pvirt st with
    | Some _, None => None
    | Some v, Some p => Some (mksaved (rev (s_links st)) (s_id st) (Some v) (Some p))
    | None, _ => Some (mksaved (rev (s_links st)) (s_id st) None None)
    end.

  (** from_netcdf, lines 515-558 (at least one step: FileOut[-1]; the maximum of
      an empty step raises) then load_state and the start of track, lines 335-373. *)
  Definition resume (f : saved) (ds : list (list Obs)) : option state :=
    if (length (f_links f) =? 0) || existsb (fun c => length c =? 0) (f_links f) then None
    else
      let first := S (length (f_links f)) in
      let! cur0 := nth_error ds (first - 2) in
      let! d := nth_error ds (first - 1) in
      if virtual then
        let! v := f_virt f in
        let! p := f_pvirt f in
        let cur := cur0 ++ map (fun v => as_obs (v_data v)) p in
        steps (swap (mkstate (rev (f_links f)) (f_id f) None None (Some cur) (Some v) (Some p) true) d)
              (skipn first ds)
      else
        steps (swap (mkstate (rev (f_links f)) (f_id f) None None (Some cur0) None None false) d)
              (skipn first ds).
End Track.

(** ** Counting and merging *)

(** [a[ix] += vs] for a fancy index: read all, then write all. *)
Definition add_at (a : list nat) (ix vs : list nat) : option (list nat) :=
  let! cur := gather a ix in
  stores a ix (map (fun p => fst p + snd p) (combine cur vs)).

(** prepare_merging, lines 567-577: observations by track.  [links] is in
    chronological order, [virtual] tells whether virtual columns exist. *)
Fixpoint count_obs (virtual : bool) (links : list (list corr)) (nb : list nat) : option (list nat) :=
  match links with
  | [] => Some nb
  | corrs :: links' =>
      let ids := map c_id corrs in
      let! nb1 := add_at nb ids (map (fun _ => 1) ids) in
      let! nb2 :=
        if virtual then
          let cv := filter c_virtual corrs in
          add_at nb1 (map c_id cv) (map c_vlen cv)
        else Some nb1 in
      count_obs virtual links' nb2
  end.
Definition nb_obs_by_tracks (virtual : bool) (current_id : nat) (links : list (list corr)) : option (list nat) :=
  count_obs virtual links (repeat 1 current_id).

(** [c] with another number. *)
Definition with_id (c : corr) (id : nat) : corr :=
  mkcorr (c_in c) (c_out c) id (c_cost c) (c_virtual c) (c_vlen c).

(** longer_than / shorter_than, lines 589-630: common part once the list of
    kept tracks is known (loop, lines 605-608 and 625-628). *)
Fixpoint keep_loop (keep translate : list nat) (l : list (list corr)) : option (list (list corr)) :=
  match l with
  | [] => Some []
  | corrs :: l' =>
      let kept := filter (fun c => mem (c_id c) keep) corrs in
      let! ids := gather translate (map c_id kept) in
      let! r := keep_loop keep translate l' in
      Some (map (fun p => with_id (fst p) (snd p)) (combine kept ids) :: r)
  end.
(** Lines 599-608 and 622-628. *)
Definition keep_tracks (keep : list nat) (links : list (list corr)) : option (list (list corr)) :=
  match keep with
  | [] => None
  | _ =>
      let! translate := stores (repeat 0 (S (fold_right Nat.max 0 keep))) keep (seq 0 (length keep)) in
      keep_loop keep translate links
  end.
(** Lines 589-610: when no track is long enough nothing is changed. *)
Definition longer_than (size_min : nat) (nb : list nat) (links : list (list corr))
  : option (list nat * list (list corr)) :=
  let m := map (fun n => size_min <=? n) nb in
  if negb (existsb (fun b => b) m) then Some (nb, links)
  else
    let keep := where_ m in
    let! nb' := gather nb keep in
    let! links' := keep_tracks keep links in
    Some (nb', links').
(** Lines 612-630: the maximum of an empty selection raises. *)
Definition shorter_than (size_max : nat) (nb : list nat) (links : list (list corr))
  : option (list nat * list (list corr)) :=
  let keep := where_ (map (fun n => n <? size_max) nb) in
  let! nb' := gather nb keep in
  let! links' := keep_tracks keep links in
  Some (nb', links').

(** Output of merge: one row by observation.  [r_obs] is the (date, index) copied
    in the row, [None] when nothing was written; [r_cost] the association cost. *)
Record row := mkrow { r_track : nat; r_n : nat; r_obs : option (nat * nat); r_cost : option Q }.

(** Mutable state of merge, lines 655-722: position by track, first flags, and
    the two columns written by fancy assignment. *)
Record mstate := mkmstate {
  m_pos : list nat; m_first : list bool; m_obs : list (option (nat * nat)); m_cost : list (option Q)
}.

(** Body of the loop of merge, lines 670-721, for the step between the dates
    [i] and [i+1]. A negative row index cannot be written [option nat]; [pred]
    would hide it, so an index 0 gives an error. *)
Definition minus_one (n : nat) : option nat := match n with 0 => None | S k => Some k end.
Fixpoint sequence {A} (l : list (option A)) : option (list A) :=
  match l with
  | [] => Some []
  | x :: l' => let! a := x in let! r := sequence l' in Some (a :: r)
  end.
Definition merge_step (virtual : bool) (i : nat) (corrs : list corr) (st : mstate) : option mstate :=
  let ids := map c_id corrs in
  let! index_final := gather (m_pos st) ids in
  let! firsts := gather (m_first st) ids in
  let news := select (map negb firsts) corrs in
  let! (obs1, rest) :=
    if existsb negb firsts then
      let! obs1 := stores (m_obs st) (select (map negb firsts) index_final) (map (fun c => Some (i, c_in c)) news) in
      let! pos1 := add_at (m_pos st) (map c_id news) (map (fun _ => 1) news) in
      let! first1 := stores (m_first st) ids (map (fun _ => true) ids) in
      let! final1 := gather pos1 ids in
      Some (obs1, (pos1, first1, final1))
    else Some (m_obs st, (m_pos st, m_first st, index_final)) in
  let '(pos1, first1, final1) := rest in
  let! (pos2, final2) :=
    let cv := filter c_virtual corrs in
    if virtual && negb (length cv =? 0) then
      let! pos2 := add_at pos1 (map c_id cv) (map c_vlen cv) in
      let! final2 := gather pos2 ids in
      Some (pos2, final2)
    else Some (pos1, final1) in
  let! costs_at := sequence (map minus_one final2) in
  let! cost1 := stores (m_cost st) costs_at (map (fun c => Some (c_cost c)) corrs) in
  let! obs2 := stores obs1 final2 (map (fun c => Some (S i, c_out c)) corrs) in
  let! pos3 := add_at pos2 ids (map (fun _ => 1) ids) in
  Some (mkmstate pos3 first1 obs2 cost1).

Fixpoint merge_loop (virtual : bool) (i : nat) (links : list (list corr)) (st : mstate) : option mstate :=
  match links with
  | [] => Some st
  | corrs :: links' => let! st' := merge_step virtual i corrs st in merge_loop virtual (S i) links' st'
  end.

Fixpoint zip_rows (t n : list nat) (o : list (option (nat * nat))) (c : list (option Q)) : list row :=
  match t, n, o, c with
  | t0 :: t', n0 :: n', o0 :: o', c0 :: c' => mkrow t0 n0 o0 c0 :: zip_rows t' n' o' c'
  | _, _, _, _ => []
  end.

(** merge, lines 632-722, with until = -1; [nb] is nb_obs_by_tracks. *)
Definition merge (virtual : bool) (nb : list nat) (links : list (list corr)) : option (list row) :=
  let start := excl_sums 0 nb in
  let total := sum_list nb in
  let n := map (fun p => fst p - snd p) (combine (seq 0 total) (repeat_by start nb)) in
  let track := repeat_by (seq 0 (length nb)) nb in
  let! st := merge_loop virtual 0 links
    (mkmstate start (map (fun _ => false) nb) (repeat None total) (repeat None total)) in
  Some (zip_rows track n (m_obs st) (m_cost st)).

(** get_unused_data, lines 724-755: rows of date [i] that are not used;
    [nb] is the number of observations of the date, [nb_dataset] the number of dates. *)
Definition unused_at (links : list (list corr)) (nb_dataset i nb : nat) : option (list nat) :=
  let last_dataset := i =? nb_dataset - 1 in
  let! used :=
    if i =? 0 then let! c := nth_error links 0 in Some (map c_in c)
    else if last_dataset then let! c := nth_error links (i - 1) in Some (map c_out c)
    else
      let! a := nth_error links (i - 1) in
      let! b := nth_error links i in
      Some (usort (map c_out a ++ map c_in (filter (fun c => negb (c_virtual c)) b))) in
  reverse_index used nb.

(** ** Joining two runs *)
(** Lines 199-203: the free cells from [nb_max] on get the next numbers.
    [None] in the table is UINT32_MAX, [k] the position of the head of [t]. *)
Fixpoint number_tail (nb_max k next : nat) (t : list (option nat)) : list (option nat) :=
  match t with
  | [] => []
  | None :: t' => if nb_max <=? k then Some next :: number_tail nb_max (S k) (S next) t'
                  else None :: number_tail nb_max (S k) next t'
  | Some x :: t' => Some x :: number_tail nb_max (S k) next t'
  end.
(** Lines 193-203. *)
Definition translate_table (self_last other_last : list corr) (other_id self_id : nat) : option (list (option nat)) :=
  let! t := stores (repeat None other_id) (map c_id other_last) (map (fun c => Some (c_id c)) self_last) in
  match other_last with
  | [] => None
  | _ =>
      let nb_max := fold_right Nat.max 0 (map c_id other_last) in
      Some (number_tail nb_max 0 self_id t)
  end.
(** Lines 206-207. *)
Definition rename (t : list (option nat)) (corrs : list corr) : option (list corr) :=
  let! ids := gather t (map c_id corrs) in
  let! ids' := sequence ids in
  Some (map (fun p => with_id (fst p) (snd p)) (combine corrs ids')).
(** Lines 206-207, loop. *)
Fixpoint rename_all (t : list (option nat)) (l : list (list corr)) : option (list (list corr)) :=
  match l with
  | [] => Some []
  | c :: l' => let! c' := rename t c in let! r := rename_all t l' in Some (c' :: r)
  end.
(** merge_correspondance, lines 182-213: the new list of steps and the next
    number.  [i] is the position, in the datasets of [other], of the last dataset
    of self; a number equal to UINT32_MAX is
    an error here (the code stores it). Python index i - 1 with i = 0 reads the
    last step of [other]. *)
Definition merge_correspondance (self : list (list corr)) (self_id : nat)
  (other : list (list corr)) (other_id : nat) (i : nat) : option (list (list corr) * nat) :=
  let! self_last := pyget self (-1) in
  let! other_last := pyget other (Z.of_nat i - 1) in
  let! t := translate_table self_last other_last other_id self_id in
  let! tail := rename_all t (skipn i other) in
  let! x := pyget t (-1) in
  let! x' := x in
  Some (self ++ tail, S x').

(** ** The association of two dates with the actual solver *)
From Verif Require Solver_model.
(** EddiesObservations.tracking, observation.py lines 1524-1546: the cost of each
    pair comes from [cost] ([None] is a masked cell: out of the accepted ellipse
    or refused), the links from the solver of [Solver_model], the cost of each
    link from the matrix. *)
Definition solver_associate {Obs} (cost : Obs -> Obs -> option Q) (p c : list Obs)
  : option (list (nat * nat * Q)) :=
  let M := map (fun a => map (cost a) c) p in
  let! links := Solver_model.tracking (length c) M in
  sequence (map (fun l => option_map (fun q => (fst l, snd l, q))
                            (match Solver_model.get M (fst l) (snd l) with Some q => q | None => None end)) links).
