(** Model of src/py_eddy_tracker/dataset/grid.py (advection of particles,
    filaments, time windows of a collection) and of the interpolation of
    src/py_eddy_tracker/generic.py.  Floats are exact rationals. *)
From Coq Require Import List Arith ZArith QArith Qround Qabs Bool.
From Verif Require Import Base Qaux Split_model Grid_model.
Import ListNotations.
Local Close Scope Q_scope.
Local Open Scope nat_scope.

(** [g[i, j]] on a matrix stored by columns of constant longitude; negative
    indices count from the end. *)
Definition get2 {A} (g : list (list A)) (i j : Z) : option A := let! r := pyget g i in pyget r j.
(** [m.shape]. *)
Definition shape2 {A} (g : list (list A)) : Z * Z :=
  (Z.of_nat (length g), Z.of_nat (match g with [] => 0 | r :: _ => length r end)).

(** ** Cells *)

(** Coordinates as read by all the functions: first value, step and size of both
    axes (lines 2111-2115, 2214-2218, 2641-2645, 2772-2776). *)
Record frame := { f_x0 : Q; f_y0 : Q; f_xs : Q; f_ys : Q; f_nx : Z; f_ny : Z; f_circ : bool }.
Definition frame_of (x_g y_g : list Q) : option frame :=
  let! x0 := pyget x_g 0 in let! x1 := pyget x_g 1 in
  let! y0 := pyget y_g 0 in let! y1 := pyget y_g 1 in
  let! c := is_circular x_g in
  Some {| f_x0 := x0; f_y0 := y0; f_xs := (x1 - x0)%Q; f_ys := (y1 - y0)%Q;
          f_nx := Z.of_nat (length x_g); f_ny := Z.of_nat (length y_g); f_circ := c |}.
(** [nb_x = nb_x_ if is_circular else 0]. *)
Definition wrap_size (f : frame) : Z := if f_circ f then f_nx f else 0%Z.

(** get_grid_indices, lines 2721-2742. *)
Definition get_grid_indices (x0 y0 x_step y_step x y : Q) (nb_x : Z) : Z * Z * Q * Q :=
  let i := ((x - x0) / x_step)%Q in
  let j := ((y - y0) / y_step)%Q in
  let i0 := Qfloor i in
  let j0 := Qfloor j in
  let xd := (i - inject_Z i0)%Q in
  let yd := (j - inject_Z j0)%Q in
  ((if (nb_x =? 0)%Z then i0 else i0 mod nb_x)%Z, j0, xd, yd).

(** Values of one component at the corners (i0,j0), (i0,j1), (i1,j0), (i1,j1). *)
Record quad := { q00 : Q; q01 : Q; q10 : Q; q11 : Q }.
(** The four values read at the corners. *)
Definition corners {A} (g : list (list A)) (i0 j0 i1 j1 : Z) : option (A * A * A * A) :=
  let! a := get2 g i0 j0 in let! b := get2 g i0 j1 in let! c := get2 g i1 j0 in let! d := get2 g i1 j1 in
  Some (a, b, c, d).
Definition to_quad (c : Q * Q * Q * Q) : quad :=
  let '(a, b, c, d) := c in {| q00 := a; q01 := b; q10 := c; q11 := d |}.
(** get_uv_quad, lines 2690-2718: masked flag and the two components (nan, here
    [None], when masked); the outer [None]: read out of the array. *)
Definition get_uv_quad (i0 j0 : Z) (u v : list (list Q)) (m : list (list bool)) (nb_x : Z)
  : option (bool * option (quad * quad)) :=
  let i1 := (if (nb_x =? 0)%Z then i0 + 1 else (i0 + 1) mod nb_x)%Z in
  let j1 := (j0 + 1)%Z in
  let '(i_max, j_max) := shape2 m in
  if ((i_max <=? i1) || (j_max <=? j1))%Z then Some (true, None) else
  let! ms := corners m i0 j0 i1 j1 in
  let '(a, b, c, d) := ms in
  if a || b || c || d then Some (true, None) else
  let! us := corners u i0 j0 i1 j1 in
  let! vs := corners v i0 j0 i1 j1 in
  Some (false, Some (to_quad us, to_quad vs)).

(** interp_uv, lines 2745-2764, for one component. *)
Definition bilin (xd yd : Q) (q : quad) : Q :=
  let xd_i := (1 - xd)%Q in
  let yd_i := (1 - yd)%Q in
  ((q00 q * xd_i + q10 q * xd) * yd_i + (q01 q * xd_i + q11 q * xd) * yd)%Q.
Definition interp_uv (xd yd : Q) (p : quad * quad) : Q * Q := (bilin xd yd (fst p), bilin xd yd (snd p)).

(** ** Advection *)

(** A particle: position ([None]: nan) and mask. *)
Notation particle := (option (Q * Q) * bool)%type.

Section Advect.
(** Values of the corners of a cell: the two components ([quad * quad]) or those
    of two dates; how they are read and how they give a velocity for a weight. *)
Context {P W : Type}.
Variables (f : frame) (read : Z -> Z -> option (bool * option P)) (velocity : W -> Q -> Q -> P -> Q * Q).

(** The last cell seen, with its mask and values. *)
Record cache := { c_i : Z; c_j : Z; c_masked : bool; c_val : option P }.

(** Lines 2133-2143, 2228-2240, 2658-2672, 2791-2804 and the same lines for the
    next slopes: is the cell a new one, the cache and the place in the cell. *)
Definition lookup (st : cache) (p : Q * Q) : option (bool * cache * (Q * Q)) :=
  let '(i0, j0, xd, yd) := get_grid_indices (f_x0 f) (f_y0 f) (f_xs f) (f_ys f) (fst p) (snd p) (wrap_size f) in
  if negb (i0 =? c_i st)%Z || negb (j0 =? c_j st)%Z then
    if negb (f_circ f) && ((i0 <? 0) || (f_nx f <? i0))%Z
    then Some (true, {| c_i := i0; c_j := j0; c_masked := true; c_val := c_val st |}, (xd, yd))
    else
      let! r := read i0 j0 in
      Some (true, {| c_i := i0; c_j := j0; c_masked := fst r; c_val := snd r |}, (xd, yd))
  else Some (false, st, (xd, yd)).

(** A slope: [always] tells if the mask is tested when the cell is the same (first
    slope, lines 2145 and 2806) or only on change (the three others).  Inner
    [None]: the particle is lost.  Values which are nan without mask are an error
    of the model, proved not to occur. *)
Definition slope (always : bool) (w : W) (st : cache) (p : Q * Q) : option (cache * option (Q * Q)) :=
  let! r := lookup st p in
  let '(changed, st', d) := r in
  if (always || changed) && c_masked st' then Some (st', None)
  else let! v := c_val st' in Some (st', Some (velocity w (fst d) (snd d) v)).

(** advect, lines 2222-2251; advect_t, lines 2652-2687: one step. *)
Definition euler_step (w : W) (st : cache) (p : Q * Q) : option (cache * option (Q * Q)) :=
  let! r := slope true w st p in
  match r with
  | (st', None) => Some (st', None)
  | (st', Some d) => Some (st', Some (fst p + fst d, snd p + snd d)%Q)
  end.

(** advect_rk4, lines 2131-2206; advect_t_rk4, lines 2789-2889: one step; [half]
    changes the weight for half a step. *)
Variable half : W -> W.
Definition rk4_step (w : W) (st : cache) (p : Q * Q) : option (cache * option (Q * Q)) :=
  let '(x, y) := p in
  let! r1 := slope true w st p in
  match r1 with
  | (st1, None) => Some (st1, None)
  | (st1, Some (u1, v1)) =>
      let w' := half w in
      let! r2 := slope false w' st1 (x + u1 * (1 # 2), y + v1 * (1 # 2))%Q in
      match r2 with
      | (st2, None) => Some (st2, None)
      | (st2, Some (u2, v2)) =>
          let! r3 := slope false w' st2 (x + u2 * (1 # 2), y + v2 * (1 # 2))%Q in
          match r3 with
          | (st3, None) => Some (st3, None)
          | (st3, Some (u3, v3)) =>
              let! r4 := slope false (half w') st3 (x + u3, y + v3)%Q in
              match r4 with
              | (st4, None) => Some (st4, None)
              | (st4, Some (u4, v4)) =>
                  Some (st4, Some (x + (u1 + 2 * u2 + 2 * u3 + u4) / 6, y + (v1 + 2 * v2 + 2 * v3 + v4) / 6)%Q)
              end
          end
      end
  end.

(** The steps of a particle, until it is lost (break). *)
Fixpoint run_steps (step : W -> cache -> Q * Q -> option (cache * option (Q * Q))) (ws : list W) (st : cache) (p : Q * Q)
  : option (cache * option (Q * Q)) :=
  match ws with
  | [] => Some (st, Some p)
  | w :: ws' =>
      let! r := step w st p in
      match r with
      | (st', None) => Some (st', None)
      | (st', Some p') => run_steps step ws' st' p'
      end
  end.
(** All the particles, the cache going from one to the next; masked ones are not
    moved, lost ones become nan and masked. *)
Fixpoint run_particles (step : W -> cache -> Q * Q -> option (cache * option (Q * Q))) (ws : list W) (st : cache) (ps : list particle)
  : option (list particle) :=
  match ps with
  | [] => Some []
  | (pos, true) :: ps' => let! r := run_particles step ws st ps' in Some ((pos, true) :: r)
  | (pos, false) :: ps' =>
      let! p := pos in
      let! r := run_steps step ws st p in
      let! rest := run_particles step ws (fst r) ps' in
      Some ((snd r, match snd r with None => true | Some _ => false end) :: rest)
  end.
End Advect.
Arguments cache : clear implicits.

(** Fields of one date: u, v and mask. *)
Notation fields := (list (list Q) * list (list Q) * list (list bool))%type.
Definition zeros : quad := {| q00 := 0; q01 := 0; q10 := 0; q11 := 0 |}.

(** advect, lines 2211-2251; the weight is not used. *)
Definition read1 (f : frame) (g : fields) (i j : Z) : option (bool * option (quad * quad)) :=
  let '(u, v, m) := g in get_uv_quad i j u v m (wrap_size f).
Definition velocity1 (_ : unit) (xd yd : Q) (p : quad * quad) : Q * Q := interp_uv xd yd p.
Definition start1 (sentinel : Z) : cache (quad * quad) := {| c_i := sentinel; c_j := sentinel; c_masked := false; c_val := Some (zeros, zeros) |}.
Definition advect (x_g y_g : list Q) (g : fields) (ps : list particle) (nb_step : nat) : option (list particle) :=
  let! f := frame_of x_g y_g in
  run_particles (euler_step f (read1 f g) velocity1) (repeat tt nb_step) (start1 (-100000)) ps.
(** advect_rk4, lines 2108-2208. *)
Definition advect_rk4 (x_g y_g : list Q) (g : fields) (ps : list particle) (nb_step : nat) : option (list particle) :=
  let! f := frame_of x_g y_g in
  run_particles (rk4_step f (read1 f g) velocity1 (fun w => w)) (repeat tt nb_step) (start1 (-1000000)) ps.

(** advect_t, lines 2638-2687: the masks m0 and m1 are only used together. *)
Definition read2 (f : frame) (g0 g1 : fields) (i j : Z) : option (bool * option ((quad * quad) * (quad * quad))) :=
  let! a := read1 f g0 i j in
  let! b := read1 f g1 i j in
  Some (fst a || fst b, match snd a, snd b with Some p, Some q => Some (p, q) | _, _ => None end).
Definition velocity2 (w : Q) (xd yd : Q) (p : (quad * quad) * (quad * quad)) : Q * Q :=
  let '(u0, v0) := interp_uv xd yd (fst p) in
  let '(u1, v1) := interp_uv xd yd (snd p) in
  (u0 * w + u1 * (1 - w), v0 * w + v1 * (1 - w))%Q.
Definition start2 (sentinel : Z) : cache ((quad * quad) * (quad * quad)) :=
  {| c_i := sentinel; c_j := sentinel; c_masked := false; c_val := Some ((zeros, zeros), (zeros, zeros)) |}.
Definition advect_t (x_g y_g : list Q) (g0 g1 : fields) (ps : list particle) (weights : list Q) : option (list particle) :=
  let! f := frame_of x_g y_g in
  run_particles (euler_step f (read2 f g0 g1) velocity2) weights (start2 (-100000)) ps.
(** advect_t_rk4, lines 2767-2891. *)
Definition advect_t_rk4 (x_g y_g : list Q) (g0 g1 : fields) (ps : list particle) (weights : list Q) (half_w : Q) : option (list particle) :=
  let! f := frame_of x_g y_g in
  run_particles (rk4_step f (read2 f g0 g1) velocity2 (fun w => w - half_w)%Q) weights (start2 (-1000000)) ps.

(** ** Filaments *)

(** GridDataset.filament, lines 2057-2105; GridCollection.filament, lines
    2430-2507: one coordinate pair per slot.  [store_heads] is
    [f[::size + 1] = x]. *)
Fixpoint store_heads {A} (size : nat) (buf : list A) (k : nat) (heads : list A) : list A :=
  match buf with
  | [] => []
  | b :: buf' =>
      match k with
      | O => match heads with
             | h :: heads' => h :: store_heads size buf' size heads'
             | [] => b :: store_heads size buf' size []
             end
      | S k' => b :: store_heads size buf' k' heads
      end
  end.
(** [f[1:] = f[:-1]]. *)
Definition shift_one {A} (buf : list A) : list A :=
  match buf with [] => [] | b :: _ => b :: removelast buf end.
(** [f[size::size + 1] = nan]. *)
Fixpoint clear_tails {A} (size : nat) (buf : list (option A)) (k : nat) : list (option A) :=
  match buf with
  | [] => []
  | b :: buf' => match k with O => None :: clear_tails size buf' size | S k' => b :: clear_tails size buf' k' end
  end.
(** One release: shift, clear, advect, store. *)
Definition filament_release {A} (size : nat) (buf : list (option A)) (heads : list (option A)) : list (option A) :=
  store_heads size (clear_tails size (shift_one buf) size) 0 heads.
Definition filament_start {A} (size : nat) (heads : list (option A)) : list (option A) :=
  store_heads size (repeat None (length heads * (size + 1))) 0 heads.
(** The buffer after the releases: [history] holds the positions after each
    release, oldest first. *)
Definition filament {A} (size : nat) (start : list (option A)) (history : list (list (option A))) : list (option A) :=
  fold_left (filament_release size) history (filament_start size start).

(** ** Time windows of a collection *)

(** get_next_time_step and get_previous_time_step, lines 2600-2617: dates used. *)
Definition next_times (times : list Q) (t_init : Q) : list Q := filter (fun t => negb (Qlt_bool t t_init)) times.
Definition previous_times (times : list Q) (t_init : Q) : list Q := filter (fun t => negb (Qlt_bool t_init t)) (rev times).

(** GridCollection.advect, lines 2550-2597: for each release the two dates, the
    weights and the half weight; [None]: no more date (the generator raises).
    Times in seconds (the product by 86400 is exact). *)
Record window := { w_t0 : Q; w_t1 : Q; w_time : Q; w_weights : list Q; w_half : Q }.
Section Windows.
Variables (backward : bool) (nb_step : nat) (t_step : Q).
Definition window_at (t0 t1 t : Q) : window :=
  {| w_t0 := t0; w_t1 := t1; w_time := t;
     w_weights := map (fun k => 1 - (t + inject_Z (Z.of_nat k) * t_step - t0) / (t1 - t0))%Q (seq 0 nb_step);
     w_half := (t_step / 2 / (t1 - t0))%Q |}.
Fixpoint windows (n : nat) (t0 t1 t : Q) (rest : list Q) : option (list window) :=
  match n with
  | O => Some []
  | S n' =>
      let late := if backward then Qle_bool t t1 else Qle_bool t1 t in
      let! s := (if late then match rest with [] => None | t2 :: rest' => Some (t1, t2, rest') end else Some (t0, t1, rest)) in
      let '(t0', t1', rest') := s in
      let! ws := windows n' t0' t1' (t + inject_Z (Z.of_nat nb_step) * t_step)%Q rest' in
      Some (window_at t0' t1' t :: ws)
  end.
End Windows.
Definition advect_windows (backward : bool) (nb_step : nat) (time_step : Q) (times : list Q) (t_init : Q) (n : nat) : option (list window) :=
  let dates := if backward then previous_times times t_init else next_times times t_init in
  match dates with
  | t0 :: t1 :: rest =>
      windows backward nb_step (if backward then - time_step else time_step)%Q n (t0 * 86400)%Q (t1 * 86400)%Q (t_init * 86400)%Q (map (fun t => t * 86400)%Q rest)
  | _ => None
  end.

(** GridCollection.interp, lines 2396-2421: [value d] interpolates the grid of
    date [d] ([None] : nan), missing dates raise (outer [None]). *)
Definition interp_time (times : list Q) (value : Q -> option Q) (t : Q) : option (option Q) :=
  let t0 := inject_Z (trunc t) in
  let t1 := (t0 + 1)%Q in
  if negb (existsb (Qeq_bool t0) times) || negb (existsb (Qeq_bool t1) times) then None else
  let w := ((t - t0) / (t1 - t0))%Q in
  Some (match value t0, value t1 with Some v0, Some v1 => Some (v1 * w + v0 * (1 - w))%Q | _, _ => None end).

(** ** Interpolation on a grid *)

(** interp2d_nearest, lines 204-234; [None] in the result: nan. *)
Definition nearest_at (f : frame) (z_g : list (list Q)) (p : Q * Q) : option (option Q) :=
  let i0 := qround ((fst p - f_x0 f) / f_xs f)%Q in
  let j0 := qround ((snd p - f_y0 f) / f_ys f)%Q in
  let i0 := (if f_circ f then i0 mod f_nx f else i0)%Z in
  if ((f_nx f <=? i0) || (i0 <? 0) || (j0 <? 0) || (f_ny f <=? j0))%Z then Some None
  else let! z := get2 z_g i0 j0 in Some (Some z).
Fixpoint map_opt {A B} (g : A -> option B) (l : list A) : option (list B) :=
  match l with [] => Some [] | a :: l' => let! b := g a in let! r := map_opt g l' in Some (b :: r) end.
Definition interp2d_nearest (x_g y_g : list Q) (z_g : list (list Q)) (ps : list (Q * Q)) : option (list (option Q)) :=
  let! f := frame_of x_g y_g in map_opt (nearest_at f z_g) ps.

(** interp2d_bilinear, lines 237-300: corners are kept from one point to the
    next; the kept column is the wrapped one, compared with the column before
    wrapping.  [z_val = None]: corners not set. *)
Record zcache := { z_i : Z; z_j : Z; z_masked : bool; z_val : option quad }.
Definition bilinear_at (f : frame) (z_g : list (list Q)) (m_g : list (list bool)) (st : zcache) (p : Q * Q)
  : option (zcache * option Q) :=
  let x_ := ((fst p - f_x0 f) / f_xs f)%Q in
  let y_ := ((snd p - f_y0 f) / f_ys f)%Q in
  let i0_ := Qfloor x_ in
  let j0 := Qfloor y_ in
  let! st' :=
    if negb (i0_ =? z_i st)%Z || negb (j0 =? z_j st)%Z then
      let i1 := (i0_ + 1)%Z in
      let j1 := (j0 + 1)%Z in
      let i0 := (if f_circ f then i0_ mod f_nx f else i0_)%Z in
      let i1 := (if f_circ f then i1 mod f_nx f else i1)%Z in
      if ((f_nx f <=? i1) || (i0 <? 0) || (j0 <? 0) || (f_ny f <=? j1))%Z
      then Some {| z_i := i0; z_j := j0; z_masked := true; z_val := z_val st |}
      else
        let! ms := corners m_g i0 j0 i1 j1 in
        let '(a, b, c, d) := ms in
        if a || b || c || d then Some {| z_i := i0; z_j := j0; z_masked := true; z_val := z_val st |}
        else let! zs := corners z_g i0 j0 i1 j1 in
             Some {| z_i := i0; z_j := j0; z_masked := false; z_val := Some (to_quad zs) |}
    else Some st in
  if z_masked st' then Some (st', None)
  else
    let! q := z_val st' in
    let xd := (x_ - inject_Z i0_)%Q in
    let yd := (y_ - inject_Z j0)%Q in
    Some (st', Some ((q00 q * (1 - xd) + q10 q * xd) * (1 - yd) + (q01 q * (1 - xd) + q11 q * xd) * yd)%Q).
Fixpoint bilinear_loop (f : frame) (z_g : list (list Q)) (m_g : list (list bool)) (st : zcache) (ps : list (Q * Q))
  : option (list (option Q)) :=
  match ps with
  | [] => Some []
  | p :: ps' => let! r := bilinear_at f z_g m_g st p in let! rest := bilinear_loop f z_g m_g (fst r) ps' in Some (snd r :: rest)
  end.
Definition interp2d_bilinear (x_g y_g : list Q) (z_g : list (list Q)) (m_g : list (list bool)) (ps : list (Q * Q))
  : option (list (option Q)) :=
  let! f := frame_of x_g y_g in
  bilinear_loop f z_g m_g {| z_i := -100000000; z_j := -10000000; z_masked := false; z_val := None |} ps.
