(** * Resume from the file: what the file of correspondences does to the eddies
    which are waited for (the groups LastVirtualObs and LastPreviousVirtualObs).

    tracking.py lines 477-483 write them with EddiesObservations.to_netcdf
    (observation.py lines 1587-1624), lines 346-360 read them with from_netcdf
    (observation.py lines 1110-1126).  The types are those of __init__.py lines
    123-689: positions are computed in double and stored in single precision, moves
    are in double, the amplitude and the radius are packed.  The run itself is that
    of [Corr_model].  Simplification: of the fields, the positions, the moves,
    the amplitude and the speed radius, those the association looks at. *)
From Coq Require Import List Arith Bool ZArith QArith Qround.
From Verif Require Import Base Qaux Corr_model File_model.
Import ListNotations.
Local Close Scope Q_scope.
Local Open Scope nat_scope.

(** Single precision, for numbers of 1 and above: nearest multiple of
    2^(e - 23), ties to the even one, for a number in [2^e, 2^(e+1)). *)
Definition single (q : Q) : Q :=
  let n := (2 ^ (23 - Z.log2 (Qfloor q)))%Z in (inject_Z (around (q * inject_Z n)) / inject_Z n)%Q.

(** An eddy waited for. *)
Record wrow := mkwrow { lon : Q; lat : Q; dlon : Q; dlat : Q; amplitude : Q; radius_s : Q }.
(** __init__.py lines 264-278 and 368-382. *)
Definition p_amplitude : packing := Packing (Some (1 # 10000)%Q) None 0 65535.
Definition p_radius : packing := Packing (Some 50%Q) None 0 65535.
(** A packed value written then read. *)
Definition packed (p : packing) (x : Q) : option Q := let! k := write_value Netcdf false p x in Some (read_value Netcdf false 1 p k).
(** A row written then read; [r32] is the conversion to single precision. *)
Definition stored (r32 : Q -> Q) (v : wrow) : option wrow :=
  let! a := packed p_amplitude (amplitude v) in
  let! r := packed p_radius (radius_s v) in
  Some (mkwrow (r32 (lon v)) (r32 (lat v)) (dlon v) (dlat v) a r).

Section File.
  Context {V : Type} (rho : V -> option V).
  Fixpoint read_rows (l : list (@vobs V)) : option (list (@vobs V)) :=
    match l with
    | [] => Some []
    | v :: l' => let! w := rho (v_data v) in let! r := read_rows l' in Some (mkvobs w (v_track v) (v_size v) :: r)
    end.
  (** What is loaded from the file of a run. *)
  Definition read_back (f : @saved V) : option (@saved V) :=
    let rows o := match o with None => Some None | Some l => let! r := read_rows l in Some (Some r) end in
    let! v := rows (f_virt f) in
    let! p := rows (f_pvirt f) in
    Some (mksaved (f_links f) (f_id f) v p).
End File.
