(** Name and format of the files, observations/observation.py lines 1759-1786
    (EddiesObservations.write_file) and lines 748-783 (load_file).

    A name is a list of characters. The formats are the only result: what is written in the
    file is the subject of other models. [load_file] is modelled for names, neither for
    handlers nor for members of an archive. *)
From Coq Require Import List Bool Ascii String.
Import ListNotations.
From Verif Require Import Base.

Definition text := list ascii.
Definition chars (s : string) : text := list_ascii_of_string s.

Inductive format := Zarr | Netcdf.

(** str.endswith. *)
Definition eqa (a b : ascii) : bool := if ascii_dec a b then true else false.
Fixpoint starts (p l : text) : option text :=
  match p, l with
  | [], _ => Some l
  | a :: p, b :: l => if eqa a b then starts p l else None
  | _, [] => None
  end.
Definition endswith (l e : text) : bool := match starts (rev e) (rev l) with Some _ => true | None => false end.

(** [filename.replace(".nc", ".zarr")], line 1776: every occurrence from the left. *)
Fixpoint replace (l : text) : text :=
  match l with
  | [] => []
  | a :: r =>
      match r with
      | b :: (c :: q) => if eqa a "." && eqa b "n" && eqa c "c" then chars ".zarr" ++ replace q else a :: replace r
      | _ => a :: replace r
      end
  end.

(** [filename % dict(path, sign_type, prod_time)], lines 1770-1774: conversions [%(key)s] of
    the three keys and [%%]; [None] for all the others (errors in python for nearly all of
    them: the theorems are about names made of these pieces). [fuel] is the length. *)
Definition key (values : list (text * text)) (l : text) : option (text * text) :=
  fold_right (fun kv acc => match starts (chars "(" ++ fst kv ++ chars ")s") l with Some r => Some (snd kv, r) | None => acc end) None values.
Fixpoint percent (fuel : nat) (values : list (text * text)) (l : text) : option text :=
  match fuel with
  | O => match l with [] => Some [] | _ => None end
  | S fuel =>
      match l with
      | [] => Some []
      | a :: r =>
          if eqa a "%" then
            match r with
            | b :: q => if eqa b "%" then let! t := percent fuel values q in Some (a :: t)
                        else let! p := key values r in let! t := percent fuel values (snd p) in Some (fst p ++ t)
            | [] => None
            end
          else let! t := percent fuel values r in Some (a :: t)
      end
  end.

(** write_file, lines 1770-1786: name and format of the file written. *)
Definition write_file (path sign prod_time filename : text) (zarr_flag : bool) : option (text * format) :=
  let! name := percent (List.length filename) [(chars "path", path); (chars "sign_type", sign); (chars "prod_time", prod_time)] filename in
  let name := if zarr_flag then replace name else name in
  let zarr := if endswith name (chars ".zarr") then true else zarr_flag in
  Some (name, if zarr then Zarr else Netcdf).

(** load_file, lines 766-783: format in which a name is read. *)
Definition load_file (name : text) : format := if endswith name (chars ".zarr") then Zarr else Netcdf.
