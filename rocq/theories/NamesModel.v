(** File and group names of the workflow: /repo/src/spurt/workflows/emcf/_settings.py
    ([GeneralSettings], lines 90-128) and the two derived names of
    /repo/src/spurt/workflows/emcf/_output.py:270,286.

    A [Path(folder) / name] is the string folder, "/", name; pathlib's
    normalisation of the folder part is not modelled. *)
From Coq Require Export String Ascii.
From Coq Require Import DecimalString.
From Verif Require Import Base.
Local Open Scope string_scope.

(** [str(n)] for a natural number, and the format [f"{n:02d}"]. *)
Definition str_nat (n : nat) : string := NilEmpty.string_of_uint (Nat.to_uint n).
Definition fmt02 (n : nat) : string :=
  let s := str_nat n in if Nat.ltb (String.length s) 2 then "0" ++ s else s.

Definition path_join (folder name : string) : string := folder ++ "/" ++ name.

(** _settings.py:108-110 *)
Definition tiles_jsonname (tmp : string) : string := path_join tmp "tiles.json".
(** _settings.py:112-114 *)
Definition tile_filename (tmp : string) (num : nat) : string :=
  path_join tmp ("uw_tile_" ++ fmt02 num ++ ".h5").
(** _settings.py:116-118 *)
Definition overlap_filename (tmp : string) : string := path_join tmp "overlaps.h5".
(** _settings.py:120-121 *)
Definition overlap_groupname (ii jj : nat) : string := fmt02 ii ++ "_" ++ fmt02 jj.
(** _settings.py:123-125 *)
Definition offsets_filename (tmp : string) : string := path_join tmp "bulk_offsets.h5".
(** _settings.py:127-128 *)
Definition unw_filename (out d1 d2 : string) : string :=
  path_join out (d1 ++ "_" ++ d2 ++ ".unw.tif").

(** [s.replace(old, new)] for non-empty [old]: every occurrence, left to right. *)
Fixpoint drop (n : nat) (s : string) : string :=
  match n, s with
  | S n', String _ t => drop n' t
  | _, _ => s
  end.
Fixpoint py_replace_fuel (fuel : nat) (old new s : string) : string :=
  match fuel with
  | O => s
  | S f =>
    match s with
    | "" => ""
    | String a t =>
        if String.prefix old s then new ++ py_replace_fuel f old new (drop (String.length old) s)
        else String a (py_replace_fuel f old new t)
    end
  end.
Definition py_replace (old new s : string) : string :=
  py_replace_fuel (S (String.length s)) old new s.

(** _output.py:270 and :286 *)
Definition diff_filename (fname : string) : string := py_replace ".tif" "_diff.tif" fname.
Definition model_filename (fname : string) : string := py_replace ".tif" "_model.tif" fname.
