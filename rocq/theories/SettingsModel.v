(** The settings dataclasses of /repo/src/spurt/workflows/emcf/_settings.py and
    the way /repo/src/spurt/workflows/emcf/_cli.py fills them.

    [TilerSettings] (lines 140-181) is [tiler_settings] / [tiler_post_init] of
    TileModel.v. Field types are not checked by dataclasses; the model gives each
    field its documented type. Error messages are not modelled. *)
From Coq Require Export String Ascii.
From Verif Require Import Base TileModel EmcfModel.
Import ListNotations.
Local Open Scope string_scope.
Local Open Scope Z_scope.

(** A Python float: a finite value, an infinity or not-a-number. *)
Inductive py_float := Fin (q : Q) | PInf | NInf | NaN.

(** [x <= 0.0]: false for not-a-number. *)
Definition le_zero (x : py_float) : bool :=
  match x with
  | Fin q => Qle_bool q 0
  | PInf => false
  | NInf => true
  | NaN => false
  end.

(** * SolverSettings *)

(** _settings.py:10-47. *)
Record solver_settings := SolverSettings {
  ss_t_workers : Z; ss_s_workers : Z; ss_batch : Z;
  ss_t_cost_type : string; ss_t_cost_scale : py_float;
  ss_s_cost_type : string; ss_s_cost_scale : py_float;
  ss_parallel_tiles : Z }.

(** [x in {...}] on strings. *)
Definition mem (x : string) (l : list string) : bool := existsb (String.eqb x) l.

(** _settings.py:50 *)
Definition cost_types : list string := ["constant"; "distance"; "centroid"].

(** _settings.py:49-87 *)
Definition solver_post_init (s : solver_settings) : res solver_settings :=
  if negb (mem (ss_t_cost_type s) cost_types) then Err ValueError
  else if negb (mem (ss_s_cost_type s) cost_types) then Err ValueError
  else if ss_batch s <=? 0 then Err ValueError
  else if le_zero (ss_t_cost_scale s) then Err ValueError
  else if le_zero (ss_s_cost_scale s) then Err ValueError
  else if ss_parallel_tiles s <? 1 then Err ValueError
  else if 1 <? ss_parallel_tiles s then
    if ss_t_workers s <? 1 then Err ValueError
    else if ss_s_workers s <? 1 then Err ValueError
    else Ok s
  else Ok s.

(** _settings.py:40-47, the default field values. *)
Definition solver_default : solver_settings :=
  SolverSettings 0 1 10000 "constant" (Fin 100) "constant" (Fin 100) 1.

(** The fields that EMCFSolver reads (emcf/_solver.py), as used in EmcfModel.v. *)
Definition cost_type_of (s : string) : cost_type :=
  if String.eqb s "constant" then Constant
  else if String.eqb s "distance" then Distance
  else if String.eqb s "centroid" then Centroid
  else OtherCost.
Definition emcf_settings (s : solver_settings) : settings :=
  {| t_cost_type := cost_type_of (ss_t_cost_type s);
     s_cost_type := cost_type_of (ss_s_cost_type s);
     links_per_batch := Z.to_nat (ss_batch s);
     t_worker_count := ss_t_workers s; s_worker_count := ss_s_workers s |}.

(** * MergerSettings *)

(** _settings.py:185-207 *)
Record merger_settings := MergerSettings {
  ms_min_overlap : Z; ms_method : string; ms_bulk_method : string; ms_parallel_ifgs : Z }.

(** _settings.py:209-219 *)
Definition merger_post_init (s : merger_settings) : res merger_settings :=
  if negb (mem (ms_bulk_method s) ["integer"; "L2"]) then Err ValueError
  else if negb (String.eqb (ms_method s) "dirichlet") then Err ValueError
  else Ok s.

(** _settings.py:204-207 *)
Definition merger_default : merger_settings := MergerSettings 25 "dirichlet" "L2" 1.

(** _settings.py:160-163; 5/100 stands for the double written 0.05. *)
Definition tiler_default : tiler_settings := TilerSettings 800000 16 120000 (5 # 100).

(** * GeneralSettings *)

(** A path is the list of its components, innermost first; the empty list is the
    current directory (or the root), which always exists. [None]: nothing there.
    Symbolic links, "..", permissions and concurrent changes are not modelled. *)
Definition path := list string.
Inductive node := Dir | File.
Definition tree := path -> option node.
Definition path_eqb (p q : path) : bool :=
  if list_eq_dec string_dec p q then true else false.
Definition tree_add (t : tree) (p : path) (n : node) : tree :=
  fun q => if path_eqb q p then Some n else t q.

(** [Path.is_dir] *)
Definition is_dir (t : tree) (p : path) : bool :=
  match p with
  | nil => true
  | _ => match t p with Some Dir => true | _ => false end
  end.

(** [p.mkdir(exist_ok=True)]: FileNotFoundError when the parent is missing,
    NotADirectoryError (here [RuntimeError]: any other OSError) when the parent
    is a file, FileExistsError (likewise) when [p] is a file. *)
Definition mkdir (t : tree) (p : path) : res tree :=
  match p with
  | nil => Ok t
  | _ :: parent =>
      if is_dir t parent then
        match t p with
        | None => Ok (tree_add t p Dir)
        | Some Dir => Ok t
        | Some File => Err RuntimeError
        end
      else match t parent with
           | None => Err FileNotFoundError
           | Some _ => Err RuntimeError
           end
  end.

(** _settings.py:130-137: [GeneralSettings.__post_init__] *)
Definition general_post_init (out tmp : path) (t : tree) : res tree :=
  do t <- (if is_dir t out then Ok t else mkdir t out);
  if is_dir t tmp then Ok t else mkdir t tmp.

(** * Command line *)

(** The options of _cli.py:16-108 that reach a settings object, after argparse
    has parsed them. [c_t_cost_type] is one of the three [choices]: argparse
    exits on anything else. *)
Record cli_args := CliArgs {
  c_t_workers : Z; c_s_workers : Z; c_batch : Z;
  c_t_cost_type : string; c_t_cost_scale : Z;
  c_pts_per_tile : Z; c_max_tiles : Z;
  c_merge_parallel_ifgs : Z; c_unwrap_parallel_tiles : Z; c_singletile : bool }.

(** Default values, _cli.py:39-102. *)
Definition cli_default : cli_args :=
  CliArgs 0 1 150000 "constant" 100 800000 49 1 1 false.

(** _cli.py:130-149: tiler, solver, merger settings in that order. The folders
    (lines 123-128) are [general_post_init]. *)
Definition cli_settings (a : cli_args)
  : res (bool * tiler_settings * solver_settings * merger_settings) :=
  let d := tiler_default in
  do ts <- tiler_post_init
             (TilerSettings (c_pts_per_tile a) (c_max_tiles a)
                (target_points_for_generation d) (dilation_factor d));
  do ss <- solver_post_init
             (SolverSettings (c_t_workers a) (c_s_workers a) (c_batch a)
                (c_t_cost_type a) (Fin (inject_Z (c_t_cost_scale a)))
                (ss_s_cost_type solver_default) (ss_s_cost_scale solver_default)
                (c_unwrap_parallel_tiles a));
  do ms <- merger_post_init
             (MergerSettings (ms_min_overlap merger_default) (ms_method merger_default)
                (ms_bulk_method merger_default) (c_merge_parallel_ifgs a));
  Ok (negb (c_singletile a), ts, ss, ms).
