(** What the docstrings of _settings.py ask of each field, without reference to
    the constructors of SettingsModel.v. *)
From Verif Require Import Base TileModel SettingsModel.
Import ListNotations.
Local Open Scope string_scope.
Local Open Scope Z_scope.

(** A number greater than zero; not-a-number is not one. *)
Definition positive (x : py_float) : Prop :=
  match x with Fin q => (0 < q)%Q | PInf => True | NInf | NaN => False end.

(** "Can be one of 'constant', 'distance', 'centroid'." (lines 26-34) *)
Definition known_cost (s : string) : Prop := s = "constant" \/ s = "distance" \/ s = "centroid".

(** Worker counts "must be set when num_parallel_tiles > 1" (lines 15-22), where
    a value <= 0 means "let the workflow choose". *)
Definition workers_set (s : solver_settings) : Prop :=
  1 < ss_parallel_tiles s -> 0 < ss_t_workers s /\ 0 < ss_s_workers s.

(** Everything but the number of tiles in parallel. *)
Definition documented_common (s : solver_settings) : Prop :=
  known_cost (ss_t_cost_type s) /\ known_cost (ss_s_cost_type s) /\ 0 < ss_batch s /\
  positive (ss_t_cost_scale s) /\ positive (ss_s_cost_scale s) /\ workers_set s.

(** "at least one tile in parallel": the wording of the property. *)
Definition documented_solver (s : solver_settings) : Prop :=
  documented_common s /\ 1 <= ss_parallel_tiles s.

(** "Number of tiles to process in parallel. Set to 0 for all tiles." (lines
    36-37): the wording of the docstring. *)
Definition documented_solver_docstring (s : solver_settings) : Prop :=
  documented_common s /\ 0 <= ss_parallel_tiles s.

Definition is_nan (x : py_float) : Prop := x = NaN.

Definition documented_tiler (s : tiler_settings) : Prop :=
  1 <= ts_max_tiles s /\ (0 <= dilation_factor s)%Q /\
  0 < target_points_for_generation s /\ 0 < target_points_per_tile s.

Definition documented_merger (s : merger_settings) : Prop :=
  ms_method s = "dirichlet" /\ (ms_bulk_method s = "integer" \/ ms_bulk_method s = "L2").

(** The command line reaches the solver with values that fit. *)
Definition documented_cli (a : cli_args) : Prop :=
  known_cost (c_t_cost_type a) /\ 0 < c_batch a /\ 0 < c_t_cost_scale a /\
  0 < c_pts_per_tile a /\ 1 <= c_max_tiles a /\ 1 <= c_unwrap_parallel_tiles a /\
  (1 < c_unwrap_parallel_tiles a -> 0 < c_t_workers a /\ 0 < c_s_workers a).

(** * Folders *)

(** [p] can hold entries: the top, or an existing directory. *)
Definition exists_dir (t : tree) (p : path) : Prop := p = [] \/ t p = Some Dir.

(** [p] is a directory, or can become one: nothing is there and the parent is
    a directory. *)
Definition creatable (t : tree) (p : path) : Prop :=
  exists_dir t p \/ (t p = None /\ exists_dir t (tl p)).

(** [t'] is [t] with directory [p] present. *)
Definition with_dir (t t' : tree) (p : path) : Prop :=
  exists_dir t' p /\ forall q, q <> p -> t' q = t q.
