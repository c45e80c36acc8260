(** Vocabulary for whole runs on conjugate stacks. *)
From Verif Require Import Base BulkModel WorkflowModel.

(** The same settings and libraries with another solver for the tile offsets. *)
Definition with_mip (e : env) (solve : mip -> option (list Z)) : env :=
  Env (e_tmp e) (e_out e) (e_dates e) (e_ifgs e) (e_valid e) (e_unwrap e) (e_sched e) (e_use_tiles e) (e_tiler e) (e_parallel_tiles e)
      (e_min_overlap e) (e_method e) (e_bulk_method e) (e_parallel_ifgs e) (e_pick e) (e_root e) (e_components e) solve (e_lsq e)
      (e_cg e) (e_ilu e) (e_triangles e).
