(** Model of [_unwrap_one_tile] in /repo/src/spurt/workflows/emcf/_unwrap.py:59-121
    and of [main] in _cli.py:150-169 with it plugged in.

    - A complex sample is represented by its phase; the reference date, whose
      samples are 1 (SlcModel.v), has phase 0.
    - scipy's Delaunay triangulation of the valid pixels is the parameter
      [triangles]; it raises for degenerate point sets.
    - Costs other than the constant one are parameters (see CostModel.v).
    - The casts to int32 and float32 on writing are not modelled. *)
From Verif Require Import Base GraphModel McfModel EmcfModel TileModel SlcModel OverlapModel WorkflowModel.
From Coq Require Import List.
Import ListNotations.
Local Open Scope nat_scope.

(** The rows of a 2D array. *)
Fixpoint chunks {A} (width : nat) (count : nat) (flat : list A) : list (list A) :=
  match count with
  | O => []
  | S c => firstn width flat :: chunks width c (skipn width flat)
  end.
Definition cube_of {B} (r : @irreg3d Q B) : cube :=
  Cube (nd_ndim (i_data r)) (i_time_dim r)
       (chunks (nth 1 (ThreeDModel.nd_shape (i_data r)) 0) (nth 0 (ThreeDModel.nd_shape (i_data r)) 0) (nd_flat (i_data r))).

Section Tile.
  Context (smcf : list arc -> list Z -> option (list Z))
          (triangles : list (Z * Z) -> res (list (nat * nat * nat)))
          (tsched : nat -> list nat -> list nat) (ssched : list nat -> list nat) (cpu : Z)
          (set : settings)
          (* temporal and spatial costs *)
          (tdist tcent : list Z) (sdist scent : list (Z * Z) -> list Z).

  (** _unwrap.py:59-107. With an empty selection [triangles] has already raised. *)
  Definition unwrap_one_tile (st : slc_stack Q) (g_time : graph) (tile : bbox) : res tile_file :=
    do s_time <- make_solver g_time;
    let coh := read_temporal_coherence st tile in
    let points := nonzero (map (map (above (st_threshold st))) coh) in
    do tri <- triangles points;
    let g_space := delaunay (length points) tri in
    do s_space <- make_solver g_space;
    do wrap_data <- SlcModel.read_tile 0%Q st tile;
    let data := cube_of wrap_data in
    if negb (nth 1 (irreg_shape wrap_data) 0 =? g_npoints g_space) then Err AssertionError
    else
      do uw <- unwrap_cube smcf tsched ssched cpu
                 (Emcf s_space s_time set tdist tcent (sdist points) (scent points)) data;
      let offset := map (fun ij => phase_diff (at2 (cu_data data) (fst ij) 0) (at2 (cu_data data) (snd ij) 0) 0)
                        (g_links g_time) in
      Ok (TileFile points tile uw offset).
End Tile.

(** The coherence mask that the tiling and the bulk offsets use (_tiling.py:31,
    _bulk_offset.py:61): the whole raster. *)
Definition stack_mask (st : slc_stack Q) : list (list bool) := map (map (above (st_threshold st))) (st_coh st).

(** _cli.py:150-169: the workflow on a stack. [unwrap] is [unwrap_one_tile] with
    its solvers; [e] holds folders, settings and the other solvers, its stack
    dependent fields are replaced. *)
Definition stack_env (st : slc_stack Q) (g_time : graph) (unwrap : slc_stack Q -> graph -> bbox -> res tile_file) (e : env) : env :=
  Env (e_tmp e) (e_out e) (st_dates st) (g_links g_time) (stack_mask st) (unwrap st g_time) (e_sched e) (e_use_tiles e)
      (e_tiler e) (e_parallel_tiles e) (e_min_overlap e) (e_method e) (e_bulk_method e) (e_parallel_ifgs e) (e_pick e)
      (e_root e) (e_components e) (e_mip e) (e_lsq e) (e_cg e) (e_ilu e) (e_triangles e).
Definition cli (unwrap : slc_stack Q -> graph -> bbox -> res tile_file) (st : slc_stack Q) (e : env) : prog (list string) :=
  let! g_time := lift (hop3 (Z.of_nat (length (st_files st)))) in
  main (stack_env st g_time unwrap e).
