(** [_unwrap_one_tile] (workflows/emcf/_unwrap.py:59-121) with rounded arithmetic:
    UnwrapTileModel.v with the rounded solver of FloatCubeModel.v. The samples are
    angles in the input format. *)
From Verif Require Import Base GraphModel McfModel EmcfModel TileModel SlcModel OverlapModel UnwrapTileModel FloatMcfModel FloatCubeModel.
From Coq Require Import List.
Import ListNotations.
Local Open Scope nat_scope.

Section Tile.
  Context (F : formats) (smcf : list arc -> list Z -> option (list Z))
          (triangles : list (Z * Z) -> res (list (nat * nat * nat)))
          (tsched : nat -> list nat -> list nat) (ssched : list nat -> list nat) (cpu : Z)
          (set : settings)
          (tdist tcent : list Z) (sdist scent : list (Z * Z) -> list Z).

  (** _unwrap.py:69-107; the offsets are stored as float32 (line 121), [uw_data]
      already is. *)
  Definition unwrap_one_tile_fl (st : slc_stack Q) (g_time : graph) (tile : bbox) : res tile_file :=
    do s_time <- make_solver g_time;
    let coh := read_temporal_coherence st tile in
    let points := nonzero (map (map (above (st_threshold st))) coh) in
    do tri <- triangles points;
    let g_space := delaunay (length points) tri in
    do s_space <- make_solver g_space;
    do wrap_data <- SlcModel.read_tile 0%Q st tile;
    let data := cube_of wrap_data in
    if negb (nth 1 (irreg_shape wrap_data) 0 =? g_npoints g_space) then Err AssertionError
    else
      do uw <- unwrap_cube_fl F smcf tsched ssched cpu
                 (Emcf s_space s_time set tdist tcent (sdist points) (scent points)) data;
      let offset := map (fun ij => f_s F (pd_arr F (at2 (cu_data data) (fst ij) 0) (at2 (cu_data data) (snd ij) 0)))
                        (g_links g_time) in
      Ok (TileFile points tile uw offset).
End Tile.
