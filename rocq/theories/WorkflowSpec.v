(** Vocabulary for the properties of the workflow as a whole. *)
From Verif Require Import Base TileModel JsonModel NamesModel NamesProofs OverlapModel OverlapSpec MergeModel MergeSpec WorkflowModel Props_Tile.
From Coq Require Import List Permutation.
Import ListNotations.

Definition same_files (s s' : fs) : Prop := forall n, s n = s' n.

(** Folders and dates for which no two files have the same path. *)
Definition names_ok (e : env) : Prop :=
  NoDup (e_dates e) /\ NoDup (e_ifgs e) /\
  (forall d, In d (e_dates e) -> underscore_free d) /\
  (forall d1 d2, In d1 (e_dates e) -> In d2 (e_dates e) -> occurs ".tif" (stem (e_out e) (d1, d2)) = false).

(** What is on disk. *)
Definition tileset_of (e : env) (s : fs) (t : tileset) : Prop :=
  exists txt, s (tiles_jsonname (e_tmp e)) = Some (CText txt) /\ from_json txt = Ok t.
Definition tile_files (e : env) (s : fs) (files : list tile_file) : Prop :=
  forall i f, nth_error files i = Some f -> s (tile_filename (e_tmp e) i) = Some (CTile f).
Definition absent (s : fs) (n : string) : bool := match s n with None => true | Some _ => false end.

(** The rasters of one interferogram. *)
Definition rasters (fname : string) (o : raster * raster * raster) : list write :=
  let '(arr, diff, model) := o in
  [(fname, CRaster arr); (diff_filename fname, CRaster diff); (model_filename fname, CRaster model)].

(** The intermediate files fit together: tile files hold one row of phases per
    band and no point twice, and the overlap file lists the shared points. *)
Definition sound_files (f : overlap_file) (files : list tile_file) : Prop :=
  files <> [] /\ (forall fl, In fl files -> file_ok fl /\ NoDup (tf_points fl)) /\ recorded_files f files.
Definition sound (e : env) (s : fs) : Prop :=
  forall t files f, tileset_of e s t -> length files = ntiles t -> tile_files e s files ->
    s (overlap_filename (e_tmp e)) = Some (COverlaps f) -> sound_files f files.

(** One band merged on its own: its phase, difference and model rasters. *)
Definition alone (e : env) (f : overlap_file) (omap : list (list nat)) (m : nat) (bulk : list (list Q)) (sh : Z * Z)
    (files : list tile_file) (k : nat) : res (raster * raster * raster) :=
  do ts <- start_tiles files bulk [k];
  do ts <- adjust_tiles (e_cg e) (e_ilu e) (e_triangles e) f omap m ts;
  merged_band ts k sh.

(** The interferograms without an output file. *)
Definition missing_bands (s : fs) (fnames : list string) : list nat :=
  filter (fun k => absent s (nth k fnames ""%string)) (seq 0 (length fnames)).

(** What merging must write. *)
Definition three (fname : string) : list string := [fname; diff_filename fname; model_filename fname].
Definition to_write (e : env) (s : fs) (fnames : list string) (ws : list write) : Prop :=
  exists t files, tileset_of e s t /\ length files = ntiles t /\ tile_files e s files /\
    (ntiles t = 1%nat /\ (exists outs,
       map_res (fun k => single_band (nth 0 files (TileFile [] (BBox 0 0 0 0) [] [])) k (shape t)) (missing_bands s fnames) = Ok outs /\
       ws = map (fun ko => (nth (fst ko) fnames ""%string, CRaster (snd ko))) (combine (missing_bands s fnames) outs)) \/
     ntiles t <> 1%nat /\ (exists f omap m bulk r outs,
       s (overlap_filename (e_tmp e)) = Some (COverlaps f) /\ overlap_map f = Ok omap /\
       get_max_degree (map file_coords files) (shape t) = Ok m /\
       s (offsets_filename (e_tmp e)) = Some (COffsets (e_bulk_method e) bulk r) /\ fnames <> [] /\
       map_res (alone e f omap m bulk (shape t) files) (missing_bands s fnames) = Ok outs /\
       ws = flat_map (fun ko => rasters (nth (fst ko) fnames ""%string) (snd ko)) (combine (missing_bands s fnames) outs))).

(** The pool finishes every task once. *)
Definition sched_ok (e : env) : Prop := forall l, Permutation (e_sched e l) l.

(** The same run with other parallelism. *)
Definition reschedule (e : env) (sched : list nat -> list nat) (parallel_tiles parallel_ifgs : Z) : env :=
  Env (e_tmp e) (e_out e) (e_dates e) (e_ifgs e) (e_valid e) (e_unwrap e) sched (e_use_tiles e) (e_tiler e) parallel_tiles
      (e_min_overlap e) (e_method e) (e_bulk_method e) parallel_ifgs (e_pick e) (e_root e) (e_components e) (e_mip e) (e_lsq e)
      (e_cg e) (e_ilu e) (e_triangles e).

(** An interferogram whose phase raster was written, but perhaps not the two
    rasters that follow it. *)
Definition interrupted (s c : fs) (fnames : list string) (n : string) : Prop :=
  exists fname, In fname fnames /\ absent s fname = true /\ absent c fname = false /\
    (n = diff_filename fname \/ n = model_filename fname).

(** The files of the intermediate folder. *)
Definition tmp_names (e : env) (n : string) : Prop :=
  n = tiles_jsonname (e_tmp e) \/ (exists i, n = tile_filename (e_tmp e) i) \/ n = overlap_filename (e_tmp e) \/ n = offsets_filename (e_tmp e).

Definition fresh (e : env) (s : fs) : Prop := forall n, tmp_names e n -> s n = None.

(** What unwrapping a tile must give: a file with one phase per point and band,
    whose points are distinct pixels of an [h] by [w] raster. *)
Definition unwrap_ok (e : env) (h w : Z) : Prop :=
  forall t b f, get_tiles (e_pick e) (e_root e) (e_use_tiles e) (e_tiler e) (e_valid e) = Ok t -> In b (tiles t) ->
    e_unwrap e b = Ok f -> tf_tile f = b /\ file_ok f /\ NoDup (tf_points f) /\ in_grid h w (file_coords f).
