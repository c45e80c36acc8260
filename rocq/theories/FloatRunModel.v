(** The steps of workflows/emcf from the tiles to one merged interferogram, with
    rounded arithmetic and without the files in between: _cli.py:155-169 with
    get_tiles done and nothing on disk. The steps are those of FloatTileModel.v,
    FloatMergeModel.v and, for the bulk offsets, BulkModel.v, where the method
    "integer" computes with integers only. *)
From Verif Require Import Base GraphModel McfModel EmcfModel TileModel SlcModel OverlapModel BulkModel MergeModel UnwrapTileModel
  FloatCubeModel FloatMergeModel FloatTileModel.
From Coq Require Import String.
From Coq Require Import List.
Import ListNotations.
Local Open Scope nat_scope.

(** _output.py:144-171: one band of a single tile; the sum of line 72 is rounded. *)
Definition single_band_fl (fl : Q -> Q) (f : tile_file) (idx : nat) (sh : Z * Z) : res raster :=
  if negb ((idx <? length (tf_uw f)) && (idx <? length (tf_offset f)))%nat then Err IndexError
  else if negb (forallb (in_shape sh) (file_coords f)) then Err IndexError
  else
    let raw := map (fun x => fl (x + nth idx (tf_offset f) 0)%Q) (nth idx (tf_uw f) []) in
    Ok (tabulate sh (scatter (fun _ => None) (file_coords f) (map Some raw))).

Section Run.
  Context (fl fd fc : Q -> Q).
  (** [unwrap]: one tile, [unwrap_one_tile_fl] with all but the tile given *)
  Context (unwrap : bbox -> res tile_file)
          (components : nat -> list (nat * nat) -> list nat) (min_points : Z)
          (mip : mip -> option (list Z)) (lsq : list (list Q) -> list Q -> list Q)
          (solve : list (Z * Z) -> list bool -> list Q -> res (list Q)).

  (** _overlap.py:15-90, _bulk_offset.py:15-98 with the method "integer",
      _merge.py:16-109 for band [k]. [mask] is that of the whole image. *)
  Definition merged_fl (t : tileset) (mask : list (list bool)) (files : list tile_file) (k : nat) : res raster :=
    if ntiles t =? 1 then single_band_fl fl (nth 0 files (TileFile [] (BBox 0 0 0 0) [] [])) k (shape t)
    else
      do f <- compute_phasediff_deciles_fl fl fc components min_points files t;
      do ob <- get_bulk_offsets mip lsq "integer"%string f t mask;
      do omap <- overlap_map f;
      do max_degree <- get_max_degree (map file_coords files) (shape t);
      merge_band_fl fl fd solve f omap max_degree (fst ob) (shape t) files k.

  (** _unwrap.py:16-56 and the steps above *)
  Definition band_fl (t : tileset) (mask : list (list bool)) (k : nat) : res raster :=
    do files <- map_res unwrap (tiles t);
    merged_fl t mask files k.
End Run.
