(** Vocabulary: two stacks that differ only in samples that should not matter. *)
From Verif Require Import Base TileModel TileSpec SlcModel SlcSpec PipelineSpec.
From Coq Require Import List.
Import ListNotations.

(** Rasters of the same size with the same values at the pixels [P]. *)
Definition same_values {A} (P : Z * Z -> Prop) (img img' : list (list A)) : Prop :=
  same_grid img img' /\ forall x, P x -> image_at img x = image_at img' x.

(** The same files, of which the same exist, with the same samples at the pixels
    [P]; rasters of quality of the same size that select the same pixels. *)
Record same_at (P : Z * Z -> Prop) (st st' : slc_stack Q) : Prop := {
  sa_files : st_files st' = st_files st;
  sa_grid : same_grid (st_coh st) (st_coh st');
  sa_valid : forall x, valid_pixel st x <-> valid_pixel st' x;
  sa_none : forall f, st_slc st f = None <-> st_slc st' f = None;
  sa_some : forall f img img', st_slc st f = Some img -> st_slc st' f = Some img' -> same_values P img img'
}.
