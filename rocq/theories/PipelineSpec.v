(** Vocabulary for the workflow as a whole, from SLC files to output rasters. *)
From Verif Require Import Base TileModel SlcModel SlcSpec.
From Coq Require Import List.
Import ListNotations.

(** Pixel of an image, by coordinates that may be outside. *)
Definition image_at {A} (img : list (list A)) (x : Z * Z) : option A :=
  if ((0 <=? fst x) && (0 <=? snd x))%Z then pixel_at img (Z.to_nat (fst x)) (Z.to_nat (snd x)) else None.

(** Phase of an acquisition at a pixel; zero for the reference date. *)
Definition slc_phase (st : slc_stack Q) (date : string) (x : Z * Z) : option Q :=
  match dict_get date (st_files st) with
  | None => None
  | Some None => Some 0%Q
  | Some (Some file) => match st_slc st file with Some img => image_at img x | None => None end
  end.

(** The pixel has a temporal coherence above the threshold. *)
Definition valid_pixel (st : slc_stack Q) (x : Z * Z) : Prop :=
  exists q, image_at (st_coh st) x = Some (Some q) /\ (st_threshold st < q)%Q.

(** The coherence raster has [h] rows and [w] columns. *)
Definition coh_shape (st : slc_stack Q) (h w : Z) : Prop :=
  Z.of_nat (length (st_coh st)) = h /\ forall row, In row (st_coh st) -> Z.of_nat (length row) = w.

(** The interferometric phase of two dates at a pixel, up to whole cycles. *)
Definition ifg_value (st : slc_stack Q) (d1 d2 : string) (x : Z * Z) (v : Q) : Prop :=
  exists a b, slc_phase st d1 x = Some a /\ slc_phase st d2 x = Some b /\ cong2pi v (b - a).
