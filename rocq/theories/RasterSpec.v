(** Vocabulary for rasters, and the contracts of rasterio. *)
From Verif Require Import Base RasterModel.
Local Open Scope string_scope.
Local Open Scope nat_scope.

(** Rows [r0, r1) and columns [c0, c1) of an [h] x [w] raster, as slices whose
    missing bounds are the ends. *)
Definition bound (o : option Z) (dflt x : nat) : Prop :=
  match o with None => x = dflt | Some z => z = Z.of_nat x end.
Definition selects (s : pslice) (n a b : nat) : Prop :=
  bound (sl_start s) 0 a /\ bound (sl_stop s) n b /\ a <= b /\ b <= n.

(** A single slice selects rows; a pair selects rows and columns. *)
Definition key_selects (k : key) (h w r0 r1 c0 c1 : nat) : Prop :=
  match k with
  | Rows rs => selects rs h r0 r1 /\ c0 = 0 /\ c1 = w
  | RowsCols rs cs => selects rs h r0 r1 /\ selects cs w c0 c1
  end.

(** [Window.from_slices] on bounds inside the raster. *)
Definition slices_contract (f : pslice -> pslice -> nat -> nat -> res window) : Prop :=
  forall rs cs h w r0 r1 c0 c1, selects rs h r0 r1 -> selects cs w c0 c1 ->
    f rs cs h w = Ok (Window r0 (r1 - r0) c0 (c1 - c0)).

(** A dataset as large as it says. *)
Definition grid {P} (b : list (list P)) (h w : nat) : Prop :=
  length b = h /\ forall i, i < h -> length (nth i b []) = w.
Definition well_formed {V P T} (ds : dataset V P T) : Prop :=
  (forall b, In b (ds_bands ds) -> grid b (ds_height ds) (ds_width ds)) /\
  length (ds_dtypes ds) = length (ds_bands ds) /\ length (ds_nodata ds) = length (ds_bands ds).

(** Pixel (i, j) of band [b] (from 1). *)
Definition pixel {V P T} (d : P) (ds : dataset V P T) (b i j : nat) : P :=
  nth j (nth i (nth (b - 1) (ds_bands ds) []) []) d.

(** Creating with mode w+: a writable dataset of the requested size and type with
    one band, which keeps the requested entries that describe the raster (creation
    options such as the compression may be stored in another form). *)
Definition kept : list string := ["width"; "height"; "count"; "dtype"; "driver"; "nodata"; "crs"; "transform"].
Definition create_contract {P T} (f : string -> dict meta -> res (dataset meta P T)) (tname : T -> string) : Prop :=
  forall fp prof h w t, dget "height" prof = Some (MNat h) -> dget "width" prof = Some (MNat w) ->
    dget "count" prof = Some (MNat 1) -> dget "dtype" prof = Some (MStr t) -> dget "driver" prof = Some (MStr "GTiff") ->
    exists ds, f fp prof = Ok ds /\ well_formed ds /\ ds_height ds = h /\ ds_width ds = w /\ length (ds_bands ds) = 1 /\
      ds_mode ds = "w+" /\ ds_closed ds = false /\ map tname (ds_dtypes ds) = [t] /\
      forall k v, In k kept -> dget k prof = Some v -> dget k (ds_profile ds) = Some v.
