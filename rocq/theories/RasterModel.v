(** Model of /repo/src/spurt/io/_raster.py: [Raster], a band of a rasterio
    dataset, and of the calls of [Raster.create] in workflows/emcf/_output.py.

    rasterio is external. A dataset is its profile (a dict), its bands (lists of
    rows), the types and nodata values of the bands, the access mode and whether
    it is closed. [Window.from_slices], [rasterio.open] and the conversion of
    values to the type of a band are function arguments; their contracts are in
    RasterSpec.v. Block layout, caching, masks and georeferencing arithmetic are
    not modelled. *)
From Coq Require Export String.
From Verif Require Import Base.
From Coq Require Export List.
Export ListNotations.
Local Open Scope string_scope.
Local Open Scope nat_scope.

(** * Dicts with string keys *)
Section Dict.
  Context {V : Type}.
  Definition dict : Type := list (string * V).
  Fixpoint dget (k : string) (m : dict) : option V :=
    match m with
    | [] => None
    | (k', v) :: t => if String.eqb k' k then Some v else dget k t
    end.
  (** [m[k] = v] *)
  Fixpoint dset (k : string) (v : V) (m : dict) : dict :=
    match m with
    | [] => [(k, v)]
    | (k', v') :: t => if String.eqb k' k then (k', v) :: t else (k', v') :: dset k v t
    end.
  (** [m | n] *)
  Definition dmerge (m n : dict) : dict := fold_left (fun m kv => dset (fst kv) (snd kv) m) n m.
  (** [if v is not None: m[k] = v] *)
  Definition dset_opt (k : string) (v : option V) (m : dict) : dict :=
    match v with None => m | Some v => dset k v m end.
End Dict.
Arguments dict : clear implicits.

(** * Datasets *)
(** [slice(start, stop)]; no step is passed on (lines 277-288). *)
Record pslice := Slice { sl_start : option Z; sl_stop : option Z }.
Definition full_slice : pslice := Slice None None.
(** [rasterio.windows.Window]: offsets and lengths. *)
Record window := Window { w_row : nat; w_rows : nat; w_col : nat; w_cols : nat }.

Section Raster.
  (** Metadata values, pixel values, and the type names of bands. *)
  Context {V P T : Type} (d : P).

  Record dataset := Dataset {
    ds_profile : dict V; ds_height : nat; ds_width : nat;
    ds_bands : list (list (list P)); ds_dtypes : list T; ds_nodata : list (option P);
    ds_mode : string; ds_closed : bool }.
  Definition ds_count (ds : dataset) : nat := length (ds_bands ds).

  (** [dataset.read(band, window=w)] for a window inside the dataset. *)
  Definition rect (w : window) (b : list (list P)) : list (list P) :=
    map (fun i => map (fun j => nth j (nth (w_row w + i) b []) d)
                    (seq (w_col w) (w_cols w))) (seq 0 (w_rows w)).
  Definition inside (w : window) (h wd : nat) : bool :=
    (w_row w + w_rows w <=? h) && (w_col w + w_cols w <=? wd).
  Definition ds_read (ds : dataset) (band : nat) (w : window) : res (list (list P)) :=
    if ds_closed ds then Err RuntimeError
    else if negb (inside w (ds_height ds) (ds_width ds)) then Err RuntimeError
    else Ok (rect w (nth (band - 1) (ds_bands ds) [])).

  (** [dataset.write(value, band, window=w)]: the value must have the shape of the
      window and the dataset must be writable. [cast] converts to the band's type. *)
  Definition writable (m : string) : bool := String.eqb m "r+" || String.eqb m "w+".
  Definition has_shape {X} (v : list (list X)) (h w : nat) : bool :=
    (length v =? h) && forallb (fun r => length r =? w) v.
  Definition patch_row (w : window) (new old : list P) : list P :=
    firstn (w_col w) old ++ new ++ skipn (w_col w + w_cols w) old.
  Definition patch (w : window) (new old : list (list P)) : list (list P) :=
    firstn (w_row w) old
    ++ map (fun nr => patch_row w (fst nr) (snd nr)) (combine new (skipn (w_row w) old))
    ++ skipn (w_row w + w_rows w) old.
  Definition ds_write (cast : T -> P -> P) (ds : dataset) (v : list (list P)) (band : nat) (w : window) : res dataset :=
    if ds_closed ds || negb (writable (ds_mode ds)) then Err RuntimeError
    else if negb (inside w (ds_height ds) (ds_width ds)) then Err RuntimeError
    else if negb (has_shape v (w_rows w) (w_cols w)) then Err ValueError
    else match nth_error (ds_dtypes ds) (band - 1) with
         | None => Err IndexError
         | Some t =>
             Ok (Dataset (ds_profile ds) (ds_height ds) (ds_width ds)
                  (upd (ds_bands ds) (band - 1)
                     (patch w (map (map (cast t)) v) (nth (band - 1) (ds_bands ds) [])))
                  (ds_dtypes ds) (ds_nodata ds) (ds_mode ds) (ds_closed ds))
         end.

  (** * Raster *)
  Record raster_obj := Raster { ra_dataset : dataset; ra_band : nat }.

  (** _raster.py:44-90. The second component: the dataset that was opened, if any.
      A band number that is out of range raises after the dataset was opened. *)
  Definition raster_init (ropen : string -> string -> option string -> res dataset)
      (fp mode : string) (band : Z) (driver : option string) : res raster_obj * option dataset :=
    if String.eqb mode "w" || String.eqb mode "w+" then (Err ValueError, None)
    else if negb (String.eqb mode "r" || String.eqb mode "r+") then (Err ValueError, None)
    else match ropen fp mode driver with
         | Err e => (Err e, None)
         | Ok ds =>
             if negb ((1 <=? band) && (band <=? Z.of_nat (ds_count ds)))%Z then (Err IndexError, Some ds)
             else (Ok (Raster ds (Z.to_nat band)), Some ds)
         end.

  (** _raster.py:92-185. [np.dtype(dtype)] is the identity here. *)
  Record create_args := CreateArgs {
    ca_width : option V; ca_height : option V; ca_dtype : option V; ca_driver : option V;
    ca_crs : option V; ca_transform : option V; ca_nodata : option V;
    ca_like : option raster_obj; ca_kwargs : dict V }.
  Definition create_profile (one : V) (a : create_args) : dict V :=
    let kw := match ca_like a with
              | None => ca_kwargs a
              | Some l => dmerge (ds_profile (ra_dataset l)) (ca_kwargs a)
              end in
    let kw := dset_opt "width" (ca_width a) kw in
    let kw := dset_opt "height" (ca_height a) kw in
    let kw := dset_opt "dtype" (ca_dtype a) kw in
    let kw := dset_opt "driver" (ca_driver a) kw in
    let kw := dset_opt "crs" (ca_crs a) kw in
    let kw := dset_opt "transform" (ca_transform a) kw in
    let kw := dset_opt "nodata" (ca_nodata a) kw in
    dset "count" one kw.
  Definition raster_create (rcreate : string -> dict V -> res dataset) (one : V) (fp : string) (a : create_args)
      : res raster_obj :=
    do ds <- rcreate fp (create_profile one a);
    Ok (Raster ds 1).

  (** _raster.py:187-254, properties *)
  Definition ra_shape (r : raster_obj) : nat * nat := (ds_height (ra_dataset r), ds_width (ra_dataset r)).
  Definition ra_dtype (r : raster_obj) : res T :=
    match nth_error (ds_dtypes (ra_dataset r)) (ra_band r - 1) with Some t => Ok t | None => Err IndexError end.
  Definition ra_nodata (r : raster_obj) : res (option P) :=
    match nth_error (ds_nodata (ra_dataset r)) (ra_band r - 1) with Some t => Ok t | None => Err IndexError end.

  (** _raster.py:256-270 *)
  Definition ds_close (ds : dataset) : dataset :=
    Dataset (ds_profile ds) (ds_height ds) (ds_width ds) (ds_bands ds) (ds_dtypes ds) (ds_nodata ds) (ds_mode ds) true.
  Definition ra_close (r : raster_obj) : raster_obj :=
    if negb (ds_closed (ra_dataset r)) then Raster (ds_close (ra_dataset r)) (ra_band r) else r.
  (** [with raster: body]: [__exit__] closes whether or not the body raised, and
      does not swallow the exception. *)
  Definition with_raster {X} (r : raster_obj) (body : raster_obj -> raster_obj * res X) : raster_obj * res X :=
    let '(r', x) := body r in (ra_close r', x).

  (** _raster.py:272-273: [np.asarray(raster)] *)
  Definition ra_array (r : raster_obj) : res (list (list P)) :=
    ds_read (ra_dataset r) (ra_band r)
      (Window 0 (ds_height (ra_dataset r)) 0 (ds_width (ra_dataset r))).

  (** _raster.py:275-288: one slice selects rows, two select rows and columns. *)
  Inductive key := Rows (r : pslice) | RowsCols (r c : pslice).
  Context (from_slices : pslice -> pslice -> nat -> nat -> res window).
  Definition window_from_slices (r : raster_obj) (k : key) : res window :=
    let '(rs, cs) := match k with Rows rs => (rs, full_slice) | RowsCols rs cs => (rs, cs) end in
    from_slices rs cs (ds_height (ra_dataset r)) (ds_width (ra_dataset r)).

  (** _raster.py:290-296 *)
  Definition ra_getitem (r : raster_obj) (k : key) : res (list (list P)) :=
    do w <- window_from_slices r k;
    ds_read (ra_dataset r) (ra_band r) w.
  Definition ra_setitem (cast : T -> P -> P) (r : raster_obj) (k : key) (v : list (list P)) : res raster_obj :=
    do w <- window_from_slices r k;
    do ds <- ds_write cast (ra_dataset r) v (ra_band r) w;
    Ok (Raster ds (ra_band r)).
End Raster.
Arguments dataset : clear implicits. Arguments raster_obj : clear implicits. Arguments create_args : clear implicits.

(** * The rasters of _output.py *)

(** Metadata values used by these calls. *)
Inductive meta := MNat (n : nat) | MStr (s : string) | MBool (b : bool) | MNaN | MOther (i : nat).

(** _output.py:174-186, 253-265, 269-281, 285-297: the four calls pass the same
    arguments apart from the file name. *)
Definition output_args {P T} (shape : nat * nat) (like : option (raster_obj meta P T)) : create_args meta P T :=
  CreateArgs (Some (MNat (snd shape))) (Some (MNat (fst shape))) (Some (MStr "float32")) (Some (MStr "GTiff"))
    None None (Some MNaN) like
    [("tiled", MBool true); ("blockxsize", MNat 512); ("blockysize", MNat 512); ("compress", MStr "DEFLATE")].

(** Create, write everything, close: _output.py:174-187 and the like. *)
Definition write_output {P T} (rcreate : string -> dict meta -> res (dataset meta P T))
    (from_slices : pslice -> pslice -> nat -> nat -> res window) (cast : T -> P -> P)
    (fp : string) (shape : nat * nat) (like : option (raster_obj meta P T)) (arr : list (list P))
    : res (raster_obj meta P T) :=
  do r <- raster_create rcreate (MNat 1) fp (output_args shape like);
  let '(r', x) := with_raster r (fun r =>
    match ra_setitem from_slices cast r (RowsCols full_slice full_slice) arr with
    | Ok r' => (r', Ok tt)
    | Err e => (r, Err e)
    end) in
  do _ <- x; Ok r'.
