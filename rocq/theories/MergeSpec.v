(** Vocabulary for stating the merge properties. *)
From Verif Require Import Base TileModel OverlapModel DirichletModel MergeModel.
Local Open Scope Q_scope.

(** Entry of a (bands, points) matrix. *)
Definition at_ (m : matrix) (b p : nat) : Q := nth p (nth b m []) 0.
Definition has_shape (m : matrix) (nb np : nat) : Prop :=
  length m = nb /\ forall row, In row m -> length row = np.

(** All arrays of a tile have one row per band and one column per point. *)
Definition tile_ok (t : tile) : Prop :=
  has_shape (t_raw t) (length (t_idx t)) (npoints t) /\
  forall c, In c (t_corr t) -> has_shape c (length (t_idx t)) (npoints t).

(** The array of unwrapped phases of a tile file has one column per point. *)
Definition file_ok (f : tile_file) : Prop :=
  forall row, In row (tf_uw f) -> length row = length (tf_points f).

(** Unwrapped phase in a tile file: relative phases plus the phase of the first
    pixel. *)
Definition phase_of (f : tile_file) (band p : nat) : Q :=
  at_ (tf_uw f) band p + nth band (tf_offset f) 0.

(** What one correction adds to the phase of band [b] (of [nb]), point [p]. *)
Definition value (nb : nat) (a : carg) (b p : nat) : Q :=
  match a with
  | ANum q => q
  | A1 l => if (length l =? 1)%nat then nth 0 l 0
            else if (length l =? nb)%nat then nth b l 0 else nth p l 0
  | A2 _ rows => if (length rows =? 1)%nat then nth (if (length (nth 0 rows []) =? 1)%nat then 0 else p) (nth 0 rows []) 0
                 else nth p (nth b rows []) 0
  end.
(** 2-D arrays really are rectangular. *)
Definition rectangular (a : carg) : Prop :=
  match a with A2 ncols rows => forall row, In row rows -> length row = ncols | _ => True end.

(** Histories of operations on a tile after it was set to some bands. *)
Inductive op := OAdd (a : carg) | OInc | OCompress | OReset.
Definition step (t : tile) (o : op) : res tile :=
  match o with
  | OAdd a => add_correction t a
  | OInc => Ok (increment_correction t)
  | OCompress => compress_corrections t
  | OReset => Ok (reset_corrections t)
  end.
Fixpoint run (t : tile) (os : list op) : res tile :=
  match os with [] => Ok t | o :: os => do t' <- step t o; run t' os end.
(** The corrections added by a history since its last reset. *)
Fixpoint added (acc : list carg) (os : list op) : list carg :=
  match os with
  | [] => acc
  | OAdd a :: os => added (acc ++ [a]) os
  | OReset :: os => added [] os
  | _ :: os => added acc os
  end.
Definition all_rectangular (os : list op) : Prop := forall a, In (OAdd a) os -> rectangular a.

(** Pixel [x] is point [p] of the tile. *)
Definition point_of (t : tile) (x : Z * Z) (p : nat) : Prop := nth_error (coords t) p = Some x.
Definition contains (t : tile) (x : Z * Z) : bool := existsb (point_eqb x) (coords t).

Fixpoint position (x : Z * Z) (l : list (Z * Z)) : nat :=
  match l with
  | [] => O
  | y :: t => if point_eqb x y then O else S (position x t)
  end.
(** Phase of the tile at a pixel it contains. *)
Definition phase_at (t : tile) (b : nat) (x : Z * Z) : Q := at_ (uw_phase t) b (position x (coords t)).
Definition raw_at (t : tile) (b : nat) (x : Z * Z) : Q := at_ (t_raw t) b (position x (coords t)).

(** The tiles that contain a pixel, and the average of their phases there. *)
Definition holders (ts : list tile) (x : Z * Z) : list tile := filter (fun t => contains t x) ts.
Definition average (l : list Q) : Q := sumQ l / inject_Z (Z.of_nat (length l)).
Definition average_at (ts : list tile) (b : nat) (x : Z * Z) : Q :=
  average (map (fun t => phase_at t b x) (holders ts x)).

(** Tiles between the passes of the adjustment: one correction, applied. *)
Definition ready (nb : nat) (t : tile) : Prop :=
  tile_ok t /\ length (t_idx t) = nb /\ t_level t = 1%nat /\ length (t_corr t) = 1%nat /\ NoDup (coords t).

(** What the overlap file records about pairs of these tiles is right: the listed
    points of the two tiles are exactly their shared pixels. *)
Definition recorded (f : overlap_file) (ts : list tile) : Prop :=
  let tl := fun i => nth i ts (Tile (TileFile [] (BBox 0 0 0 0) [] []) [] [] [] 0) in
  length (of_conn_comp f) = length ts /\
  NoDup (of_overlaps f) /\
  (forall i j, In (i, j) (of_overlaps f) -> (i < j)%nat /\ (j < length ts)%nat /\
     exists g, In g (of_groups f) /\ og_pair g = (i, j)) /\
  (forall g i j, In g (of_groups f) -> og_pair g = (i, j) ->
     length (og_c1 g) = length (og_c2 g) /\ NoDup (og_c1 g) /\ NoDup (og_c2 g) /\
     (forall p q, In (p, q) (combine (og_c1 g) (og_c2 g)) <->
        exists x, point_of (tl i) x p /\ point_of (tl j) x q)).
(** Every pair of tiles that share a pixel is recorded. *)
Definition complete (f : overlap_file) (ts : list tile) : Prop :=
  let tl := fun i => nth i ts (Tile (TileFile [] (BBox 0 0 0 0) [] []) [] [] [] 0) in
  forall i j x, (i < j)%nat -> (j < length ts)%nat -> contains (tl i) x = true -> contains (tl j) x = true ->
    In (i, j) (of_overlaps f).
(** Tile [i] has a pixel that no other tile has. *)
Definition own_pixel (ts : list tile) (i : nat) : Prop :=
  let tl := fun i => nth i ts (Tile (TileFile [] (BBox 0 0 0 0) [] []) [] [] [] 0) in
  exists x, contains (tl i) x = true /\ forall j, (j < length ts)%nat -> j <> i -> contains (tl j) x = false.
Definition describes (f : overlap_file) (ts : list tile) : Prop := recorded f ts /\ complete f ts.

(** The tiles agree wherever they overlap. *)
Definition agree (nb : nat) (ts : list tile) : Prop :=
  forall b x t t', (b < nb)%nat -> In t (holders ts x) -> In t' (holders ts x) ->
    phase_at t b x == phase_at t' b x.

(** Tiles that are ready to be merged, all tracking the same bands. *)
Definition mergeable (bands : list nat) (t : tile) : Prop :=
  tile_ok t /\ t_idx t = bands /\ t_level t = 1%nat /\ NoDup (coords t).

(** Reading a raster file; [None] is NaN. *)
Definition raster_shape (r : raster) (sh : Z * Z) : Prop :=
  length r = Z.to_nat (fst sh) /\ forall row, In row r -> length row = Z.to_nat (snd sh).
Definition pixel (r : raster) (x : Z * Z) : option Q :=
  nth (Z.to_nat (snd x)) (nth (Z.to_nat (fst x)) r []) None.

(** Differ by whole cycles. *)
Definition congruent (x y : Q) : Prop := exists k : Z, x - y == twopi * inject_Z k.
Definition half_cycle_tie (x y : Q) : Prop := exists k : Z, x - y == twopi * (inject_Z k + (1 # 2)).
Definition same_value (x y : option Q) : Prop :=
  match x, y with Some a, Some b => a == b | None, None => True | _, _ => False end.

(** The overlap file describes the shared pixels of tiles with these files. *)
Definition recorded_files (f : overlap_file) (files : list tile_file) : Prop :=
  forall ts, map t_file ts = files -> recorded f ts.
Definition complete_files (f : overlap_file) (files : list tile_file) : Prop :=
  forall ts, map t_file ts = files -> complete f ts.
Definition describes_files (f : overlap_file) (files : list tile_file) : Prop :=
  forall ts, map t_file ts = files -> describes f ts.
(** The pixels two tile files have in common. *)
Definition common_pixels (a b : tile_file) : list (Z * Z) :=
  filter (fun x => existsb (point_eqb x) (file_coords b)) (file_coords a).
