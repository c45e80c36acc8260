(** Model of /repo/src/spurt/utils/merge.py:17-90 ([find_common_points],
    [pairwise_unwrapped_diff_deciles]) and of
    /repo/src/spurt/workflows/emcf/_overlap.py.

    Simplifications, shared by everything below:
    - Coordinates are integers of a fixed-width signed dtype; sums and products
      wrap around like numpy's. The width is a parameter [bits]. Tile files
      store int32 points (_unwrap.py:119), so the workflow uses 32.
    - Phases are exact rationals; float32 storage of the differences and the
      float evaluation of percentile positions are not modelled.
    - [diff] beyond int16 is reduced modulo 2^16, as x86 does. *)
From Coq Require Export Qabs.
From Verif Require Import Base TileModel.
Local Open Scope Z_scope.

(** Two's complement reduction to [bits] bits. *)
Definition wrap_int (bits z : Z) : Z :=
  (z + 2 ^ (bits - 1)) mod 2 ^ bits - 2 ^ (bits - 1).

Definition maxZ (l : list Z) : Z := fold_right Z.max (hd 0 l) l.
Definition minZ (l : list Z) : Z := fold_right Z.min (hd 0 l) l.

Fixpoint first_index (z : Z) (l : list Z) : nat :=
  match l with
  | [] => O
  | h :: t => if h =? z then O else S (first_index z t)
  end.

(** numpy [np.intersect1d(a, b, return_indices=True)[1:]]: the distinct common
    values in increasing order, each with the position of its first occurrence
    in [a] and in [b]. *)
Definition intersect1d_indices (a b : list Z) : list nat * list nat :=
  let common := sortZ (nodup Z.eq_dec (filter (fun z => existsb (Z.eqb z) b) a)) in
  (map (fun z => first_index z a) common, map (fun z => first_index z b) common).

(** merge.py:17-46. [np.min] of an empty array raises ValueError. *)
Definition find_common_points (bits : Z) (c1 c2 : list (Z * Z)) : res (list nat * list nat) :=
  match c1, c2 with
  | [], _ => Err ValueError
  | _, [] => Err ValueError
  | _, _ =>
    if minZ (flat_map (fun p => [fst p; snd p]) c1) <? 0 then Err ValueError
    else if minZ (flat_map (fun p => [fst p; snd p]) c2) <? 0 then Err ValueError
    else
      let w := wrap_int bits in
      let m := w (1 + Z.max (maxZ (map snd c1)) (maxZ (map snd c2))) in
      let flat := fun p : Z * Z => w (w (fst p * m) + snd p) in
      Ok (intersect1d_indices (map flat c1) (map flat c2))
  end.

(** A float array as far as the code below looks at it: its shape, and its
    rows when it is 2D. *)
Record ndarray := ND { nd_shape : list nat; nd_rows : list (list Q) }.

(** [np.percentile(l, 10 i, method="linear")] of integers: linear interpolation
    between the two order statistics around position (n - 1) i / 10. *)
Definition decile (l : list Z) (i : nat) : Q :=
  let s := sortZ l in
  let n := length l in
  let lo := Nat.div ((n - 1) * i) 10 in
  let hi := Nat.min (S lo) (n - 1) in
  let g := ((Z.of_nat ((n - 1) * i) # 10) - inject_Z (Z.of_nat lo))%Q in
  (inject_Z (nth lo s 0%Z) + g * (inject_Z (nth hi s 0%Z) - inject_Z (nth lo s 0%Z)))%Q.

(** [np.allclose(diff, nint, atol=0.01)] on one entry: |d - n| <= 0.01 + 1e-5 |n|. *)
Definition close_int (d : Q) (n : Z) : bool :=
  Qle_bool (Qabs (d - inject_Z n)) ((1 # 100) + (1 # 100000) * inject_Z (Z.abs n))%Q.

(** [np.rint(diff).astype(np.int16)] *)
Definition nint16 (d : Q) : Z := wrap_int 16 (rint d).

(** merge.py:49-90 *)
Definition cycle_diff (x1 x2 : Q) : Q := ((x2 - x1) / twopi)%Q.
Definition pairwise_unwrapped_diff_deciles (b1 b2 : ndarray) : res (list (list Q)) :=
  if negb (if list_eq_dec Nat.eq_dec (nd_shape b1) (nd_shape b2) then true else false)
  then Err ValueError
  else if negb (Nat.eqb (length (nd_shape b1)) 2) then Err ValueError
  else if Nat.ltb (nth 1 (nd_shape b1) O) 11 then Err ValueError
  else
    let diff := map (fun r => map (fun xy => cycle_diff (fst xy) (snd xy)) (combine (fst r) (snd r)))
                    (combine (nd_rows b1) (nd_rows b2)) in
    let nint := map (map nint16) diff in
    if negb (forallb (fun r => forallb (fun dn => close_int (fst dn) (snd dn))
                                 (combine (fst r) (snd r))) (combine diff nint))
    then Err AssertionError
    else Ok (map (fun row => map (decile row) (seq 0 11)) nint).

(** One intermediate tile file as written by _unwrap.py:110-121. *)
Record tile_file := TileFile {
  tf_points : list (Z * Z);        (* relative to the tile *)
  tf_tile : bbox;
  tf_uw : list (list Q);           (* bands x points, first pixel at zero *)
  tf_offset : list Q }.            (* phase of the first pixel, per band *)

(** _overlap.py:93-107 *)
Definition load_uw_tile (f : tile_file) (tile : bbox) : list (Z * Z) * list (list Q) :=
  (map (fun p => (fst p + xmin tile, snd p + ymin tile)) (tf_points f),
   map (fun ru => map (fun x => x + snd ru)%Q (fst ru)) (combine (tf_uw f) (tf_offset f))).

(** [uw[:, c]] *)
Definition take_cols (uw : list (list Q)) (c : list nat) : list (list Q) :=
  map (fun row => map (fun i => nth i row 0%Q) c) uw.
Definition nd_of (ncols : nat) (rows : list (list Q)) : ndarray := ND [length rows; ncols] rows.

(** One HDF5 group of overlaps.h5: _overlap.py:73-77. [stats.astype(np.int16)]
    truncates towards zero. *)
Definition qtrunc0 (x : Q) : Z := if Qle_bool 0 x then Qfloor x else Qceiling x.
Record overlap_group := OGroup {
  og_pair : nat * nat; og_c1 : list nat; og_c2 : list nat; og_stats : list (list Z) }.

(** overlaps.h5 once complete. *)
Record overlap_file := OFile {
  of_groups : list overlap_group; of_conn_comp : list nat; of_overlaps : list (nat * nat) }.

(** _overlap.py:45-77, the body of the loop for one pair of neighbouring tiles;
    [None] when the overlap is too small. The caching of the two loaded tiles
    (lines 47-55) does not change the values and is not modelled. *)
Definition overlap_pair (min_points : Z) (files : list tile_file) (t : tileset) (pair : nat * nat)
    : res (option overlap_group) :=
  let dflt := TileFile [] (BBox 0 0 0 0) [] [] in
  let '(t1, t2) := pair in
  let '(pt1, uw1) := load_uw_tile (nth t1 files dflt) (nth t1 (tiles t) (BBox 0 0 0 0)) in
  let '(pt2, uw2) := load_uw_tile (nth t2 files dflt) (nth t2 (tiles t) (BBox 0 0 0 0)) in
  do cc <- find_common_points 32 pt1 pt2;
  let '(c1, c2) := cc in
  if Z.of_nat (length c1) <? min_points then Ok None
  else
    do stats <- pairwise_unwrapped_diff_deciles (nd_of (length c1) (take_cols uw1 c1))
                                                (nd_of (length c2) (take_cols uw2 c2));
    Ok (Some (OGroup pair c1 c2 (map (map qtrunc0) stats))).

(** _overlap.py:15-90 for more than one tile, without the file skipping (see
    the workflow model). [components n edges] is scipy's connected_components
    with [directed=False]: one label per tile. *)
Definition compute_phasediff_deciles (components : nat -> list (nat * nat) -> list nat)
    (min_points : Z) (files : list tile_file) (t : tileset) : res overlap_file :=
  do gs <- map_res (overlap_pair min_points files t) (get_overlaps t);
  let groups := flat_map (fun g => match g with Some g => [g] | None => [] end) gs in
  let pairs := map og_pair groups in
  Ok (OFile groups (components (ntiles t) pairs) pairs).
