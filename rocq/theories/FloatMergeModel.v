(** The merge of tiles with rounded arithmetic: the functions of OverlapModel.v
    and MergeModel.v in which every operation on phases is followed by the
    rounding of the format it is done in.

    - [fl]: float32, the format of the tile files, of the corrections and of all
      arrays of _overlap.py, _merge.py and _output.py. Python floats such as
      [2 * np.pi] are cast to float32 when they meet a float32 array.
    - [fd]: float64, the format of [-2 * np.pi * bulk_offsets].
    - [fc]: float64, in which np.allclose compares.
    Adding to zero is exact and not rounded. Overflow, underflow, NaN of phases
    and the sign of zero are not represented.

    One band is followed at a time: the code treats the rows of its arrays alike
    and independently. The band is assumed to be tracked by all tiles. *)
From Verif Require Import Base TileModel OverlapModel DirichletModel MergeModel.

Section Rounded.
Local Open Scope Q_scope.
Context (fl fd fc : Q -> Q).

(** _overlap.py:93-107 *)
Definition load_uw_tile_fl (f : tile_file) (tile : bbox) : list (Z * Z) * list (list Q) :=
  (fst (load_uw_tile f tile),
   map (fun ru => map (fun x => fl (x + snd ru)) (fst ru)) (combine (tf_uw f) (tf_offset f))).

(** utils/merge.py:80-81 *)
Definition cycle_diff_fl (x1 x2 : Q) : Q := fl (fl (x2 - x1) / fl twopi).
(** utils/merge.py:84; rtol is numpy's default *)
Definition close_int_fl (d : Q) (n : Z) : bool :=
  Qle_bool (Qabs (fc (d - inject_Z n))) (fc (fc (1 # 100) + fc (fc (1 # 100000) * inject_Z (Z.abs n)))).

(** utils/merge.py:49-90. The percentiles of integers are left exact. *)
Definition pairwise_unwrapped_diff_deciles_fl (b1 b2 : ndarray) : res (list (list Q)) :=
  if negb (if list_eq_dec Nat.eq_dec (nd_shape b1) (nd_shape b2) then true else false)
  then Err ValueError
  else if negb (Nat.eqb (length (nd_shape b1)) 2) then Err ValueError
  else if Nat.ltb (nth 1 (nd_shape b1) O) 11 then Err ValueError
  else
    let diff := map (fun r => map (fun xy => cycle_diff_fl (fst xy) (snd xy)) (combine (fst r) (snd r)))
                    (combine (nd_rows b1) (nd_rows b2)) in
    let nint := map (map nint16) diff in
    if negb (forallb (fun r => forallb (fun dn => close_int_fl (fst dn) (snd dn))
                                 (combine (fst r) (snd r))) (combine diff nint))
    then Err AssertionError
    else Ok (map (fun row => map (decile row) (seq 0 11)) nint).

(** _overlap.py:45-77 *)
Definition overlap_pair_fl (min_points : Z) (files : list tile_file) (t : tileset) (pair : nat * nat)
    : res (option overlap_group) :=
  let dflt := TileFile [] (BBox 0 0 0 0) [] [] in
  let '(t1, t2) := pair in
  let '(pt1, uw1) := load_uw_tile_fl (nth t1 files dflt) (nth t1 (tiles t) (BBox 0 0 0 0)) in
  let '(pt2, uw2) := load_uw_tile_fl (nth t2 files dflt) (nth t2 (tiles t) (BBox 0 0 0 0)) in
  do cc <- find_common_points 32 pt1 pt2;
  let '(c1, c2) := cc in
  if (Z.of_nat (length c1) <? min_points)%Z then Ok None
  else
    do stats <- pairwise_unwrapped_diff_deciles_fl (nd_of (length c1) (take_cols uw1 c1))
                                                   (nd_of (length c2) (take_cols uw2 c2));
    Ok (Some (OGroup pair c1 c2 (map (map qtrunc0) stats))).

(** _overlap.py:15-90 *)
Definition compute_phasediff_deciles_fl (components : nat -> list (nat * nat) -> list nat)
    (min_points : Z) (files : list tile_file) (t : tileset) : res overlap_file :=
  do gs <- map_res (overlap_pair_fl min_points files t) (get_overlaps t);
  let groups := flat_map (fun g => match g with Some g => [g] | None => [] end) gs in
  let pairs := map og_pair groups in
  Ok (OFile groups (components (ntiles t) pairs) pairs).

(** _output.py:28-36: a tile in one band between two passes of the adjustment,
    when it has one correction, which is applied. *)
Record ftile := FTile { ft_file : tile_file; ft_raw : list Q; ft_corr : list Q }.
Definition ft_coords (t : ftile) : list (Z * Z) := file_coords (ft_file t).
Definition ft_npoints (t : ftile) : nat := length (ft_coords t).

Definition add_fl (a b : list Q) : list Q := map (fun xy => fl (fst xy + snd xy)) (combine a b).
(** _output.py:75-91 *)
Definition phase_fl (t : ftile) : list Q := add_fl (ft_raw t) (ft_corr t).

(** _output.py:61-73 and _merge.py:95-99, for band [b] of tile [jj] *)
Definition start_tile_fl (f : tile_file) (jj : nat) (bulk : list (list Q)) (b : nat) : res ftile :=
  if negb ((b <? length (tf_uw f)) && (b <? length (tf_offset f)))%nat then Err IndexError
  else if negb ((b <? length bulk) && (jj <? length (nth b bulk [])))%nat then Err IndexError
  else
    let raw := map (fun x => fl (x + nth b (tf_offset f) 0)) (nth b (tf_uw f) []) in
    Ok (FTile f raw (repeat (fl (fd (- (twopi * nth jj (nth b bulk []) 0)))) (length (tf_points f)))).
Definition start_tiles_fl (files : list tile_file) (bulk : list (list Q)) (b : nat) : res (list ftile) :=
  map_res (fun jf => start_tile_fl (snd jf) (fst jf) bulk b) (combine (seq 0 (length files)) files).

(** [solve coords mask xf]: the values off the mask that _output.py:98-106 and
    utils/merge.py:329-369 compute, in double precision: triangulation of the
    coordinates, factorisation and conjugate gradients, or an exception. *)
Context (solve : list (Z * Z) -> list bool -> list Q -> res (list Q)).

(** utils/merge.py:294-371, one row: stored as float32 *)
Definition dirichlet_fl (t : ftile) (mask : list bool) (xf : list Q) : res (list Q) :=
  do x <- solve (ft_coords t) mask xf;
  if negb (length x =? length (sel (off mask) xf))%nat then Err ValueError
  else Ok (put (off mask) (map fl x) xf).

(** _merge.py:137-144 for one neighbour [jj] of tile [ii] *)
Definition add_neighbour_fl (f : overlap_file) (ts : list ftile) (ii : nat) (acc : list nat * list Q) (jj : nat)
    : res (list nat * list Q) :=
  match nth_error ts jj with
  | None => Err KeyError
  | Some tj =>
    do ij <- (if (ii <? jj)%nat then get_common_overlap f ii jj
              else do ji <- get_common_overlap f jj ii; Ok (snd ji, fst ji));
    let '(ci, cj) := ij in
    let '(c, s) := acc in
    if negb (forallb (fun k => (k <? length c)%nat) ci) then Err IndexError
    else if negb (forallb (fun k => (k <? ft_npoints tj)%nat) cj) then Err IndexError
    else if negb (length ci =? length cj)%nat then Err ValueError
    else
      Ok (scatter_add Nat.add O c ci (repeat 1%nat (length ci)),
          scatter_add (fun x y => fl (x + y)) 0 s ci (map (fun k => nth k (phase_fl tj) 0) cj))
  end.

(** _merge.py:132-160 and, for this tile, 163: the tile after the pass. All the
    phases that the loop reads are those from before the pass, since a correction
    counts only once it is compressed into the first one; so the tiles of a pass
    can be treated independently. *)
Definition adjust_tile_fl (f : overlap_file) (omap : list (list nat)) (degree : nat) (ts : list ftile) (ii : nat)
    : res ftile :=
  match nth_error ts ii with
  | None => Err KeyError
  | Some ti =>
    match nth_error omap ii with
    | None => Err KeyError
    | Some neighbours =>
      let data := phase_fl ti in
      do cs <- fold_res (add_neighbour_fl f ts ii) (repeat 1%nat (ft_npoints ti), data) neighbours;
      let '(c, s) := cs in
      let mask := map (fun k => (degree <=? k)%nat) c in
      if negb (existsb (fun b => b) mask) then Ok ti
      else
        let average := map (fun sc => fl (fst sc / inject_Z (Z.of_nat (snd sc)))) (combine s c) in
        let raw_correction := map (fun ad => fl (fst ad - snd ad)) (combine average data) in
        do correction <- dirichlet_fl ti mask raw_correction;
        Ok (FTile (ft_file ti) (ft_raw ti) (add_fl (ft_corr ti) correction))
    end
  end.

(** _merge.py:131-164 and 112-167 *)
Definition adjust_pass_fl (f : overlap_file) (omap : list (list nat)) (ts : list ftile) (degree : nat)
    : res (list ftile) :=
  map_res (adjust_tile_fl f omap degree ts) (seq 0 (length ts)).
Definition adjust_tiles_fl (f : overlap_file) (omap : list (list nat)) (max_degree : nat) (ts : list ftile)
    : res (list ftile) :=
  fold_res (adjust_pass_fl f omap) ts (degrees max_degree).

(** _output.py:213-233: sum and count. The spread of line 234 is left out. *)
Definition accumulate_fl (a : image Q * image nat) (t : ftile) : image Q * image nat :=
  let ps := ft_coords t in
  (scatter (fst a) ps (map (fun pd => fl (fst a (fst pd) + snd pd)) (combine ps (phase_fl t))),
   scatter (snd a) ps (map (fun p => S (snd a p)) ps)).
Definition model_fl (ts : list ftile) : image (option Q) := fun p =>
  let a := fold_left accumulate_fl ts (fun _ => 0, fun _ => O) in
  match snd a p with O => None | k => Some (fl (fst a p / inject_Z (Z.of_nat k))) end.

(** _output.py:245-247, from left to right *)
Definition wrap_around_fl (m raw : Q) : Q :=
  let d := fl (raw - m) in
  fl (fl (m + d) - fl (fl twopi * inject_Z (rint (fl (d / fl twopi))))).
(** _output.py:238-247 *)
Definition write_around_fl (model : image (option Q)) (arr : image (option Q)) (t : ftile) : image (option Q) :=
  scatter arr (ft_coords t)
    (map (fun pr => option_map (fun m => wrap_around_fl m (snd pr)) (model (fst pr))) (combine (ft_coords t) (ft_raw t))).

(** _output.py:190-247: the merged phase of the band *)
Definition merged_band_fl (ts : list ftile) (sh : Z * Z) : res raster :=
  if negb (forallb (fun t => forallb (in_shape sh) (ft_coords t)) ts) then Err IndexError
  else Ok (tabulate sh (fold_left (write_around_fl (model_fl ts)) ts (fun _ => None))).

(** _merge.py:95-107 for one band *)
Definition merge_band_fl (f : overlap_file) (omap : list (list nat)) (max_degree : nat) (bulk : list (list Q))
    (sh : Z * Z) (files : list tile_file) (b : nat) : res raster :=
  do ts <- start_tiles_fl files bulk b;
  do ts <- adjust_tiles_fl f omap max_degree ts;
  merged_band_fl ts sh.
End Rounded.
