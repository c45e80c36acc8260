(** Model of the [Tile] class and [write_merged_band] in
    /repo/src/spurt/workflows/emcf/_output.py and of [_adjust_tiles] and its
    helpers in /repo/src/spurt/workflows/emcf/_merge.py.

    Simplifications, shared by everything below:
    - Phases and corrections are exact rationals; float32 storage is not
      modelled. The int16 counters never overflow below 2^15 tiles and are
      unbounded.
    - A correction is broadcast to its full (bands, points) shape when it is
      added; numpy broadcasts it when it is used, to the same values.
    - scipy's Delaunay triangulation is a parameter [triangles], [cg] and [ilu]
      are as in DirichletModel.
    - The dictionary of tiles with keys 0, 1, ... is a list. *)
From Verif Require Import Base GraphModel TileModel OverlapModel BulkModel DirichletModel.
Local Open Scope Q_scope.

Definition matrix : Type := list (list Q).
Definition madd (a b : matrix) : matrix :=
  map (fun rs => map (fun xy => fst xy + snd xy) (combine (fst rs) (snd rs))) (combine a b).
Definition zero_like (a : matrix) : matrix := map (map (fun _ => 0)) a.
(** Python [sum] of a list of arrays *)
Definition msum (a : matrix) (l : list matrix) : matrix := fold_left madd l (zero_like a).

(** _output.py:28-36: a [Tile] once it is tracking bands. The state between
    construction and the first [reset_band_index], in which there is no phase,
    is not modelled. *)
Record tile := Tile {
  t_file : tile_file;
  t_idx : list nat;
  t_raw : matrix;
  t_corr : list matrix;
  t_level : nat }.

(** _output.py:48-59 *)
Definition file_coords (f : tile_file) : list (Z * Z) :=
  map (fun p => (fst p + xmin (tf_tile f), snd p + ymin (tf_tile f))%Z) (tf_points f).
Definition coords (t : tile) : list (Z * Z) := file_coords (t_file t).
Definition npoints (t : tile) : nat := length (coords t).

Fixpoint increasing (l : list nat) : bool :=
  match l with
  | a :: (b :: _) as t => (a <? b)%nat && increasing t
  | _ => true
  end.

(** _output.py:61-73 and 140-145. h5py accepts a list of strictly increasing
    band numbers only. *)
Definition reset_band_index (f : tile_file) (idx : list nat) : res tile :=
  match idx with
  | [] => Err RuntimeError
  | _ =>
    if negb (increasing idx) then Err TypeError
    else if negb (forallb (fun b => (b <? length (tf_uw f)) && (b <? length (tf_offset f)))%nat idx)
    then Err IndexError
    else Ok (Tile f idx (map (fun b => map (fun x => x + nth b (tf_offset f) 0) (nth b (tf_uw f) [])) idx) [] 0)
  end.

(** _output.py:75-96 *)
Definition get_corrections_sum (t : tile) (level : nat) : matrix := msum (t_raw t) (firstn level (t_corr t)).
Definition get_uw_phase (t : tile) (level : nat) : matrix := madd (t_raw t) (get_corrections_sum t level).
Definition uw_phase (t : tile) : matrix := get_uw_phase t (t_level t).
Definition raw_uw_phase (t : tile) : matrix := get_uw_phase t 0.

(** What [add_correction] may be given: a number, a 1-D array, or a 2-D array
    with this many columns. *)
Inductive carg := ANum (q : Q) | A1 (l : list Q) | A2 (ncols : nat) (rows : matrix).

(** _output.py:108-120. A 2-D array whose number of rows is neither one nor the
    number of bands is accepted by the code and makes the next use of the phase
    raise ValueError; here it raises at once. *)
Definition broadcast (nb np : nat) (a : carg) : res matrix :=
  match a with
  | ANum q => Ok (repeat (repeat q np) nb)
  | A1 [q] => Ok (repeat (repeat q np) nb)
  | A1 l =>
      if (length l =? nb)%nat then Ok (map (fun q => repeat q np) l)
      else if (length l =? np)%nat then Ok (repeat l nb)
      else Err ValueError
  | A2 ncols rows =>
      match rows with
      | [[q]] => Ok (repeat (repeat q np) nb)
      | _ =>
        if negb (ncols =? np)%nat then Err ValueError
        else if (length rows =? nb)%nat then Ok rows
        else match rows with [row] => Ok (repeat row nb) | _ => Err ValueError end
      end
  end.
Definition add_correction (t : tile) (a : carg) : res tile :=
  do m <- broadcast (length (t_idx t)) (npoints t) a;
  Ok (Tile (t_file t) (t_idx t) (t_raw t) (t_corr t ++ [m]) (t_level t)).

(** _output.py:122-125 *)
Definition reset_corrections (t : tile) : tile := Tile (t_file t) (t_idx t) (t_raw t) [] 0.

(** _output.py:127-129 *)
Definition increment_correction (t : tile) : tile :=
  Tile (t_file t) (t_idx t) (t_raw t) (t_corr t) (S (t_level t)).

(** _output.py:131-138: the last correction is popped and added to the first *)
Definition compress_corrections (t : tile) : res tile :=
  let corr := match t_corr t with
              | c :: d :: l => madd c (last (d :: l) []) :: removelast (d :: l)
              | l => l
              end in
  if (1 <? length corr)%nat then Err RuntimeError
  else Ok (Tile (t_file t) (t_idx t) (t_raw t) corr (t_level t)).

(** _merge.py:180-205: the neighbours of each tile, in the order of the list *)
Definition overlap_map (f : overlap_file) : res (list (list nat)) :=
  let n := length (of_conn_comp f) in
  if existsb (fun e => (n <=? fst e) || (n <=? snd e))%nat (of_overlaps f) then Err KeyError
  else Ok (map (fun i => flat_map (fun e => (if (fst e =? i)%nat then [snd e] else [])
                                            ++ (if (snd e =? i)%nat then [fst e] else [])) (of_overlaps f))
               (seq 0 n)).

(** _merge.py:208-219 *)
Definition get_common_overlap (f : overlap_file) (i j : nat) : res (list nat * list nat) :=
  match find (fun g => (fst (og_pair g) =? i)%nat && (snd (og_pair g) =? j)%nat) (of_groups f) with
  | Some g => Ok (og_c1 g, og_c2 g)
  | None => Err KeyError
  end.

(** [x[idx] += vals]: numpy reads all the old values before it writes. *)
Definition scatter_add {A} (add : A -> A -> A) (d : A) (x : list A) (idx : list nat) (vals : list A) : list A :=
  fold_left (fun acc iv => upd acc (fst iv) (add (nth (fst iv) x d) (snd iv))) (combine idx vals) x.

Section Adjust.
  Context (cg : list (list Q) -> list Q -> list Q) (ilu : list (list Q) -> bool)
          (triangles : list (Z * Z) -> res (list (nat * nat * nat))).

  (** _output.py:98-106 and graph/_delaunay.py *)
  Definition tile_laplacian (t : tile) : res (list (list Q)) :=
    do s <- triangles (coords t);
    do l <- graph_laplacian (create_links s);
    Ok (map (map inject_Z) l).

  (** _merge.py:137-144 for one neighbour [jj] of tile [ii]; the accumulators
      are the counts and the sums. *)
  Definition add_neighbour (f : overlap_file) (ts : list tile) (ii : nat) (acc : list nat * matrix) (jj : nat)
      : res (list nat * matrix) :=
    match nth_error ts jj with
    | None => Err KeyError
    | Some tj =>
      do ij <- (if (ii <? jj)%nat then get_common_overlap f ii jj
                else do ji <- get_common_overlap f jj ii; Ok (snd ji, fst ji));
      let '(ci, cj) := ij in
      let '(c, s) := acc in
      if negb (forallb (fun k => (k <? length c)%nat) ci) then Err IndexError
      else if negb (forallb (fun k => (k <? npoints tj)%nat) cj) then Err IndexError
      else if negb (length ci =? length cj)%nat then Err ValueError
      else
        Ok (scatter_add Nat.add O c ci (repeat 1%nat (length ci)),
            map (fun ru => scatter_add Qplus 0 (fst ru) ci (map (fun k => nth k (snd ru) 0) cj))
                (combine s (uw_phase tj)))
    end.

  Fixpoint fold_res {A B} (step : A -> B -> res A) (acc : A) (l : list B) : res A :=
    match l with
    | [] => Ok acc
    | b :: t => do acc' <- step acc b; fold_res step acc' t
    end.

  (** _merge.py:132-160: tile [ii] after its own correction was added, [ts]
      being the current state of all tiles. *)
  Definition adjust_tile (f : overlap_file) (omap : list (list nat)) (degree : nat) (ts : list tile) (ii : nat)
      : res (list tile) :=
    match nth_error ts ii with
    | None => Err KeyError
    | Some ti =>
      if negb (t_level ti =? 1)%nat then Err AssertionError
      else match nth_error omap ii with
      | None => Err KeyError
      | Some neighbours =>
        let data := uw_phase ti in
        do cs <- fold_res (add_neighbour f ts ii) (repeat 1%nat (npoints ti), data) neighbours;
        let '(c, s) := cs in
        let mask := map (fun k => (degree <=? k)%nat) c in
        if negb (existsb (fun b => b) mask) then Ok ts
        else
          let raw_correction :=
            map (fun sd => map (fun t => fst (fst t) / inject_Z (Z.of_nat (snd t)) - snd (fst t))
                               (combine (combine (fst sd) (snd sd)) c)) (combine s data) in
          do lap <- tile_laplacian ti;
          do correction <- dirichlet_graph cg ilu true lap (npoints ti) raw_correction mask;
          do ti' <- add_correction ti (A2 (npoints ti) correction);
          Ok (upd ts ii ti')
      end
    end.

  (** _merge.py:131-164: one pass. [order] is the order in which the dictionary
      is traversed: 0, 1, ... in the code. *)
  Definition adjust_pass (order : list nat) (f : overlap_file) (omap : list (list nat)) (ts : list tile)
      (degree : nat) : res (list tile) :=
    do ts <- fold_res (adjust_tile f omap degree) ts order;
    map_res compress_corrections ts.

  (** _merge.py:128: [range(int(max_degree), 1, -1)] *)
  Definition degrees (max_degree : nat) : list nat := rev (seq 2 (max_degree - 1)).

  (** _merge.py:112-167, given an order for each pass. *)
  Definition adjust_tiles_in (orders : nat -> list nat) (f : overlap_file) (omap : list (list nat))
      (max_degree : nat) (ts : list tile) : res (list tile) :=
    fold_res (fun ts d => adjust_pass (orders d) f omap ts d) ts (degrees max_degree).
  Definition adjust_tiles (f : overlap_file) (omap : list (list nat)) (max_degree : nat) (ts : list tile)
      : res (list tile) :=
    adjust_tiles_in (fun _ => seq 0 (length ts)) f omap max_degree ts.
End Adjust.

Definition point_eqb (p q : Z * Z) : bool := (fst p =? fst q)%Z && (snd p =? snd q)%Z.
Definition in_shape (sh : Z * Z) (p : Z * Z) : bool :=
  ((0 <=? fst p) && (fst p <? fst sh) && (0 <=? snd p) && (snd p <? snd sh))%Z.
(** The pixels of a raster, row by row. *)
Definition pixels (sh : Z * Z) : list (list (Z * Z)) :=
  map (fun r => map (fun c => (Z.of_nat r, Z.of_nat c)) (seq 0 (Z.to_nat (snd sh)))) (seq 0 (Z.to_nat (fst sh))).

(** _merge.py:222-232: uint8 counters. Negative coordinates, which numpy counts
    from the end, cannot occur in tile files and are treated as out of range. *)
Definition get_max_degree (cs : list (list (Z * Z))) (sh : Z * Z) : res nat :=
  if negb (forallb (forallb (in_shape sh)) cs) then Err IndexError
  else if (fst sh * snd sh =? 0)%Z then Err ValueError
  else Ok (list_max (map (fun p => Nat.modulo (length (filter (fun c => existsb (point_eqb p) c) cs)) 256)
                         (concat (pixels sh)))).

(** A 2-D array as a function; [img[c0, c1] = vals] writes from left to right. *)
Definition image (A : Type) : Type := Z * Z -> A.
Definition set_pixel {A} (img : image A) (p : Z * Z) (v : A) : image A :=
  fun q => if point_eqb q p then v else img q.
Definition scatter {A} (img : image A) (ps : list (Z * Z)) (vals : list A) : image A :=
  fold_left (fun acc pv => set_pixel acc (fst pv) (snd pv)) (combine ps vals) img.

(** Contents of a raster file; [None] is NaN. *)
Definition raster : Type := list (list (option Q)).
Definition tabulate {A} (sh : Z * Z) (img : image A) : list (list A) := map (map img) (pixels sh).

Definition opt2 (f : Q -> Q -> Q) (x : Q) (o : option Q) : option Q :=
  Some (match o with Some y => f x y | None => x end).
Definition qmin (x y : Q) : Q := if Qle_bool x y then x else y.
Definition qmax (x y : Q) : Q := if Qle_bool y x then x else y.

(** _output.py:213-236: sum, count, minimum and maximum over the tiles; [None]
    is an infinity. *)
Record acc := Acc { a_model : image Q; a_cnt : image nat; a_min : image (option Q); a_max : image (option Q) }.
Definition acc0 : acc := Acc (fun _ => 0) (fun _ => O) (fun _ => None) (fun _ => None).
Definition accumulate (a : acc) (ps : list (Z * Z)) (data : list Q) : acc :=
  let upd_img {A} (img : image A) (f : Q -> A -> A) :=
    scatter img ps (map (fun pd => f (snd pd) (img (fst pd))) (combine ps data)) in
  Acc (upd_img (a_model a) (fun d m => m + d))
      (upd_img (a_cnt a) (fun _ k => S k))
      (upd_img (a_min a) (opt2 qmin))
      (upd_img (a_max a) (opt2 qmax)).
Definition band_model (a : acc) : image (option Q) := fun p =>
  match a_cnt a p with O => None | k => Some (a_model a p / inject_Z (Z.of_nat k)) end.
Definition band_diff (a : acc) : image (option Q) := fun p =>
  if (a_cnt a p <? 2)%nat then None
  else match a_max a p, a_min a p with Some hi, Some lo => Some (hi - lo) | _, _ => None end.

(** _output.py:247 *)
Definition wrap_around (m raw : Q) : Q :=
  let d := raw - m in m + d - twopi * inject_Z (rint (d / twopi)).
(** _output.py:240-247: NaN of the model carries over *)
Definition write_around (model : image (option Q)) (arr : image (option Q)) (ps : list (Z * Z)) (raw : list Q)
    : image (option Q) :=
  scatter arr ps (map (fun pr => match model (fst pr) with
                                 | Some m => Some (wrap_around m (snd pr))
                                 | None => None
                                 end) (combine ps raw)).

Fixpoint index_of (b : nat) (l : list nat) : option nat :=
  match l with
  | [] => None
  | a :: t => if (a =? b)%nat then Some O else option_map S (index_of b t)
  end.

(** _output.py:204-247: the merged phase, the spread and the average of one
    band. The position of the band in the batch is taken from the last tile. *)
Definition merged_band (ts : list tile) (idx : nat) (sh : Z * Z) : res (raster * raster * raster) :=
  if negb (forallb (fun t => existsb (Nat.eqb idx) (t_idx t)) ts) then Err AssertionError
  else if negb (forallb (fun t => (t_level t =? 1)%nat) ts) then Err AssertionError
  else match index_of idx (t_idx (last ts (Tile (TileFile [] (BBox 0 0 0 0) [] []) [] [] [] 0))) with
  | None => Err ValueError
  | Some ind =>
    if negb (forallb (fun t => forallb (in_shape sh) (coords t)) ts) then Err IndexError
    else
      let a := fold_left (fun a t => accumulate a (coords t) (nth ind (uw_phase t) [])) ts acc0 in
      let model := band_model a in
      let arr := fold_left (fun r t => write_around model r (coords t) (nth ind (raw_uw_phase t) [])) ts (fun _ => None) in
      Ok (tabulate sh arr, tabulate sh (band_diff a), tabulate sh model)
  end.

(** _output.py:168-171: one band of a single tile *)
Definition single_band (f : tile_file) (idx : nat) (sh : Z * Z) : res raster :=
  do t <- reset_band_index f [idx];
  if negb (forallb (in_shape sh) (coords t)) then Err IndexError
  else Ok (tabulate sh (scatter (fun _ => None) (coords t) (map Some (nth 0 (raw_uw_phase t) [])))).

(** _merge.py:95-99: a tile set to the bands [idx] with its bulk offsets, which
    are row [b] of [bulk] for band [b]. The cast to float32 is not modelled. *)
Definition start_tile (f : tile_file) (jj : nat) (bulk : list (list Q)) (idx : list nat) : res tile :=
  do t <- reset_band_index f idx;
  if negb (forallb (fun b => (b <? length bulk) && (jj <? length (nth b bulk [])))%nat idx) then Err IndexError
  else
    do t <- add_correction t (A1 (map (fun b => - (twopi * nth jj (nth b bulk []) 0)) idx));
    Ok (increment_correction t).

(** _merge.py:95-107: one batch; the three rasters of each of its bands *)
Definition start_tiles (files : list tile_file) (bulk : list (list Q)) (idx : list nat) : res (list tile) :=
  map_res (fun jf => start_tile (snd jf) (fst jf) bulk idx) (combine (seq 0 (length files)) files).
Definition merge_batch cg ilu triangles (f : overlap_file) (omap : list (list nat)) (max_degree : nat)
    (bulk : list (list Q)) (sh : Z * Z) (files : list tile_file) (idx : list nat)
    : res (list (raster * raster * raster)) :=
  do ts <- start_tiles files bulk idx;
  do ts <- adjust_tiles cg ilu triangles f omap max_degree ts;
  map_res (fun b => merged_band ts b sh) idx.
