(** Model of /repo/src/spurt/utils/_tiling.py (boxes, tile sets, tilers) and of
    /repo/src/spurt/workflows/emcf/_tiling.py ([get_tiles]).

    Simplifications, shared by everything below:
    - Pixel indices and bounds are unbounded integers [Z] (Python ints).
    - Borders computed in float64 are exact rationals rounded with [rnd64]
      wherever the float operation is inexact; operations on integers and
      half-integers below 2^52 are exact in float64 and are not rounded.
    - [int(np.sqrt(n))] is the integer square root. float64 [sqrt] is correctly
      rounded, so the two agree for every n below 2^52. *)
From Coq Require Export Qminmax.
From Verif Require Import Base FloatModel.
Local Open Scope Z_scope.

(** _tiling.py:19-32 [BBox]: x is the row range, y the column range, upper
    bounds exclusive. *)
Record bbox := BBox { xmin : Z; ymin : Z; xmax : Z; ymax : Z }.

(** _tiling.py:34-40 *)
Definition from_shapely_bounds (bounds : list Z) : res bbox :=
  match bounds with
  | [a; b; c; d] => Ok (BBox a b c d)
  | _ => Err ValueError
  end.

(** _tiling.py:42-49 *)
Definition intersects (s box : bbox) : bool :=
  negb ((xmax s <? xmin box) || (xmin s >? xmax box)
        || (ymin s >? ymax box) || (ymax s <? ymin box)).

(** _tiling.py:51-53 *)
Definition tolist (b : bbox) : list Z := [xmin b; ymin b; xmax b; ymax b].

(** _tiling.py:61-63 *)
Definition count (b : bbox) : Z := (xmax b - xmin b) * (ymax b - ymin b).

(** _tiling.py:66-87 [TileSet] *)
Record tileset := TileSet { shape : Z * Z; tiles : list bbox }.
Definition ntiles (t : tileset) : nat := length (tiles t).

(** _tiling.py:116-118 *)
Definition single_tile (sh : Z * Z) : tileset :=
  TileSet sh [BBox 0 0 (fst sh) (snd sh)].

(** _tiling.py:120-131: the double loop, in its order. *)
Definition get_overlaps (t : tileset) : list (nat * nat) :=
  let box := fun i => nth i (tiles t) (BBox 0 0 0 0) in
  flat_map (fun ii =>
      map (pair ii) (filter (fun jj => intersects (box ii) (box jj))
                            (seq (S ii) (ntiles t - S ii))))
    (seq 0 (ntiles t - 1)).

(** _tiling.py:133-149. [factor] is a float, differences and bounds are ints:
    [factor * rdiff] is rounded once and the sum or difference once more. *)
Definition grow_lo (factor : Q) (lo hi : Z) : Z :=
  qtrunc (Qmax 0 (rnd64 (inject_Z lo - rnd64 (factor * inject_Z (hi - lo))))).
Definition grow_hi (factor : Q) (n lo hi : Z) : Z :=
  qtrunc (Qmin (inject_Z n) (rnd64 (inject_Z hi + rnd64 (factor * inject_Z (hi - lo))))).
Definition dilate_box (factor : Q) (sh : Z * Z) (tt : bbox) : bbox :=
  BBox (grow_lo factor (xmin tt) (xmax tt)) (grow_lo factor (ymin tt) (ymax tt))
       (grow_hi factor (fst sh) (xmin tt) (xmax tt))
       (grow_hi factor (snd sh) (ymin tt) (ymax tt)).
Definition dilate (factor : Q) (t : tileset) : tileset :=
  TileSet (shape t) (map (dilate_box factor (shape t)) (tiles t)).

(** [int(np.ogrid[0 : n : 1j*(k+1)][i])] of _tiling.py:179-191. numpy computes
    [np.arange(0, k+1, 1, float) * (n/float(k)) + 0]: one rounded division and
    one rounded product. *)
Definition grid_line (n k : Z) (i : nat) : Z :=
  qtrunc (rnd64 (inject_Z (Z.of_nat i) * rnd64 (inject_Z n / inject_Z k))).

(** _tiling.py:152-193. The shape test really is a conjunction. *)
Definition create_tiles_regular (sh : Z * Z) (max_tiles : Z) : res tileset :=
  if (fst sh <=? 0) && (snd sh <=? 0) then Err ValueError
  else if max_tiles <=? 0 then Err ValueError
  else
    let k := Z.sqrt max_tiles in
    if k =? 1 then Ok (single_tile sh)
    else
      let line := seq 0 (Z.to_nat k) in
      Ok (TileSet sh
            (flat_map (fun ii =>
               map (fun jj => BBox (grid_line (fst sh) k ii) (grid_line (snd sh) k jj)
                                   (grid_line (fst sh) k (S ii))
                                   (grid_line (snd sh) k (S jj))) line) line)).

(** Values of [x_s[np.argsort(x_s)]]: the sorted values. *)
Fixpoint insertZ (x : Z) (l : list Z) : list Z :=
  match l with
  | [] => [x]
  | y :: t => if x <=? y then x :: l else y :: insertZ x t
  end.
Definition sortZ (l : list Z) : list Z := fold_right insertZ [] l.

(** _tiling.py:259-271, the [split_cuts] part. With n = 0 the call is
    [np.arange(0, np.int64(1), 0)]: the stop is a numpy integer, so the quotient
    1 / 0 that gives the length is infinite, and [np.arange] raises ValueError.
    The halves are exact in float64. *)
Definition get_splits (z : list Z) (m : nat) (boundz : Q * Q) : res (list Q) :=
  let n := Nat.div (length z) m in
  if Nat.eqb n 0 then Err ValueError
  else
    let beg_val := fun i => nth (i * n)%nat z 0 in
    let end_val := fun i => nth (i * n + n - 1)%nat z 0 in
    Ok (fst boundz ::
        map (fun i => (inject_Z (end_val i + beg_val (S i)) / 2)%Q) (seq 0 (m - 1))
        ++ [snd boundz]).

(** ((row lower, row upper), (column lower, column upper)) *)
Definition qbounds : Type := (Q * Q) * (Q * Q).

(** What lines 302-305 select: cut along x or along y, and the index of the
    cut. Any selection whose index lies in [range(1, m)] is allowed
    ([argmin] of an array of length m-1, plus one); [ScoreModel.pick_scores]
    is the one of [_score_rectangle] and [_find_best_split] (251-256, 274-283). *)
Definition picker : Type := list (Z * Z) -> qbounds -> nat -> bool * nat.

(** _tiling.py:286-328. [fuel] bounds the recursion depth; m of them suffice. *)
Fixpoint split_rectangle (pick : picker) (fuel : nat) (points : list (Z * Z))
    (bounds : qbounds) (m : nat) : res (list qbounds) :=
  if Nat.eqb m 1 then Ok [bounds]
  else match fuel with
  | O => Err OutOfFuel
  | S fuel' =>
    match points with
    | [] => Err ValueError
    | _ =>
      do cuts_x <- get_splits (sortZ (map fst points)) m (fst bounds);
      do cuts_y <- get_splits (sortZ (map snd points)) m (snd bounds);
      let '(use_x, i) := pick points bounds m in
      let cut := nth i (if use_x then cuts_x else cuts_y) 0%Q in
      let mask := fun p : Z * Z =>
        Qle_bool (inject_Z (if use_x then fst p else snd p)) cut in
      let '(b0, b1) :=
        if use_x
        then (((fst (fst bounds), cut), snd bounds), ((cut, snd (fst bounds)), snd bounds))
        else ((fst bounds, (fst (snd bounds), cut)), (fst bounds, (cut, snd (snd bounds)))) in
      do lo <- split_rectangle pick fuel' (filter mask points) b0 i;
      do hi <- split_rectangle pick fuel' (filter (fun p => negb (mask p)) points) b1 (m - i);
      Ok (lo ++ hi)
    end
  end.

(** _tiling.py:238-246 *)
Definition box_of_bounds (sh : Z * Z) (s : qbounds) : bbox :=
  BBox (qtrunc (Qmax 0 (fst (fst s)))) (qtrunc (Qmax 0 (fst (snd s))))
       (qtrunc (Qmin (inject_Z (fst sh)) (snd (fst s))))
       (qtrunc (Qmin (inject_Z (snd sh)) (snd (snd s)))).

(** _tiling.py:196-248. That [points] is an Nx2 array (214-216) is in the type. *)
Definition create_tiles_density (pick : picker) (points : list (Z * Z)) (sh : Z * Z)
    (max_tiles : Z) : res tileset :=
  if (fst sh <=? 0) && (snd sh <=? 0) then Err ValueError
  else if max_tiles <=? 0 then Err ValueError
  else
    let k := Z.sqrt max_tiles in
    let m := Z.to_nat (k * k) in
    if Nat.eqb m 1 then Ok (single_tile sh)
    else
      let bounds : qbounds := ((0%Q, inject_Z (fst sh)), (0%Q, inject_Z (snd sh))) in
      do splits <- split_rectangle pick m points bounds m;
      Ok (TileSet sh (map (box_of_bounds sh) splits)).

(** emcf/_settings.py:140-182 [TilerSettings] with its checks. *)
Record tiler_settings := TilerSettings {
  target_points_per_tile : Z; ts_max_tiles : Z;
  target_points_for_generation : Z; dilation_factor : Q }.
Definition tiler_post_init (s : tiler_settings) : res tiler_settings :=
  if ts_max_tiles s <? 1 then Err ValueError
  else if negb (Qle_bool 0 (dilation_factor s)) then Err ValueError
  else if target_points_for_generation s <=? 0 then Err ValueError
  else if target_points_per_tile s <=? 0 then Err ValueError
  else Ok s.

(** [np.column_stack(np.nonzero(arr))]: coordinates of the true cells of a
    boolean image, row by row. *)
Definition nonzero (arr : list (list bool)) : list (Z * Z) :=
  flat_map (fun i =>
      map (fun j => (Z.of_nat i, Z.of_nat j))
        (filter (fun j => nth j (nth i arr []) false) (seq 0 (length (nth i arr [])))))
    (seq 0 (length arr)).

(** [pts[::skip, :]] for skip >= 1. *)
Fixpoint every_nth (skip c : nat) (l : list (Z * Z)) : list (Z * Z) :=
  match l with
  | [] => []
  | x :: t => match c with
              | O => x :: every_nth skip (skip - 1) t
              | S c' => every_nth skip c' t
              end
  end.

(** emcf/_tiling.py:50-51. [root] stands for
    [int(np.rint(np.sqrt(len(pts) / target_points_per_tile)))]. *)
Definition requested_tiles (root max_tiles : Z) : Z :=
  Z.min (Z.max 1 (root * root)) max_tiles.

(** emcf/_tiling.py:12-65 from line 31 on: the tile set that is written. [arr]
    is the thresholded coherence image (rows of equal length), [root] the
    rounded square root of line 50 as a function of the number of points. The
    fraction logged in line 43 divides by the number of pixels. *)
Definition get_tiles (pick : picker) (root : nat -> Z) (use_tiles : bool)
    (s : tiler_settings) (arr : list (list bool)) : res tileset :=
  let sh := (Z.of_nat (length arr), Z.of_nat (length (nth 0 arr []))) in
  do t <- (if negb use_tiles then Ok (single_tile sh)
           else if (fst sh * snd sh =? 0)%Z then Err ZeroDivisionError
           else
             let pts := nonzero arr in
             let skip := Nat.max 1 (Z.to_nat (Z.of_nat (length pts)
                                              / target_points_for_generation s)) in
             let n := requested_tiles (root (length pts)) (ts_max_tiles s) in
             create_tiles_density pick (every_nth skip 0 pts) sh n);
  Ok (if (Nat.ltb 1 (ntiles t)) && negb (Qle_bool (dilation_factor s) 0)
      then dilate (dilation_factor s) t else t).
