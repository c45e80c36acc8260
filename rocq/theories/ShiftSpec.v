(** Vocabulary: whole cycles added to the tiles before they are merged. *)
From Verif Require Import Base GraphSpec TileModel TileSpec OverlapModel OverlapSpec MergeModel MergeSpec.
From Coq Require Import List.
Import ListNotations.
Local Open Scope Q_scope.

Definition no_file : tile_file := TileFile [] (BBox 0 0 0 0) [] [].

(** Tile files with the same pixels. *)
Definition same_layout (files files' : list tile_file) : Prop :=
  length files' = length files /\
  forall i, tf_points (nth i files' no_file) = tf_points (nth i files no_file) /\
            tf_tile (nth i files' no_file) = tf_tile (nth i files no_file).

(** In band [b], tile [i] of the second list has [k b i] cycles more. *)
Definition more_cycles (bands : nat) (k : nat -> nat -> Z) (files files' : list tile_file) : Prop :=
  forall b i p, (b < bands)%nat -> (p < length (tf_points (nth i files no_file)))%nat ->
    phase_of (nth i files' no_file) b p == phase_of (nth i files no_file) b p + twopi * inject_Z (k b i).

(** More than half of the pixels that two tiles share differ by exactly [n]
    cycles. *)
Definition most_differ (b : nat) (n : Z) (f1 f2 : tile_file) : Prop :=
  exists l, NoDup l /\ (length (common_pixels f1 f2) < 2 * length l)%nat /\
    forall x, In x l -> exists p q, nth_error (file_coords f1) p = Some x /\ nth_error (file_coords f2) q = Some x /\
      phase_of f2 b q - phase_of f1 b p == twopi * inject_Z n.

(** The answer of the linear solver depends on the values of the right-hand side
    only, not on how the rationals are written. *)
Definition respects (cg : list (list Q) -> list Q -> list Q) : Prop :=
  forall a b b', Forall2 Qeq b b' -> Forall2 Qeq (cg a b) (cg a b').

(** All tiles that contain a pixel are linked by recorded overlaps. *)
Definition tied (f : overlap_file) (files : list tile_file) (x : Z * Z) : Prop :=
  forall i j, In x (file_coords (nth i files no_file)) -> In x (file_coords (nth j files no_file)) -> reach (of_overlaps f) i j.

(** The second value is the first one plus [c] cycles; NaN stays NaN. *)
Definition moved (c : Z) (o o' : option Q) : Prop :=
  match o, o' with Some v, Some v' => v' == v + twopi * inject_Z c | None, None => True | _, _ => False end.

(** One file per tile of the image, with the pixels of the tile. *)
Definition cut_files (t : tileset) (H W : Z) (bands : nat) (files : list tile_file) : Prop :=
  length files = ntiles t /\ (H * W <= 2 ^ 32)%Z /\
  (forall n, (n < ntiles t)%nat -> tf_tile (nth n files no_file) = tile_at t n) /\
  forall fl, In fl files -> NoDup (tf_points fl) /\ in_grid H W (file_coords fl) /\ tile_bands bands fl.

(** Offsets [M] that explain what most of the shared pixels of every recorded pair
    say, within the range of the solvers. *)
Definition explained (f : overlap_file) (files : list tile_file) (bands : nat) (M : nat -> nat -> Z) : Prop :=
  (forall b i j, (b < bands)%nat -> In (i, j) (of_overlaps f) ->
     (-32768 <= M b j - M b i <= 32767)%Z /\ most_differ b (M b j - M b i) (nth i files no_file) (nth j files no_file)) /\
  forall b i j, (b < bands)%nat -> (i < length files)%nat -> (j < length files)%nat -> (Z.abs (M b i - M b j) <= 2 ^ 31 - 1)%Z.
