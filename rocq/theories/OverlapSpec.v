(** Vocabulary for stating the overlap properties. *)
From Verif Require Import Base TileModel OverlapModel.
Local Open Scope Z_scope.

(** All points lie in an image of [H] rows and [W] columns. *)
Definition in_grid (H W : Z) (pts : list (Z * Z)) : Prop :=
  forall r c, In (r, c) pts -> 0 <= r < H /\ 0 <= c < W.

Definition at_pt (pts : list (Z * Z)) (i : nat) : Z * Z := nth i pts (0, 0).

(** How many entries satisfy a test. *)
Definition how_many (p : Z -> bool) (l : list Z) : nat := length (filter p l).
Definition not_above (x : Q) (z : Z) : bool := Qle_bool (inject_Z z) x.
Definition not_below (x : Q) (z : Z) : bool := Qle_bool x (inject_Z z).

(** A rectangular [bands] x [n] array. *)
Definition array2 (bands n : nat) (a : ndarray) : Prop :=
  nd_shape a = [bands; n] /\ length (nd_rows a) = bands /\
  forall r, In r (nd_rows a) -> length r = n.

(** Phase of pixel [p] in band [b]. *)
Definition pix (a : ndarray) (b p : nat) : Q := nth p (nth b (nd_rows a) []) 0%Q.

(** A phase difference that is [k] whole cycles, within numpy's tolerance of
    0.01 + 1e-5 |k| cycles. *)
Definition cycles_within_tol (d : Q) (k : Z) : Prop :=
  -32768 <= k <= 32767 /\
  (Qabs (d - twopi * inject_Z k) <= twopi * ((1 # 100) + (1 # 100000) * inject_Z (Z.abs k)))%Q.

(** The eleven numbers [row] are the deciles of the [n] integers [f 0 .. f (n-1)]:
    minimum and maximum at the ends, nondecreasing, and enough of the integers
    on either side of each. *)
Definition deciles_of (n : nat) (f : nat -> Z) (row : list Q) : Prop :=
  let l := map f (seq 0 n) in
  let d := fun i => nth i row 0%Q in
  length row = 11%nat /\
  (forall i j, (i <= j <= 10)%nat -> d i <= d j)%Q /\
  (exists p, (p < n)%nat /\ d 0%nat == inject_Z (f p))%Q /\
  (forall p, (p < n)%nat -> d 0%nat <= inject_Z (f p) <= d 10%nat)%Q /\
  (exists p, (p < n)%nat /\ d 10%nat == inject_Z (f p))%Q /\
  (forall i, (i <= 10)%nat ->
     ((n - 1) * i < 10 * how_many (not_above (d i)) l)%nat /\
     (10 * n - (n - 1) * i - 9 <= 10 * how_many (not_below (d i)) l)%nat) /\
  (forall i, (i <= 10)%nat -> forall k, (forall p, (p < n)%nat -> f p = k) -> d i == inject_Z k)%Q.

(** Unwrapped phase of point [i] in band [b], as stored in a tile file. *)
Definition phase_of (f : tile_file) (b i : nat) : Q :=
  (nth i (nth b (tf_uw f) []) 0 + nth b (tf_offset f) 0)%Q.
(** A complete tile file with [bands] bands. *)
Definition tile_bands (bands : nat) (f : tile_file) : Prop :=
  length (tf_uw f) = bands /\ length (tf_offset f) = bands /\
  forall r, In r (tf_uw f) -> length r = length (tf_points f).
(** [s] is [x] rounded to an integer towards zero. *)
Definition towards_zero (x : Q) (s : Z) : Prop :=
  (0 <= x -> inject_Z s <= x < inject_Z s + 1)%Q /\ (x < 0 -> inject_Z s - 1 < x <= inject_Z s)%Q.
