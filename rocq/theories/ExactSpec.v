(** Vocabulary for exact recovery: a stack that is the wrapped image of a smooth
    true history. *)
From Verif Require Import Base TileModel TileSpec McfSpec SlcModel SlcSpec BulkModel BulkSpec PipelineSpec.
From Coq Require Import List Sorting.Sorted.
Import ListNotations.

(** A true phase per acquisition date and pixel; the samples on file are equal to
    it up to whole cycles. *)
Definition history (st : slc_stack Q) (Phi : string -> Z * Z -> Q) : Prop :=
  forall d x v, slc_phase st d x = Some v -> cong2pi v (Phi d x).

(** Pixel of the image at position [p] of tile [b]. *)
Definition place (b : bbox) (p : Z * Z) : Z * Z := (fst p + xmin b, snd p + ymin b)%Z.

(** The valid pixels of tile [b] in row-major order, as positions in the tile. *)
Definition tile_pixels (st : slc_stack Q) (b : bbox) (pts : list (Z * Z)) : Prop :=
  StronglySorted before pts /\
  forall p, In p pts <-> valid_pixel st (place b p) /\ (0 <= fst p < xmax b - xmin b)%Z /\ (0 <= snd p < ymax b - ymin b)%Z.

(** The true phase of the interferogram of dates [d1] and [d2]. *)
Definition true_ifg (Phi : string -> Z * Z -> Q) (d1 d2 : string) (x : Z * Z) : Q := (Phi d2 x - Phi d1 x)%Q.

(** On every side of every triangle of the tile, every interferogram between
    dates at most three apart changes by less than half a cycle. *)
Definition smooth (triangles : list (Z * Z) -> res (list (nat * nat * nat))) (st : slc_stack Q)
    (Phi : string -> Z * Z -> Q) (b : bbox) : Prop :=
  forall pts tri u v w, tile_pixels st b pts -> triangles pts = Ok tri -> In (u, v, w) tri ->
  forall a c, In a [u; v; w] -> In c [u; v; w] ->
  forall i j, (i < j < length (st_dates st))%nat -> (j - i <= 3)%nat ->
    let D n := true_ifg Phi (nth i (st_dates st) ""%string) (nth j (st_dates st) ""%string) (place b (nth n pts (0, 0)%Z)) in
    (- half < D c - D a < half)%Q.

(** Every acquisition is on file, on the grid of the coherence raster. *)
Definition readable (st : slc_stack Q) : Prop :=
  forall date f, dict_get date (st_files st) = Some (Some f) ->
    exists img, st_slc st f = Some img /\ same_grid img (st_coh st).

(** ** The solvers of the bulk offsets *)
(** scipy's connected_components: as many labels as tiles, numbered without gaps,
    equal exactly for tiles linked by overlaps. *)
Definition components_ok (components : nat -> list (nat * nat) -> list nat) : Prop :=
  (forall n l, length (components n l) = n) /\
  forall n l, (0 < n)%nat -> (forall p, In p l -> (fst p < n)%nat /\ (snd p < n)%nat) ->
    (forall c, (c <= list_max (components n l))%nat -> In c (components n l)) /\ components_of l (components n l).

(** scipy's lstsq on differences that some offsets explain: a minimiser of the
    squared misfit. *)
Definition lsq_ok (lsq : list (list Q) -> list Q -> list Q) : Prop :=
  forall n l b x, l <> [] -> (forall p, In p l -> (fst p < n)%nat /\ (snd p < n)%nat /\ fst p <> snd p) -> length b = length l ->
    length x = n -> explainsQ l b x ->
    length (lsq (map (diff_row n) l) b) = n /\ minimiser (map (diff_row n) l) b (lsq (map (diff_row n) l) b).

(** What is needed of the solver of the chosen method. The second method has one
    reference tile for the whole image, so the tiles must all be linked. *)
Definition bulk_solver_ok (components : nat -> list (nat * nat) -> list nat) (solve : mip -> option (list Z))
    (lsq : list (list Q) -> list Q -> list Q) (method : string) (linked : Prop) : Prop :=
  (method = "integer"%string -> mip_sound solve /\ components_ok components) /\
  (method = "L2"%string -> lsq_ok lsq /\ linked).

(** ** Tiles that are tied together *)
(** Two tiles share [n] or more valid pixels, and at least one. *)
Definition overlapping (st : slc_stack Q) (n : Z) (b1 b2 : bbox) : Prop :=
  exists l, NoDup l /\ l <> [] /\ (n <= Z.of_nat (length l))%Z /\
    forall x, In x l -> valid_pixel st x /\ has_pixel b1 (fst x) (snd x) /\ has_pixel b2 (fst x) (snd x).

(** A chain of such pairs leads from tile [u] to tile [v]. *)
Inductive linked (st : slc_stack Q) (n : Z) (t : tileset) (u : nat) : nat -> Prop :=
  | linked_refl : linked st n t u u
  | linked_step v v' : linked st n t u v -> (v < ntiles t)%nat -> (v' < ntiles t)%nat ->
      overlapping st n (tile_at t v) (tile_at t v') -> linked st n t u v'.
