(** Vocabulary for the accuracy of rounded unwrapping, tile by tile. *)
From Verif Require Import Base GraphModel TileModel TileSpec McfSpec SlcModel SlcSpec PipelineSpec ExactSpec FloatMcfSpec.
From Coq Require Import List.
Import ListNotations.
Local Open Scope Q_scope.

(** No sample on file exceeds [M]. *)
Definition samples_within (M : Q) (st : slc_stack Q) : Prop :=
  forall d x v, slc_phase st d x = Some v -> - M <= v <= M.

(** True phase of interferogram (i, j), dates by position. *)
Definition ifg_at (st : slc_stack Q) (Phi : string -> Z * Z -> Q) (i j : nat) (x : Z * Z) : Q :=
  true_ifg Phi (nth i (st_dates st) ""%string) (nth j (st_dates st) ""%string) x.
Definition is_ifg_of (st : slc_stack Q) (i j : nat) : Prop := (i < j < length (st_dates st))%nat /\ (j - i <= 3)%nat.

(** As [smooth], with a margin. *)
Definition smooth_by (mu : Q) (triangles : list (Z * Z) -> res (list (nat * nat * nat))) (st : slc_stack Q)
    (Phi : string -> Z * Z -> Q) (b : bbox) : Prop :=
  forall pts tri u v w, tile_pixels st b pts -> triangles pts = Ok tri -> In (u, v, w) tri ->
  forall a c, In a [u; v; w] -> In c [u; v; w] -> forall i j, is_ifg_of st i j ->
    Qabs (ifg_at st Phi i j (place b (nth c pts (0, 0)%Z)) - ifg_at st Phi i j (place b (nth a pts (0, 0)%Z))) < half - mu.

(** No true interferogram varies by more than [B] over the valid pixels of the tile. *)
Definition varies_by (B : Q) (st : slc_stack Q) (Phi : string -> Z * Z -> Q) (b : bbox) : Prop :=
  forall x y i j, is_ifg_of st i j -> valid_pixel st x -> has_pixel b (fst x) (snd x) -> valid_pixel st y -> has_pixel b (fst y) (snd y) ->
  Qabs (ifg_at st Phi i j x - ifg_at st Phi i j y) <= B.

(** Every point of the tile is at most [L] triangle sides from the first one. *)
Definition depth_by (L : nat) (triangles : list (Z * Z) -> res (list (nat * nat * nat))) (st : slc_stack Q) (b : bbox) : Prop :=
  forall pts tri, tile_pixels st b pts -> triangles pts = Ok tri -> depth_le (g_links (delaunay (length pts) tri)) (length pts) L.

(** At most [N] tiles contain any one pixel. *)
Definition covered_at_most (N : nat) (t : tileset) : Prop :=
  forall x l, NoDup l -> (forall q, In q l -> (q < ntiles t)%nat /\ has_pixel (tile_at t q) (fst x) (snd x)) -> (length l <= N)%nat.
