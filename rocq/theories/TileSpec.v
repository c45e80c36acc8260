(** What the tiling properties mean, in terms of pixels. *)
From Verif Require Import Base TileModel.
Local Open Scope Z_scope.

(** Pixel (r, c) belongs to the array selected by [BBox.space]
    (_tiling.py:55-58): lower edge inclusive, upper edge exclusive. *)
Definition has_pixel (b : bbox) (r c : Z) : Prop :=
  xmin b <= r < xmax b /\ ymin b <= c < ymax b.

Definition in_image (sh : Z * Z) (r c : Z) : Prop :=
  0 <= r < fst sh /\ 0 <= c < snd sh.

(** Well-formed box inside the image; may be empty. *)
Definition box_in_image (sh : Z * Z) (b : bbox) : Prop :=
  0 <= xmin b <= xmax b /\ xmax b <= fst sh /\ 0 <= ymin b <= ymax b /\ ymax b <= snd sh.

Definition tile_at (t : tileset) (i : nat) : bbox := nth i (tiles t) (BBox 0 0 0 0).

(** Every image pixel lies in exactly one tile. *)
Definition partitions (t : tileset) : Prop :=
  forall r c, in_image (shape t) r c ->
    exists! i, (i < ntiles t)%nat /\ has_pixel (tile_at t i) r c.

(** No two tiles share a pixel. *)
Definition disjoint_tiles (t : tileset) : Prop :=
  forall i j r c, (i < ntiles t)%nat -> (j < ntiles t)%nat ->
    has_pixel (tile_at t i) r c -> has_pixel (tile_at t j) r c -> i = j.

Definition inside (a b : bbox) : Prop := forall r c, has_pixel a r c -> has_pixel b r c.

(** Lexicographic order on pairs of tile numbers. *)
Definition lexlt (p q : nat * nat) : Prop :=
  (fst p < fst q)%nat \/ (fst p = fst q /\ (snd p < snd q)%nat).

(** The selection of lines 302-305 yields an index of [range(1, m)]. *)
Definition picks_in_range (pick : picker) : Prop :=
  forall pts b m, (2 <= m)%nat -> (1 <= snd (pick pts b m) <= m - 1)%nat.

Definition points_in (sh : Z * Z) (pts : list (Z * Z)) : Prop :=
  forall p, In p pts -> in_image sh (fst p) (snd p).
