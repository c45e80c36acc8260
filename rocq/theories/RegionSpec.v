(** Vocabulary: overlaps that count, and connected coherent pixels. *)
From Verif Require Import Base TileModel TileSpec SlcModel SlcSpec PipelineSpec ExactSpec LinkedSpec.
Local Open Scope Q_scope.

(** Tiles that have a coherent pixel in common have at least [n] in common, or are
    linked through tiles that do. *)
Definition enough_shared (st : slc_stack Q) (n : Z) (t : tileset) : Prop :=
  forall u v, (u < ntiles t)%nat -> (v < ntiles t)%nat -> sharing (valid_pixel st) t u v ->
    linked st n t u v.

(** All coherent pixels are connected and every tile has one. *)
Definition one_region (st : slc_stack Q) (t : tileset) : Prop :=
  (forall x y, valid_pixel st x -> valid_pixel st y -> walk (valid_pixel st) x y) /\
  forall u, (u < ntiles t)%nat -> exists x, valid_pixel st x /\ has_pixel (tile_at t u) (fst x) (snd x).
