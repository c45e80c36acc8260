(** Vocabulary for C88: two stacks with the same interferograms. *)
From Verif Require Import Base GraphModel TileModel TileSpec SlcModel SlcSpec PipelineSpec ExactSpec.
From Coq Require Import List.
Import ListNotations.
Local Open Scope Q_scope.

(** The same dates and valid pixels, and between any two dates the same phase up to
    whole cycles. Files, and the date that serves as reference, may differ. *)
Definition same_ifgs (st st' : slc_stack Q) : Prop :=
  st_dates st' = st_dates st /\ st_coh st' = st_coh st /\ st_threshold st' = st_threshold st /\
  forall d1 d2 x a b a' b', valid_pixel st x ->
    slc_phase st d1 x = Some a -> slc_phase st d2 x = Some b ->
    slc_phase st' d1 x = Some a' -> slc_phase st' d2 x = Some b' -> cong2pi (b' - a') (b - a).

(** An odd number of half cycles. *)
Definition half_way_phase (x : Q) : Prop := exists k : Z, x == twopi * (inject_Z k + (1 # 2)).

(** In tile [b] no interferogram is half-way at the first pixel, nor are its
    differences on the sides of the triangles. *)
Definition decided (triangles : list (Z * Z) -> res (list (nat * nat * nat))) (st : slc_stack Q) (ifgs : list (nat * nat)) (b : bbox) : Prop :=
  forall pts tri i j, tile_pixels st b pts -> triangles pts = Ok tri -> In (i, j) ifgs ->
  let phase u := ifg_value st (nth i (st_dates st) ""%string) (nth j (st_dates st) ""%string) (place b (nth u pts (0, 0)%Z)) in
  (forall a, phase O a -> ~ half_way_phase a) /\
  forall u v a c, In (u, v) (g_links (delaunay (length pts) tri)) -> phase u a -> phase v c -> ~ half_way_phase (c - a).
