(** Vocabulary for C90: a constant phase added to every date. *)
From Verif Require Import Base GraphModel TileModel TileSpec SlcModel SlcSpec PipelineSpec ExactSpec ReferenceSpec PerturbSpec.
From Coq Require Import List.
Import ListNotations.
Local Open Scope Q_scope.

(** The second stack has [c t] added to the phase of date [t] at every pixel, up to
    whole cycles. *)
Definition constants_added (st st' : slc_stack Q) (c : nat -> Q) : Prop := moved_stack st st' (fun t _ => c t).

(** What this adds to interferogram [n]. *)
Definition step (ifgs : list (nat * nat)) (c : nat -> Q) (n : nat) : Q :=
  c (snd (nth n ifgs (0, 0)%nat)) - c (fst (nth n ifgs (0, 0)%nat)).

(** In tile [b] no difference of an interferogram on a side of a triangle is an odd
    number of half cycles. *)
Definition sides_decided (triangles : list (Z * Z) -> res (list (nat * nat * nat))) (st : slc_stack Q) (ifgs : list (nat * nat)) (b : bbox) : Prop :=
  forall pts tri i j, tile_pixels st b pts -> triangles pts = Ok tri -> In (i, j) ifgs ->
  let phase u := ifg_value st (nth i (st_dates st) ""%string) (nth j (st_dates st) ""%string) (place b (nth u pts (0, 0)%Z)) in
  forall u v a b, In (u, v) (g_links (delaunay (length pts) tri)) -> phase u a -> phase v b -> ~ half_way_phase (b - a).

(** The second value is the first plus [d] and [k] cycles; NaN stays NaN. *)
Definition stepped (d : Q) (k : Z) (o o' : option Q) : Prop :=
  match o, o' with Some v, Some v' => v' == v + d + twopi * inject_Z k | None, None => True | _, _ => False end.
