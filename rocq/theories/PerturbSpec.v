(** Vocabulary: a second stack whose phases differ from those of the first by
    known amounts, none of which makes a wrapped difference jump. *)
From Verif Require Import Base GraphModel GraphSpec McfModel McfSpec EmcfSpec TileModel TileSpec OverlapModel OverlapSpec MergeModel MergeSpec ShiftSpec
  SlcModel SlcSpec PipelineSpec ExactSpec.
From Coq Require Import List.
Import ListNotations.
Local Open Scope Q_scope.

(** What is added to interferogram [n] at point (or pixel) [v] when [eps t v] is added
    to date [t]. *)
Definition drift {A} (ifgs : list (nat * nat)) (eps : nat -> A -> Q) (n : nat) (v : A) : Q :=
  eps (snd (nth n ifgs (0, 0)%nat)) v - eps (fst (nth n ifgs (0, 0)%nat)) v.

(** The wrapped value [w] of [x] is still between minus half a cycle and half a
    cycle when [d] is added to it. *)
Definition stays (x d : Q) : Prop :=
  exists w, cong2pi w x /\ - half < w < half /\ - half < w + d < half.

(** Points a and b, from [pa], [pb] to [pa'], [pb']: up to whole cycles the
    difference has grown by [d], and the wrapped difference does not jump. *)
Definition no_jump (pa pb pa' pb' d : Q) : Prop :=
  cong2pi (pb' - pa') (pb - pa + d) /\ stays (pb - pa) d.

(** Every interferogram along every link. *)
Definition perturbed (ifgs links : list (nat * nat)) (is_ifg is_ifg' : bool) (data data' : list (list Q))
    (eps : nat -> nat -> Q) : Prop :=
  forall n a b, (n < length ifgs)%nat -> In (a, b) links ->
    let ph := ifg_phase is_ifg ifgs data in
    let ph' := ifg_phase is_ifg' ifgs data' in
    no_jump (ph n a) (ph n b) (ph' n a) (ph' n b) (drift ifgs eps n b - drift ifgs eps n a).

(** The second list is the first one with [d v] added at index [v]. *)
Definition raised (d : nat -> Q) (u u' : list Q) : Prop :=
  length u = length u' /\ forall v, (v < length u)%nat -> nth v u' 0 == nth v u 0 + d v.

(** The files of the second list have the same pixels as those of the first, and in
    band [b] the phase at pixel [x] of the image is larger by [f b x], in all
    the tiles that contain the pixel. *)
Definition same_field (bands : nat) (f : nat -> Z * Z -> Q) (files files' : list tile_file) : Prop :=
  forall b i p x, (b < bands)%nat -> nth_error (file_coords (nth i files no_file)) p = Some x ->
    phase_of (nth i files' no_file) b p == phase_of (nth i files no_file) b p + f b x.

(** The second value is the first one plus [c]; NaN stays NaN. *)
Definition plus_opt (c : Q) (o o' : option Q) : Prop :=
  match o, o' with Some v, Some v' => v' == v + c | None, None => True | _, _ => False end.

(** A second stack on disk with the same dates and valid pixels, [eps t x] added to the
    phase of date [t] at pixel [x], up to whole cycles. The names of the files, and which
    date has none because it is the reference, may differ. *)
Definition moved_stack (st st' : slc_stack Q) (eps : nat -> Z * Z -> Q) : Prop :=
  st_dates st' = st_dates st /\ st_coh st' = st_coh st /\ st_threshold st' = st_threshold st /\
  forall t x p p', (t < length (st_dates st))%nat -> valid_pixel st x ->
    slc_phase st (nth t (st_dates st) ""%string) x = Some p -> slc_phase st' (nth t (st_dates st) ""%string) x = Some p' ->
    cong2pi p' (p + eps t x).

(** In tile [b], what is added makes no wrapped value of an interferogram jump: neither
    its phase at the first pixel, nor its differences on the sides of the triangles. *)
Definition steady (triangles : list (Z * Z) -> res (list (nat * nat * nat))) (st : slc_stack Q) (ifgs : list (nat * nat))
    (eps : nat -> Z * Z -> Q) (b : bbox) : Prop :=
  forall pts tri n, tile_pixels st b pts -> triangles pts = Ok tri -> (n < length ifgs)%nat ->
  let at_pixel u := place b (nth u pts (0, 0)%Z) in
  let phase u v := ifg_value st (nth (fst (nth n ifgs (0, 0)%nat)) (st_dates st) ""%string) (nth (snd (nth n ifgs (0, 0)%nat)) (st_dates st) ""%string) (at_pixel u) v in
  let d u := drift ifgs eps n (at_pixel u) in
  (forall a, phase O a -> stays a (d O)) /\
  forall u v a c, In (u, v) (g_links (delaunay (length pts) tri)) -> phase u a -> phase v c -> stays (c - a) (d v - d u).
