(** Vocabulary for the output of a rounded run on an arbitrary stack. *)
From Verif Require Import Base GraphModel McfModel TileModel OverlapModel SlcModel SlcSpec PipelineSpec FloatMcfSpec.
From Coq Require Import List.
Import ListNotations.
Local Open Scope Q_scope.

(** [y] is [x] up to whole cycles and an error of at most [e]. *)
Definition near_cong (e y x : Q) : Prop := exists k : Z, within e y (x + twopi * inject_Z k).

(** [y] is the interferometric phase of two dates at a pixel, up to whole cycles
    and an error of at most [e]. *)
Definition near_ifg (e : Q) (st : slc_stack Q) (d1 d2 : string) (x : Z * Z) (y : Q) : Prop :=
  exists a b, slc_phase st d1 x = Some a /\ slc_phase st d2 x = Some b /\ near_cong e y (b - a).

(** The network solver never sends more than [K] along an arc. Nothing else is
    asked of it: its flows need neither be optimal nor cancel the residues. *)
Definition flows_within (K : Z) (smcf : list arc -> list Z -> option (list Z)) : Prop :=
  forall arcs supply f x, smcf arcs supply = Some f -> In x f -> (0 <= x <= K)%Z.

(** No value in the tile file exceeds [B]. *)
Definition file_within (B : Q) (f : tile_file) : Prop :=
  forall row x, In row (tf_uw f) -> In x row -> - B <= x <= B.
