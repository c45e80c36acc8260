(** Vocabulary for the effect of rounding on the merge. *)
From Verif Require Import Base TileModel OverlapModel OverlapSpec MergeModel.
From Coq Require Export Qabs.
Local Open Scope Q_scope.

(** The two tile files have the same points, and their phases differ by at most [e]. *)
Definition near_file (e : Q) (f g : tile_file) : Prop :=
  tf_points f = tf_points g /\ tf_tile f = tf_tile g /\
  forall b p, Qabs (phase_of f b p - phase_of g b p) <= e.

(** Point [p] of the file is pixel [x]. *)
Definition file_point (f : tile_file) (x : Z * Z) (p : nat) : Prop := nth_error (file_coords f) p = Some x.

(** Wherever two of the files share a pixel, their phases differ by whole cycles. *)
Definition whole_cycles (bands : nat) (files : list tile_file) : Prop :=
  forall f g x p q b, In f files -> In g files -> file_point f x p -> file_point g x q -> (b < bands)%nat ->
  exists k : Z, phase_of g b q - phase_of f b p == twopi * inject_Z k.

(** No phase in these bands exceeds [R]. *)
Definition phases_within (R : Q) (bands : nat) (files : list tile_file) : Prop :=
  forall f b p, In f files -> (b < bands)%nat -> (p < length (tf_points f))%nat -> Qabs (phase_of f b p) <= R.

(** In band [b] every file shows one field [G], up to [e] and [beta j] cycles in file [j]. *)
Definition shows (e : Q) (b : nat) (G : Z * Z -> Q) (beta : nat -> Z) (files : list tile_file) : Prop :=
  forall j f x p, nth_error files j = Some f -> file_point f x p ->
  Qabs (phase_of f b p - (G x + twopi * inject_Z (beta j))) <= e.

(** What solves the Dirichlet problems never answers more than [K] times the
    largest value it was given on the mask, one number for each point off it. *)
Definition amplifies (K : Q) (solve : list (Z * Z) -> list bool -> list Q -> res (list Q)) : Prop :=
  forall cs mask xf x M, solve cs mask xf = Ok x -> 0 <= M ->
  (forall p, nth p mask false = true -> Qabs (nth p xf 0) <= M) -> forall v, In v x -> Qabs v <= K * M.
(** It answers whenever some point is on the mask. *)
Definition answers (solve : list (Z * Z) -> list bool -> list Q -> res (list Q)) : Prop :=
  forall cs mask xf, length mask = length cs -> length xf = length cs ->
  In true mask -> exists x, solve cs mask xf = Ok x /\
    length x = length (filter negb mask).

(** How far the tiles may have drifted from the common field after [n] passes of
    the adjustment: each pass can make the deviation 1 + 2 K times as large. *)
Fixpoint drift (K h : Q) (n : nat) (w : Q) : Q :=
  match n with
  | O => w
  | S n => (1 + 2 * K) * drift K h n w + 8 * K * h
  end.

(** At most [N] of the files contain any one pixel. *)
Definition overlap_at_most (N : nat) (files : list tile_file) : Prop :=
  forall x, (length (filter (fun f => existsb (point_eqb x) (file_coords f)) files) <= N)%nat.
