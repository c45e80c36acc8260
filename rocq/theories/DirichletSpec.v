(** Vocabulary for stating the Dirichlet properties. *)
From Verif Require Import Base GraphSpec.
Local Open Scope Q_scope.

Definition masked (mask : list bool) (i : nat) : Prop := nth i mask false = true.
Definition free (mask : list bool) (i : nat) : Prop := nth i mask true = false.

(** [(A x)_i] *)
Definition applyQ (a : list (list Q)) (x : list Q) (i : nat) : Q :=
  sumQ (map (fun j => nth j (nth i a []) 0 * nth j x 0) (seq 0 (length x))).

(** [x] solves the equations of the free points. *)
Definition solves_off (a : list (list Q)) (b x : list Q) (mask : list bool) : Prop :=
  forall i, free mask i -> applyQ a x i == nth i b 0.

(** [v] solves the square system [m v = r]. *)
Definition solves (m : list (list Q)) (r v : list Q) : Prop :=
  length v = length r /\ forall i, (i < length r)%nat -> applyQ m v i == nth i r 0.

(** Net difference to the neighbours of point [i]. *)
Definition net (links : list (nat * nat)) (x : list Q) (i : nat) : Q :=
  sumQ (map (fun l =>
    (if (fst l =? i)%nat then nth i x 0 - nth (snd l) x 0 else 0) +
    (if (snd l =? i)%nat then nth i x 0 - nth (fst l) x 0 else 0)) links).

(** Every free point is balanced with its neighbours. *)
Definition harmonic_off (links : list (nat * nat)) (x : list Q) (mask : list bool) : Prop :=
  forall i, free mask i -> net links x i == 0.

(** From every point a fixed one can be reached along links. *)
Definition anchored (links : list (nat * nat)) (mask : list bool) : Prop :=
  forall i, (i < length mask)%nat -> exists m, masked mask m /\ reach links i m.

(** Squared length of [A x - b]. *)
Definition misfit (a : list (list Q)) (b x : list Q) : Q :=
  sumQ (map (fun i => (applyQ a x i - nth i b 0) * (applyQ a x i - nth i b 0)) (seq 0 (length b))).

Definition sym (a : list (list Q)) : Prop := forall i j, nth j (nth i a []) 0 == nth i (nth j a []) 0.
(** [v . A v > 0] unless [v] is zero. *)
Definition pos_def (a : list (list Q)) : Prop :=
  sym a /\ forall v, length v = length a -> (exists i, (i < length v)%nat /\ ~ nth i v 0 == 0) ->
    0 < sumQ (map (fun i => nth i v 0 * applyQ a v i) (seq 0 (length a))).
(** [A v = 0] for [v = 0] only, for a matrix with [ncols] columns. *)
Definition injective_matrix (ncols : nat) (a : list (list Q)) : Prop :=
  forall v, length v = ncols -> (forall i, (i < length a)%nat -> applyQ a v i == 0) -> forall i, nth i v 0 == 0.
(** [x] is among the [ncols]-vectors one with the least [|A x - b|]. *)
Definition minimises (a : list (list Q)) (ncols : nat) (b x : list Q) : Prop :=
  length x = ncols /\ forall y, length y = ncols -> misfit a b x <= misfit a b y.
(** [r] is [b - A x]. *)
Definition residual_of (a : list (list Q)) (b x r : list Q) : Prop :=
  length r = length b /\ forall i, (i < length b)%nat -> nth i r 0 == nth i b 0 - applyQ a x i.
