(** Vocabulary for stating the bulk offset properties. *)
From Verif Require Import Base GraphSpec BulkModel.
Local Open Scope Z_scope.

(** ** The contract of the MIP solver *)
Definition mip_feasible (p : mip) (x : list Z) : Prop :=
  length x = length (mip_bounds p) /\
  (forall i, (i < length x)%nat ->
     fst (nth i (mip_bounds p) (0, 0)) <= nth i x 0 <= snd (nth i (mip_bounds p) (0, 0))) /\
  (forall form rhs, In (form, rhs) (mip_eqs p) -> lin_val x form = rhs).
Definition mip_sound (solve : mip -> option (list Z)) : Prop :=
  forall p x, solve p = Some x -> mip_feasible p x /\
    forall y, mip_feasible p y -> lin_val x (mip_obj p) <= lin_val y (mip_obj p).
Definition mip_complete (solve : mip -> option (list Z)) : Prop :=
  forall p, (exists x, mip_feasible p x) -> solve p <> None.

(** ** Tiles *)
(** Measured minus modelled difference, for the k-th overlap. *)
Definition misfit (olaps : list (nat * nat)) (off n : list Z) (k : nat) : Z :=
  let p := nth k olaps (0, 0)%nat in nth k off 0 - (nth (snd p) n 0 - nth (fst p) n 0).
(** Total absolute disagreement. *)
Definition disagreement (olaps : list (nat * nat)) (off n : list Z) : Z :=
  sumZ (map (fun k => Z.abs (misfit olaps off n k)) (seq 0 (length olaps))).

(** [r] is the reference of its component: the first of the tiles with most
    points among those with the same label. *)
Definition reference (labels : list nat) (counts : list Z) (r : nat) : Prop :=
  (r < length labels)%nat /\
  forall v, (v < length labels)%nat -> nth v labels O = nth r labels O ->
    nth v counts 0 <= nth r counts 0 /\ ((v < r)%nat -> nth v counts 0 < nth r counts 0).

(** Labels numbered 0, 1, ... without gaps, and a tile for every overlap end. *)
Definition layout (olaps : list (nat * nat)) (labels : list nat) : Prop :=
  labels <> [] /\
  (forall c, (c <= list_max labels)%nat -> In c labels) /\
  (forall p, In p olaps -> (fst p < length labels)%nat /\ (snd p < length labels)%nat).

(** The labels are the connected components of the overlap graph. *)
Definition components_of (olaps : list (nat * nat)) (labels : list nat) : Prop :=
  forall u v, (u < length labels)%nat -> (v < length labels)%nat ->
    nth u labels O = nth v labels O <-> reach olaps u v.

(** [n] explains every measured difference exactly. *)
Definition explains (olaps : list (nat * nat)) (off n : list Z) : Prop :=
  forall k, (k < length olaps)%nat -> misfit olaps off n k = 0.

(** ** Least squares *)
Local Open Scope Q_scope.
Definition normsq (v : list Q) : Q := sumQ (map (fun x => x * x) v).
Definition minimiser (a : list (list Q)) (b x : list Q) : Prop :=
  forall y, length y = length x ->
    normsq (subQ b (mat_vec a x)) <= normsq (subQ b (mat_vec a y)).

Definition explainsQ (olaps : list (nat * nat)) (off n : list Q) : Prop :=
  forall k, (k < length olaps)%nat ->
    let p := nth k olaps (0, 0)%nat in nth (snd p) n 0 - nth (fst p) n 0 == nth k off 0.

(** Difference modelled minus measured, summed absolutely. *)
Definition misfitQ (olaps : list (nat * nat)) (off n : list Q) (k : nat) : Q :=
  let p := nth k olaps (0, 0)%nat in nth k off 0 - (nth (snd p) n 0 - nth (fst p) n 0).

(** The tile with most points, the first one of them. *)
Definition most_points (counts : list Z) (r : nat) : Prop :=
  (r < length counts)%nat /\
  forall v, (v < length counts)%nat ->
    (nth v counts 0 <= nth r counts 0)%Z /\ ((v < r)%nat -> (nth v counts 0 < nth r counts 0)%Z).

(** The median written to the overlap file for band [b] of a pair of tiles. *)
Definition median_of (f : OverlapModel.overlap_file) (b : nat) (p : nat * nat) (m : Z) : Prop :=
  exists g, In g (OverlapModel.of_groups f) /\ OverlapModel.og_pair g = p /\
    m = nth 5 (nth b (OverlapModel.og_stats g) []) 0%Z.

(** The pixels of a box that are valid in the mask [arr]. *)
Definition box_pixels (r0 r1 c0 c1 : nat) : list (nat * nat) :=
  flat_map (fun r => map (fun c => (r, c)) (seq c0 (c1 - c0)%nat)) (seq r0 (r1 - r0)%nat).
Definition valid_at (arr : list (list bool)) (p : nat * nat) : bool := nth (snd p) (nth (fst p) arr []) false.
