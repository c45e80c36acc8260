(** Vocabulary for the cuts of the density tiler. *)
From Verif Require Import Base TileModel.
From Coq Require Import List Permutation Sorting.Sorted Reals Qreals.
Import ListNotations.
Local Open Scope R_scope.

(** The least of [sqrt ((a * m / x) ^ 2 + (b * x) ^ 2)] for [x] from 1 to [m]: the
    diagonal of [a * m / x] by [b * x], the sides of the [m] pieces put together. *)
Definition least_diagonal (a b m s : R) : Prop :=
  (exists x, 1 <= x <= m /\ s = sqrt ((a * m / x) ^ 2 + (b * x) ^ 2)) /\
  forall x, 1 <= x <= m -> s <= sqrt ((a * m / x) ^ 2 + (b * x) ^ 2).

(** Rows or columns. *)
Definition coord (rows : bool) (p : Z * Z) : Z := if rows then fst p else snd p.
Definition from (rows : bool) (b : qbounds) : R := Q2R (fst (if rows then fst b else snd b)).
Definition upto (rows : bool) (b : qbounds) : R := Q2R (snd (if rows then fst b else snd b)).

Definition inside (b : qbounds) (pts : list (Z * Z)) : Prop :=
  forall p rows, In p pts -> from rows b <= IZR (coord rows p) <= upto rows b.

(** The [i]-th of the cuts that leave the same number of points between them: half way
    between the neighbours in the order of the coordinates. *)
Definition cut_line (rows : bool) (pts : list (Z * Z)) (m i : nat) (c : R) : Prop :=
  exists z, StronglySorted Z.le z /\ Permutation z (map (coord rows) pts) /\
    let n := (length pts / m)%nat in c = IZR (nth (i * n - 1)%nat z 0%Z + nth (i * n)%nat z 0%Z) / 2.

(** What cutting there costs: both parts together, of [i] and of [m - i] tiles. *)
Definition cut_cost (rows : bool) (pts : list (Z * Z)) (b : qbounds) (m i : nat) (s : R) : Prop :=
  exists c s1 s2, cut_line rows pts m i c /\ s = s1 + s2 /\
    least_diagonal (c - from rows b) (upto (negb rows) b - from (negb rows) b) (INR i) s1 /\
    least_diagonal (upto rows b - c) (upto (negb rows) b - from (negb rows) b) (INR (m - i)) s2.

(** The cut leaves one part without area in its own direction. *)
Definition on_border (rows : bool) (pts : list (Z * Z)) (b : qbounds) (m i : nat) : Prop :=
  cut_line rows pts m i (from rows b) \/ cut_line rows pts m i (upto rows b).

(** Rows and columns exchanged. *)
Definition swap {A} (p : A * A) : A * A := (snd p, fst p).

(** A good choice of direction and cut. With extent both ways it is the cheapest of all,
    the first of them, rows before columns; different points on a line are cut along it. *)
Definition well_chosen (pts : list (Z * Z)) (b : qbounds) (m : nat) (rows : bool) (i : nat) : Prop :=
  (from true b < upto true b -> from false b < upto false b ->
   exists s, cut_cost rows pts b m i s /\
     forall rows' i' s', (1 <= i' < m)%nat -> cut_cost rows' pts b m i' s' ->
       s <= s' /\ (s' <= s -> rows = true /\ rows' = false \/ rows' = rows /\ (i <= i')%nat)) /\
  (forall d, NoDup pts -> from (negb d) b = upto (negb d) b -> from d b < upto d b -> rows = d /\ i = 1%nat).

(** The bounds on both sides of a cut. *)
Definition before (rows : bool) (b : qbounds) (c : Q) : qbounds :=
  if rows then ((fst (fst b), c), snd b) else (fst b, (fst (snd b), c)).
Definition beyond (rows : bool) (b : qbounds) (c : Q) : qbounds :=
  if rows then ((c, snd (fst b)), snd b) else (fst b, (c, snd (snd b))).

(** [m] parts of the bounds, from good choices all the way down. The points on a cut
    belong to the part before it. *)
Inductive well_cut : list (Z * Z) -> qbounds -> nat -> list qbounds -> Prop :=
| one_part pts b : well_cut pts b 1 [b]
| two_sides pts near far b m rows i c l l' :
    (1 <= i < m)%nat -> cut_line rows pts m i (Q2R c) -> well_chosen pts b m rows i ->
    Permutation (near ++ far) pts ->
    (forall p, In p near -> IZR (coord rows p) <= Q2R c) -> (forall p, In p far -> Q2R c < IZR (coord rows p)) ->
    well_cut near (before rows b c) i l -> well_cut far (beyond rows b c) (m - i) l' ->
    well_cut pts b m (l ++ l').

(** The rows and columns of a part. *)
Definition whole (b : qbounds) : bbox := BBox (Qfloor (fst (fst b))) (Qfloor (fst (snd b))) (Qfloor (snd (fst b))) (Qfloor (snd (snd b))).
