(** Vocabulary for C89: tiles that are linked by shared pixels. *)
From Verif Require Import Base TileModel TileSpec.
Local Open Scope Z_scope.

(** Neighbours in a row or a column. *)
Definition adjacent (p q : Z * Z) : Prop := Z.abs (fst p - fst q) + Z.abs (snd p - snd q) = 1.

(** A walk from neighbour to neighbour over pixels of [P]. *)
Inductive walk (P : Z * Z -> Prop) : Z * Z -> Z * Z -> Prop :=
| walk_here p : P p -> walk P p p
| walk_step p q r : P p -> adjacent p q -> walk P q r -> walk P p r.

(** The edges [lo] and [hi] of a tile in [n] lines become [lo'] and [hi']: they move by at
    least the whole part of [f] times the size, unless they reach the border, and by at
    most that number rounded up. *)
Definition edges_moved (f : Q) (n lo hi lo' hi' : Z) : Prop :=
  forall k, 0 <= k <= 2 ^ 52 ->
    ((inject_Z k <= f * inject_Z (hi - lo))%Q -> lo' <= Z.max 0 (lo - k) /\ Z.min n (hi + k) <= hi') /\
    ((f * inject_Z (hi - lo) <= inject_Z k)%Q -> lo - k <= lo' /\ hi' <= hi + k).

(** Two tiles that have a pixel of [P] in common. *)
Definition sharing (P : Z * Z -> Prop) (t : tileset) (i j : nat) : Prop :=
  exists p, P p /\ has_pixel (tile_at t i) (fst p) (snd p) /\ has_pixel (tile_at t j) (fst p) (snd p).

(** From tile to tile along the pairs of a list that share a pixel of [P]. *)
Inductive linked_by (P : Z * Z -> Prop) (t : tileset) (pairs : list (nat * nat)) : nat -> nat -> Prop :=
| by_here i : linked_by P t pairs i i
| by_step i j k : In (i, j) pairs \/ In (j, i) pairs -> sharing P t i j -> linked_by P t pairs j k -> linked_by P t pairs i k.
