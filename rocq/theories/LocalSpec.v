(** Vocabulary: how far a change of a tile spreads. *)
From Verif Require Import Base.
From Coq Require Import List.

(** Tile [j] is one of the tiles [D] or at most [n] overlaps away from one. *)
Inductive within (olaps : list (nat * nat)) (D : nat -> Prop) : nat -> nat -> Prop :=
| within_start n j : D j -> within olaps D n j
| within_step n i j : within olaps D n i -> In (i, j) olaps \/ In (j, i) olaps -> within olaps D (S n) j.
