(** Distances and nearest integers, independently of CostModel.v. *)
From Coq Require Import Reals.
From Verif Require Import Base.
Import ListNotations.
Local Open Scope R_scope.

(** Euclidean distance, as the nonnegative root of the sum of squares. *)
Definition is_distance (p q : R * R) (d : R) : Prop :=
  0 <= d /\ d * d = (fst p - fst q) * (fst p - fst q) + (snd p - snd q) * (snd p - snd q).

(** A nearest integer, the even one of two. *)
Definition nearest (x : R) (n : Z) : Prop :=
  IZR n - 1 / 2 <= x <= IZR n + 1 / 2 /\
  (x = IZR n - 1 / 2 \/ x = IZR n + 1 / 2 -> Z.even n = true).

(** Centre of gravity of some points. *)
Definition is_centre (l : list (R * R)) (c : R * R) : Prop :=
  INR (length l) * fst c = fold_right Rplus 0 (map fst l) /\
  INR (length l) * snd c = fold_right Rplus 0 (map snd l).

(** Position of a node and of the corners of a cycle. *)
Definition pos (points : list (R * R)) (v : nat) : R * R := nth v points (0, 0).
Definition corners (points : list (R * R)) (cycle : list nat) : list (R * R) := map (pos points) cycle.
