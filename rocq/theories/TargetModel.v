(** The number of tiles asked for by [get_tiles]: workflows/emcf/_tiling.py. *)
From Verif Require Import Base FloatModel TileModel.
Local Open Scope Q_scope.

(** _tiling.py:50 [int(np.rint(np.sqrt(len(pts) / target_points_per_tile)))] for
    [n] points. The quotient of two Python ints is correctly rounded; [fsqrt] is
    [np.sqrt]. The rounded root is whole, so [int] does not change it. *)
Definition tile_root (fsqrt : Q -> Q) (target : Z) (n : nat) : Z :=
  rint (fsqrt (rnd64 (inject_Z (Z.of_nat n) / inject_Z target))).
