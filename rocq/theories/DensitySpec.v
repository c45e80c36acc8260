(** Vocabulary for how many points the tiles hold. *)
From Verif Require Import Base TileModel.

(** No row and no column of the image has more than [D] of the points. *)
Definition per_line (D : nat) (pts : list (Z * Z)) : Prop :=
  forall v : Z, length (filter (fun p => fst p =? v)%Z pts) <= D /\ length (filter (fun p => snd p =? v)%Z pts) <= D.

(** How many of the points lie in the array that the box selects. *)
Definition in_box (b : bbox) (p : Z * Z) : bool :=
  ((xmin b <=? fst p) && (fst p <? xmax b) && (ymin b <=? snd p) && (snd p <? ymax b))%Z.
Definition points_of (b : bbox) (pts : list (Z * Z)) : nat := length (filter (in_box b) pts).

(** What ties may cost a tile when there are [m]: with at most [D] points per line,
    (D - 1) / 1 + (D - 1) / 2 + ... + (D - 1) / (m - 1), each rounded up. *)
Definition ceil_div (a k : nat) : nat := (a + k - 1) / k.
Definition tie_loss (D m : nat) : nat := list_sum (map (ceil_div (D - 1)) (seq 1 (m - 1))).
