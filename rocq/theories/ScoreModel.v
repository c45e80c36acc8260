(** How the density tiler chooses its cuts: src/spurt/utils/_tiling.py:251-305. *)
From Verif Require Import Base TileModel.
From Coq Require Import List Reals Qreals.
Import ListNotations.
Local Open Scope R_scope.

(** The expression of line 256 for a given [ii]. Real arithmetic stands for
    float64; the sums of the lengths are exact there, the rest is rounded. *)
Definition rect_cost (a b : R) (m ii : R) : R := sqrt ((a * m / ii) ^ 2 + (b * ii) ^ 2).

(** _tiling.py:251-256 [_score_rectangle] from the two sums on. [None] is nan:
    [0 / 0] when both sums vanish. A positive number divided by zero is infinite,
    which the minimum with [m] turns into [m]. The sums are never negative. *)
Definition score (asum bsum : R) (m : nat) : option R :=
  if Req_EM_T bsum 0 then
    if Req_EM_T asum 0 then None else Some (rect_cost asum bsum (INR m) (INR m))
  else Some (rect_cost asum bsum (INR m) (Rmax 1 (Rmin (INR m) (sqrt (INR m * asum / bsum))))).

(** _tiling.py:269 [np.diff(split_cuts)] *)
Definition lens (cuts : list Q) : list R :=
  map (fun i => Q2R (nth (S i) cuts 0%Q) - Q2R (nth i cuts 0%Q)) (seq 0 (length cuts - 1)).

Definition Rsum (l : list R) : R := fold_right Rplus 0 l.

Definition plus_nan (u v : option R) : option R :=
  match u, v with Some a, Some b => Some (a + b) | _, _ => None end.

(** _tiling.py:275-281 *)
Definition split_scores (lens_c lens_o : list R) (m : nat) : list (option R) :=
  map (fun i => plus_nan (score (Rsum (firstn i lens_c)) (Rsum lens_o) i)
                         (score (Rsum (skipn i lens_c)) (Rsum lens_o) (m - i)))
      (seq 1 (length lens_c - 1)).

(** [np.argmin]: the first nan if there is one, otherwise the first minimum;
    with its value. *)
Fixpoint argmin_from (best : option R) (bi i : nat) (l : list (option R)) : nat * option R :=
  match l with
  | [] => (bi, best)
  | s :: t =>
    match best, s with
    | None, _ => (bi, None)
    | Some _, None => (i, None)
    | Some v, Some w => if Rlt_dec w v then argmin_from s i (S i) t else argmin_from best bi (S i) t
    end
  end.
Definition argmin (l : list (option R)) : nat * option R :=
  match l with [] => (O, None) | s :: t => argmin_from s O 1 t end.

(** _tiling.py:274-283 *)
Definition find_best_split (lens_c lens_o : list R) (m : nat) : nat * option R :=
  let '(best_split, s) := argmin (split_scores lens_c lens_o m) in ((best_split + 1)%nat, s).

(** _tiling.py:299-305: axis and index of the cut. A comparison with nan is false.
    The last line is never reached from [split_rectangle], which has raised by then. *)
Definition pick_scores : picker := fun points bounds m =>
  match get_splits (sortZ (map fst points)) m (fst bounds), get_splits (sortZ (map snd points)) m (snd bounds) with
  | Ok cuts_x, Ok cuts_y =>
    let '(xi, xs) := find_best_split (lens cuts_x) (lens cuts_y) m in
    let '(yi, ys) := find_best_split (lens cuts_y) (lens cuts_x) m in
    match xs, ys with
    | Some u, Some v => if Rle_dec u v then (true, xi) else (false, yi)
    | _, _ => (false, yi)
    end
  | _, _ => (false, 1%nat)
  end.
