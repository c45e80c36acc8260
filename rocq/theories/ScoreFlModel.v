(** The scores of the density tiler with every operation rounded:
    src/spurt/utils/_tiling.py:251-305. *)
From Verif Require Import Base TileModel ScoreModel.
From Coq Require Import List Reals Qreals.
Import ListNotations.
Local Open Scope R_scope.

Section Rounded.
  (* [fl] rounds the result of an operation, [rt] is [x ** 0.5] *)
  Context (fl rt : R -> R).

  (** _tiling.py:256. [x ** 2] is one rounded product. *)
  Definition rect_cost_fl (a b m ii : R) : R :=
    rt (fl (fl (fl (fl (a * m) / ii) ^ 2) + fl (fl (b * ii) ^ 2))).

  (** _tiling.py:251-256. The sums are whole or half numbers and exact; 1 and [m] are
      whole, so that cutting off at them is exact. As in [ScoreModel.score], [None] is nan. *)
  Definition score_fl (asum bsum : R) (m : nat) : option R :=
    if Req_EM_T bsum 0 then
      if Req_EM_T asum 0 then None else Some (rect_cost_fl asum bsum (INR m) (INR m))
    else Some (rect_cost_fl asum bsum (INR m) (Rmax 1 (Rmin (INR m) (rt (fl (fl (INR m * asum) / bsum)))))).

  Definition plus_fl (u v : option R) : option R :=
    match u, v with Some a, Some b => Some (fl (a + b)) | _, _ => None end.

  (** _tiling.py:275-281 *)
  Definition split_scores_fl (lens_c lens_o : list R) (m : nat) : list (option R) :=
    map (fun i => plus_fl (score_fl (Rsum (firstn i lens_c)) (Rsum lens_o) i)
                          (score_fl (Rsum (skipn i lens_c)) (Rsum lens_o) (m - i)))
        (seq 1 (length lens_c - 1)).

  (** _tiling.py:274-283 *)
  Definition find_best_split_fl (lens_c lens_o : list R) (m : nat) : nat * option R :=
    let '(best_split, s) := argmin (split_scores_fl lens_c lens_o m) in ((best_split + 1)%nat, s).

  (** _tiling.py:299-305 *)
  Definition pick_scores_fl : picker := fun points bounds m =>
    match get_splits (sortZ (map fst points)) m (fst bounds), get_splits (sortZ (map snd points)) m (snd bounds) with
    | Ok cuts_x, Ok cuts_y =>
      let '(xi, xs) := find_best_split_fl (lens cuts_x) (lens cuts_y) m in
      let '(yi, ys) := find_best_split_fl (lens cuts_y) (lens cuts_x) m in
      match xs, ys with
      | Some u, Some v => if Rle_dec u v then (true, xi) else (false, yi)
      | _, _ => (false, yi)
      end
    | _, _ => (false, 1%nat)
    end.
End Rounded.
