(** Model of the edge costs of /repo/src/spurt/mcf/utils.py:189-259.

    Coordinates and distances are exact reals; the int64 range of the costs is not
    modelled. Every point set of the package is N x 2. *)
From Coq Require Import Reals.
From Verif Require Import Base.
Import ListNotations.
Local Open Scope R_scope.

Notation point := (R * R)%type.

(** [np.linalg.norm(p - q)] *)
Definition norm_diff (p q : point) : R := sqrt ((fst p - fst q) ^ 2 + (snd p - snd q) ^ 2).

(** [np.rint]: nearest integer, ties to even. *)
Definition rintR (x : R) : Z :=
  let n := Int_part x in
  if Rlt_dec (x - IZR n) (1 / 2) then n
  else if Rlt_dec (1 / 2) (x - IZR n) then (n + 1)%Z
  else if Z.even n then n else (n + 1)%Z.

(** [cost[ii] = np.rint(1 + scale / d)] into an int array. [d] is a numpy scalar,
    so for d = 0 the quotient is infinite or not a number, with a warning only, and
    so is the numpy scalar that is stored. numpy (since 1.20; the package asks for
    at least 1.23) casts such a scalar without an error and leaves the integer
    unspecified. It is the parameter [junk], which may depend on the scale; the
    usual value is -2^63. *)
Definition edge_cost (junk : R -> Z) (scale d : R) : Z :=
  if Req_EM_T d 0 then junk scale else rintR (1 + scale / d).

(** [a[i]] *)
Definition index {A} (l : list A) (i : nat) : res A :=
  match nth_error l i with Some x => Ok x | None => Err IndexError end.
(** [a[i - 1]]: index -1 is the last element. *)
Definition index_pred {A} (l : list A) (i : nat) : res A :=
  match i with O => index (rev l) 0 | S j => index l j end.

(** utils.py:233-259 distance_costs *)
Definition distance_costs (junk : R -> Z) (points : list point) (edges : list (nat * nat)) (scale : R) : res (list Z) :=
  map_res (fun e => do p <- index points (fst e); do q <- index points (snd e);
                    Ok (edge_cost junk scale (norm_diff p q))) edges.

(** utils.py:218-220, one cycle: [np.mean(points[cycle], axis=0)]; cycles are
    not empty. *)
Definition mean_point (l : list point) : point :=
  (fold_right Rplus 0 (map fst l) / INR (length l), fold_right Rplus 0 (map snd l) / INR (length l)).
Definition centroid (points : list point) (cycle : list nat) : res point :=
  do l <- map_res (index points) cycle; Ok (mean_point l).

(** utils.py:189-230 centroid_costs. [dual_edges] holds cycle numbers plus one, 0
    being the grounding node; they are never negative here. *)
Definition centroid_costs (junk : R -> Z) (points : list point) (cycles : list (list nat)) (dual_edges : list (nat * nat))
    (scale : R) : res (list Z) :=
  do centroids <- map_res (centroid points) cycles;
  map_res (fun e => if (snd e =? 0)%nat then Ok 0%Z
                    else do p <- index_pred centroids (fst e); do q <- index_pred centroids (snd e);
                         Ok (edge_cost junk scale (norm_diff p q))) dual_edges.
