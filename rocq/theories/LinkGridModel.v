(** Model of the search that /repo/src/spurt/links/_grid_search.py:164-178 asks of
    [scipy.optimize.brute] for the ranges of _grid_search.py:22: which points it
    tries, in which order, and what it does with the values.

    - Floats are exact reals, as in LinksModel.v.
    - [optimize.fmin] (Nelder-Mead) is the parameter [fmin]: given the point to start
      from, it returns parameters and their value; its contract is in
      LinkGridSpec.v.
    - A [slice] without a step (step 1), and steps of zero, are not modelled
      separately: the first is [ByStep] with step 1. *)
From Coq Require Import Reals.
From Verif Require Import Base LinksModel.
Import ListNotations.
Local Open Scope nat_scope.

(** One range: [slice(start, stop, step)], or [slice(start, stop, n * 1j)], which
    numpy reads as a number of points. *)
Inductive axis := ByStep (start stop step : R) | ByCount (start stop : R) (n : nat).

(** [math.ceil] *)
Definition ceilR (x : R) : Z := (1 - up (- x))%Z.

(** The values [np.mgrid] gives along one range. *)
Definition axis_points (ax : axis) : vec :=
  match ax with
  | ByStep start stop step =>
      map (fun i => INR i * step + start)%R (seq 0 (Z.to_nat (ceilR ((stop - start) / step))))
  | ByCount start stop n =>
      let step := (if n =? 1 then 1 else (stop - start) / (INR n - 1))%R in
      map (fun i => INR i * step + start)%R (seq 0 n)
  end.

(** [np.mgrid[rngs]], reshaped to one point per row: the last parameter runs
    fastest. *)
Fixpoint mgrid (rg : list axis) : list vec :=
  match rg with
  | [] => [[]]
  | ax :: rg => flat_map (fun v => map (cons v) (mgrid rg)) (axis_points ax)
  end.

(** [argmin]: the first of the smallest values. *)
Fixpoint best (l : list (vec * R)) : option (vec * R) :=
  match l with
  | [] => None
  | p :: l => match best l with
              | None => Some p
              | Some q => if Rle_dec (snd p) (snd q) then Some p else Some q
              end
  end.

(** [optimize.brute(neg_temporal_coherence, rngs, args=(matrix, wdata, wts),
    full_output=True, finish=optimize.fmin)]; [argmin] of no values is a
    ValueError. *)
Definition grid_brute (fmin : (vec -> res R) -> vec -> res (vec * R))
    (a : mat) (rg : list axis) (b : vec) (w : weights) : res (vec * R) :=
  let f := fun x => neg_temporal_coherence x a b w in
  do vals <- map_res (fun x => do v <- f x; Ok (x, v)) (mgrid rg);
  match best vals with
  | None => Err ValueError
  | Some p => fmin f (fst p)
  end.
