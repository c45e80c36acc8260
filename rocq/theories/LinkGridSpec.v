(** What the values of the searched ranges are, and what is expected of the
    finishing optimiser. *)
From Coq Require Import Reals.
From Verif Require Import Base LinksModel LinkGridModel LinksSpec.
Import ListNotations.
Local Open Scope R_scope.

(** [fmin] started at [x0] returns parameters with their value, no worse than the
    value at [x0]. *)
Definition fmin_contract (fmin : (vec -> res R) -> vec -> res (vec * R)) : Prop :=
  forall f x0 x v, fmin f x0 = Ok (x, v) -> f x = Ok v /\ forall u, f x0 = Ok u -> v <= u.

(** v is one of the values tried for a range: start, start + step, ... below stop;
    or n evenly spaced values from start to stop. *)
Definition on_axis (ax : axis) (v : R) : Prop :=
  match ax with
  | ByStep start stop step => exists i : nat, v = start + INR i * step /\ v < stop
  | ByCount start stop n =>
      exists i : nat, (i < n)%nat /\ (INR n - 1) * (v - start) = INR i * (stop - start)
  end.
Definition usable (ax : axis) : Prop :=
  match ax with ByStep _ _ step => 0 < step | ByCount _ _ n => (2 <= n)%nat end.

(** A combination of values of the ranges. *)
Definition on_grid (rg : list axis) (g : vec) : Prop := Forall2 on_axis rg g.

(** Some value of the range is within d of v. *)
Definition close (ax : axis) (d v : R) : Prop := exists g, on_axis ax g /\ Rabs (g - v) <= d.

(** The data b are those of parameters x, up to a common phase c, whole cycles and
    an error of at most e. *)
Definition roughly (a : mat) (x b : vec) (c e : R) : Prop :=
  forall j, (j < m_nrow a)%nat -> exists k : Z, Rabs (misfit a x b j - c - 2 * PI * IZR k) <= e.

(** Total weight of the observations for which P. *)
Fixpoint mass (n : nat) (w : nat -> R) (P : nat -> bool) : R :=
  match n with O => 0 | S m => mass m w P + if P m then w m else 0 end.

(** Alphabetical order of parameter vectors. *)
Fixpoint lex (g h : vec) : Prop :=
  match g, h with
  | x :: g, y :: h => x < y \/ x = y /\ lex g h
  | _, _ => False
  end.
(** A range whose values increase. *)
Definition rising (ax : axis) : Prop :=
  match ax with ByStep _ _ step => 0 < step | ByCount start stop n => (2 <= n)%nat /\ start < stop end.
