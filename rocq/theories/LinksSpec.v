(** What temporal coherence is, and what is expected of the grid search. *)
From Coq Require Import Reals.
From Verif Require Import Base LinksModel.
Import ListNotations.
Local Open Scope R_scope.

(** f 0 + ... + f (n - 1) *)
Fixpoint big (n : nat) (f : nat -> R) : R :=
  match n with O => 0 | S m => big m f + f m end.

(** Arrays by their entries. *)
Definition elem (v : vec) (i : nat) : R := nth i v 0.
Definition entry (a : mat) (j k : nat) : R := nth k (nth j (m_rows a) []) 0.
Definition shaped (a : mat) : Prop := Forall (fun row => length row = m_ncol a) (m_rows a).

(** Phase left unexplained at observation j by parameters x. *)
Definition misfit (a : mat) (x b : vec) (j : nat) : R :=
  big (m_ncol a) (fun k => entry a j k * elem x k) - elem b j.

(** One weight per observation: a common one, or one each. *)
Definition weight (w : weights) (j : nat) : R :=
  match w with W0 c => c | W1 l => elem l j | W2 _ => 0 end.
Definition per_observation (w : weights) (n : nat) : Prop :=
  match w with W0 _ => True | W1 l => length l = n | W2 _ => False end.

(** Length of the sum of n arrows of signed length w j and direction r j. *)
Definition resultant (n : nat) (w r : nat -> R) : R :=
  sqrt ((big n (fun j => w j * cos (r j))) ^ 2 + (big n (fun j => w j * sin (r j))) ^ 2).

Definition coherence (a : mat) (x b : vec) (w : weights) : R :=
  resultant (m_nrow a) (weight w) (misfit a x b).

(** Arguments of matching shapes. *)
Definition matching (a : mat) (x b : vec) (w : weights) : Prop :=
  shaped a /\ length x = m_ncol a /\ length b = m_nrow a /\ per_observation w (m_nrow a).

(** * Contract of the grid search
    For arguments it can evaluate, [brute] returns a parameter vector of the right
    length with its objective value, no worse than any grid point; [fmin] starts
    from the best grid point and never returns a worse one. *)
Definition brute_contract {range} (on_grid : list range -> vec -> Prop)
    (brute : mat -> list range -> vec -> weights -> res (vec * R)) : Prop :=
  forall a rg b w x v, brute a rg b w = Ok (x, v) ->
    length x = m_ncol a /\ neg_temporal_coherence x a b w = Ok v /\
    forall g u, on_grid rg g -> neg_temporal_coherence g a b w = Ok u -> v <= u.
