(** Vocabulary for the effect of rounding on the unwrapping. *)
From Verif Require Import Base GraphModel GraphSpec.
From Coq Require Export Qabs.
Local Open Scope Q_scope.

(** [f] rounds with relative error at most [u], and treats both signs alike. *)
Record rounding (f : Q -> Q) (u : Q) : Prop := {
  rd_eq : forall x y, x == y -> f x == f y;
  rd_odd : forall x, f (- x) == - f x;
  rd_err : forall x, Qabs (f x - x) <= u * Qabs x
}.

(** [add] adds with error at most [u] relative to the operands. *)
Definition adds (add : Q -> Q -> Q) (u : Q) : Prop :=
  forall a v, Qabs (add a v - (a + v)) <= u * (Qabs a + Qabs v).

Definition within (e x y : Q) : Prop := Qabs (x - y) <= e.

(** [v] can be reached from point 0 over [n] links. *)
Inductive hops (links : list (nat * nat)) : nat -> nat -> Prop :=
  | hops_0 : hops links 0 0
  | hops_S n w v : hops links n w -> In (w, v) links \/ In (v, w) links -> hops links (S n) v.
Definition depth_le (links : list (nat * nat)) (npts L : nat) : Prop :=
  forall v, (v < npts)%nat -> exists n, (n <= L)%nat /\ hops links n v.

(** [m] cycles are added to point 0, ..., npts - 1: none to point 0, and along
    each link [c] of them. *)
Definition cycle_map (links : list (nat * nat)) (c : nat -> nat -> Z) (m : nat -> Z) : Prop :=
  m 0%nat = 0%Z /\ forall a b, In (a, b) links -> (m b - m a = c a b)%Z.

(** No difference comes within [e] of half a cycle. *)
Definition off_tie (e p0 p1 : Q) : Prop :=
  forall j : Z, e < Qabs (p1 - p0 - twopi * (inject_Z j + (1 # 2))).

(** The run gives [x], or the closure check of flood_fill raises, which it cannot
    for errors that are [small]. *)
Definition checked {A} (small : Prop) (r : res A) (x : A) : Prop :=
  (r = Ok x \/ r = Err ValueError) /\ (small -> r = Ok x).
