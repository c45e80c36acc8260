(** Shared vocabulary: Python exceptions as values, array updates, exact
    rational arithmetic helpers. No definition here models a spurt function;
    the numpy/Python primitives that the models share are cited individually. *)
From Coq Require Export List Arith ZArith QArith Qround Bool.
From Coq Require Export Lia Lqa Permutation Sorted.
From Coq Require Import ZifyBool.
Export ListNotations.

(* Default reading of numerals and operators everywhere: nat. *)
Global Open Scope nat_scope.

(** Exceptions raised by the modelled Python code. Messages are not modelled. *)
Inductive exn :=
  | ValueError | KeyError | IndexError | RuntimeError | AssertionError
  | NotImplementedError | TypeError | ZeroDivisionError | FileNotFoundError | OverflowError
  | OutOfFuel.  (* never produced by Python: marks an exhausted fuelled loop *)

Inductive res (A : Type) := Ok (a : A) | Err (e : exn).
Arguments Ok {A} a. Arguments Err {A} e.

Definition bind {A B} (m : res A) (f : A -> res B) : res B :=
  match m with Ok a => f a | Err e => Err e end.
Notation "'do' x <- m ; k" := (bind m (fun x => k))
  (at level 200, x pattern, m at level 100, k at level 200, right associativity).

(** Running tasks one after the other / consuming results in completion order:
    the first failing one raises. *)
Fixpoint map_res {A B} (f : A -> res B) (l : list A) : res (list B) :=
  match l with
  | [] => Ok []
  | a :: t => do b <- f a; do bs <- map_res f t; Ok (b :: bs)
  end.

(** Array element assignment [l[i] = x]. Callers guarantee [i < length l];
    outside that range numpy raises, and the model's callers never go there. *)
Fixpoint upd {A} (l : list A) (i : nat) (x : A) : list A :=
  match l, i with
  | [], _ => []
  | _ :: t, O => x :: t
  | h :: t, S j => h :: upd t j x
  end.

Definition sumZ (l : list Z) : Z := fold_right Z.add 0%Z l.
Definition sumQ (l : list Q) : Q := fold_right Qplus 0%Q l.

(** [np.round] / [np.rint] on an exact value: nearest integer, ties to even. *)
Definition rint (x : Q) : Z :=
  let f := Qfloor (x + (1 # 2))%Q in
  if Qeq_bool (x + (1 # 2))%Q (inject_Z f) && Z.odd f then (f - 1)%Z else f.

(** The double [2*np.pi], exactly: [np.pi] is 884279719003555 / 2^48. *)
Definition twopi : Q := 884279719003555 # 140737488355328.

(** Two phases (radians) equal up to a whole number of cycles. *)
Definition cong2pi (x y : Q) : Prop := exists k : Z, (x == y + twopi * inject_Z k)%Q.
