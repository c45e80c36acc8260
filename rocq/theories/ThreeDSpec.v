(** Elements of a cube by axis, independently of how _three_d.py slices it. *)
From Verif Require Import Base ThreeDModel.
Import ListNotations.

(** Which of the three axes is time. *)
Inductive axis := Axis0 | Axis1 | Axis2.
Definition axis_number (x : axis) : Z := match x with Axis0 => 0 | Axis1 => 1 | Axis2 => 2 end%Z.

Section Spec.
  Context {A : Type} (d : A).

  (** Element [data[i, j, k]] of an array of shape (_, n1, n2), C order. *)
  Definition at3 (flat : list A) (n1 n2 i j k : nat) : A := nth ((i * n1 + j) * n2 + k) flat d.

  (** A cube of [t] epochs and [h] by [w] pixels stored with time on axis [x]. *)
  Definition stored_shape (x : axis) (t h w : nat) : list nat :=
    match x with
    | Axis0 => [t; h; w]
    | Axis1 => [h; t; w]
    | Axis2 => [h; w; t]
    end.

  (** The sample of epoch [t] at row [i], column [j]. *)
  Definition sample (x : axis) (nt h w : nat) (flat : list A) (t i j : nat) : A :=
    match x with
    | Axis0 => at3 flat h w t i j
    | Axis1 => at3 flat nt w i t j
    | Axis2 => at3 flat w nt i j t
    end.

  (** The same for a two-dimensional array: time first or time last. *)
  Definition stored_shape2 (first : bool) (t n : nat) : list nat := if first then [t; n] else [n; t].
  Definition sample2 (first : bool) (nt n : nat) (flat : list A) (t s : nat) : A :=
    if first then nth (t * n + s) flat d else nth (s * nt + t) flat d.
End Spec.
