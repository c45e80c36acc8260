(** When two inputs describe the same wrapped data, and when two outcomes are the same. *)
From Verif Require Import Base GraphModel GraphSpec McfSpec EmcfSpec.

(** The phase of interferogram [n] seen along link (a, b) is the same in both
    stacks up to whole cycles, and is not exactly half-way between two
    representatives. *)
Definition same_differences (ifgs links : list (nat * nat)) (is_ifg is_ifg' : bool)
    (data data' : list (list Q)) : Prop :=
  forall n a b, n < length ifgs -> In (a, b) links ->
    let ph := ifg_phase is_ifg ifgs data in
    let ph' := ifg_phase is_ifg' ifgs data' in
    cong2pi (ph' n b - ph' n a)%Q (ph n b - ph n a)%Q /\ ~ tie (ph n a) (ph n b) 0.

(** Every link end has a sample in every row. *)
Definition covers (data : list (list Q)) (links : list (nat * nat)) : Prop :=
  forall row a b, In row data -> In (a, b) links -> a < length row /\ b < length row.

(** Same numbers. *)
Definition same_values (x y : list Q) : Prop := Forall2 Qeq x y.

(** Both return, and [R] holds of the results, or both raise the same exception. *)
Definition same_outcome {A} (R : A -> A -> Prop) (r r' : res A) : Prop :=
  match r, r' with
  | Ok x, Ok y => R x y
  | Err k, Err k' => k = k'
  | _, _ => False
  end.
