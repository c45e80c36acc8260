(** Vocabulary for the number of tiles (C87). *)
From Verif Require Import Base.
From Coq Require Import List.
Local Open Scope Q_scope.

(** All that is asked of [np.sqrt]: it does not step over a multiple of 2^-10.
    These are double precision numbers, so a correctly rounded root does not. *)
Definition root_contract (fsqrt : Q -> Q) : Prop :=
  forall x (k : Z), 0 <= x -> (0 <= k < 2 ^ 53)%Z ->
    ((k # 1024) * (k # 1024) <= x -> (k # 1024) <= fsqrt x) /\
    (x <= (k # 1024) * (k # 1024) -> fsqrt x <= (k # 1024)).

(** The most points for which [q] by [q] tiles of [target] points are asked for,
    and the fewest: half a tile more or less per side, and 2^-10 for rounding. *)
Definition most (q target : Z) : Q := (inject_Z q + (1 # 2) + (1 # 1024)) * (inject_Z q + (1 # 2) + (1 # 1024)) * inject_Z target.
Definition fewest (q target : Z) : Q := (inject_Z q - (1 # 2) - (1 # 1024)) * (inject_Z q - (1 # 2) - (1 # 1024)) * inject_Z target.

(** Every [s]-th element, beginning with the first. *)
Definition every {A} (s : nat) (l sample : list A) : Prop :=
  forall i, nth_error sample i = nth_error l (s * i)%nat.
