(** Vocabulary for the number formats: which rationals a binary floating-point
    format with [p] significant bits holds, and what rounding to nearest, ties to
    even, means (IEEE 754, without limits on the exponent). *)
From Verif Require Import Base GraphModel.
From Coq Require Export Qabs.
Local Open Scope Q_scope.

(** [x] is a number of the format: m * 2^e with a significand of [p] bits. *)
Definition holds (p : Z) (x : Q) : Prop :=
  exists m e : Z, x == inject_Z m * Qpower 2 e /\ (Z.abs m < 2 ^ p)%Z.

(** As above with a full significand whose last bit is zero. *)
Definition holds_even (p : Z) (x : Q) : Prop :=
  exists m e : Z, x == inject_Z m * Qpower 2 e /\ (2 ^ (p - 1) <= Z.abs m < 2 ^ p)%Z /\ Z.even m = true.

(** [y] is [x] rounded: a number of the format, none is nearer, and if another
    one is equally near, then the one with the even significand was taken. *)
Definition nearest_even (p : Z) (x y : Q) : Prop :=
  holds p y /\
  (forall z, holds p z -> Qabs (y - x) <= Qabs (z - x)) /\
  (forall z, holds p z -> Qabs (z - x) == Qabs (y - x) -> ~ z == y -> holds_even p y).

(** An array, a table, an image of such numbers; missing values are allowed. *)
Definition row_of (p : Z) (l : list Q) : Prop := forall x, In x l -> holds p x.
Definition table_of (p : Z) (t : list (list Q)) : Prop := forall l, In l t -> row_of p l.
Definition raster_of (p : Z) (r : list (list (option Q))) : Prop := forall l x, In l r -> In (Some x) l -> holds p x.
