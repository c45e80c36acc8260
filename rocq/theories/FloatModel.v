(** Rounding of binary64 arithmetic, as a function on exact rationals.

    Used where the code's behaviour depends on how float64 results are
    rounded before [int()] truncates them (utils/_tiling.py). [rnd64 x] is the
    double nearest to [x], ties to even, for every [x] whose magnitude lies in
    the normal range (about 1e-308 to 1e308). Overflow, underflow, NaN and
    signed zero are not represented; no value the tilers compute comes near
    those ranges. *)
From Verif Require Import Base.
Local Open Scope Q_scope.

Definition pow2 (e : Z) : Q := Qpower 2 e.

(** Exponent of the leading bit of a positive rational. *)
Definition qlog2 (x : Q) : Z :=
  let e := (Z.log2 (Qnum x) - Z.log2 (Zpos (Qden x)))%Z in
  if Qle_bool (pow2 e) x then e else (e - 1)%Z.

(** Nearest multiple of 2^(e-52) for 2^e <= x < 2^(e+1). *)
Definition rnd_pos (x : Q) : Q :=
  let u := pow2 (qlog2 x - 52) in inject_Z (rint (x / u)) * u.

Definition rnd64 (x : Q) : Q :=
  match Qcompare x 0 with
  | Eq => 0
  | Gt => rnd_pos x
  | Lt => - rnd_pos (- x)
  end.

(** Python's [int()] on a finite float: truncation towards zero. *)
Definition qtrunc (x : Q) : Z :=
  if Qle_bool 0 x then Qfloor x else Qceiling x.
