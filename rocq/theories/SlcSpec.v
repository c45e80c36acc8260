(** Vocabulary for the stack reader: pixels of a raster, reading order, and how a
    date is written in a file name. Independent of SlcModel.v's functions. *)
From Coq Require Export String Ascii.
From Verif Require Import Base.
From Coq Require Import List.
Import ListNotations.
Local Open Scope string_scope.

(** Pixel (row, column) of a raster given by rows. *)
Definition pixel_at {A} (img : list (list A)) (i j : nat) : option A :=
  match nth_error img i with Some row => nth_error row j | None => None end.

(** Row-major order of pixel coordinates. *)
Definition before (p q : Z * Z) : Prop :=
  (fst p < fst q \/ (fst p = fst q /\ snd p < snd q))%Z.

(** Both rasters have the same rows and columns. *)
Definition same_grid {A B} (a : list (list A)) (b : list (list B)) : Prop :=
  map (@length A) a = map (@length B) b.

(** Order of strings by character code. *)
Fixpoint str_le (a b : string) : Prop :=
  match a, b with
  | "", _ => True
  | String _ _, "" => False
  | String x a', String y b' =>
      (nat_of_ascii x < nat_of_ascii y)%nat \/ (x = y /\ str_le a' b')
  end.

(** No underscore inside. *)
Fixpoint no_us (s : string) : Prop :=
  match s with "" => True | String c t => c <> "_"%char /\ no_us t end.

(** Field number one of a name: what stands before the first underscore, or the
    whole name. *)
Definition field0 (name a : string) : Prop :=
  no_us a /\ (name = a \/ exists rest, name = a ++ "_" ++ rest).
(** Field number two: what stands between the first and the second underscore
    (or the end). *)
Definition field1 (name b : string) : Prop :=
  exists a rest, no_us a /\ name = a ++ "_" ++ rest /\ field0 rest b.

(** The first eight characters, or all of them. *)
Definition starts8 (s d : string) : Prop :=
  (String.length s <= 8 /\ d = s)%nat \/
  (String.length d = 8 /\ exists rest, s = d ++ rest)%nat.

(** The date of a file: eight characters of its second (interferogram) or first
    (SLC) field. *)
Definition second_date (name date : string) : Prop := exists b, field1 name b /\ starts8 b date.
Definition first_date (name date : string) : Prop := exists a, field0 name a /\ starts8 a date.

Definition has_suffix (suffix name : string) : Prop := exists p, name = p ++ suffix.
