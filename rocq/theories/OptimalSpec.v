(** Vocabulary for the optimality of the unwrapped phases. *)
From Verif Require Import Base McfModel.
From Coq Require Import Qabs Qminmax.

(** Difference of the field [x] along link number [i]. *)
Definition slope (links : list (nat * nat)) (x : nat -> Q) (i : nat) : Q :=
  (x (snd (nth i links (0, 0)%nat)) - x (fst (nth i links (0, 0)%nat)))%Q.

(** Weighted sum of the amounts [d i], one per link; negative amounts are charged
    by [rev]. *)
Definition toll (cost rev : list Z) (d : nat -> Q) : Q :=
  sumQ (map (fun i => inject_Z (nth i cost 0%Z) * Qmax (d i) 0 + inject_Z (nth i rev 0%Z) * Qmax (- d i) 0)%Q
         (seq 0 (length cost))).
(** The same for costs that do not depend on the sign. *)
Definition weight (cost : list Z) (d : nat -> Q) : Q :=
  sumQ (map (fun i => inject_Z (nth i cost 0%Z) * Qabs (d i))%Q (seq 0 (length cost))).

(** Amounts the solver can represent. *)
Definition in_range (n : nat) (d : nat -> Q) : Prop :=
  forall i, (i < n)%nat -> (Qabs (d i) <= twopi * inject_Z int32_max)%Q.

(** One value per interferogram and link, weighted in time and space. *)
Definition weight2 (tc sc : list Z) (d : nat -> nat -> Q) : Q :=
  sumQ (map (fun n => inject_Z (nth n tc 0%Z) * weight sc (d n))%Q (seq 0 (length tc))).

(** Number of indices below [n] with a property. *)
Definition how_many (n : nat) (p : nat -> bool) : nat := length (filter p (seq 0 n)).
