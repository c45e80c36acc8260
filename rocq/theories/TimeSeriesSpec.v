(** Vocabulary for unwrapped interferograms that belong together. *)
From Verif Require Import Base GraphModel GraphSpec McfSpec.

(** Sum around a cycle of one value per link, given by its number. *)
Definition around (links : list (nat * nat)) (f : nat -> Q) (c : list nat) : Q :=
  circQ (link_val 0%Q links (map f (seq 0 (length links)))) c.
Definition aroundZ (links : list (nat * nat)) (f : nat -> Z) (c : list nat) : Z :=
  circZ (link_val 0%Z links (map f (seq 0 (length links)))) c.

(** The phases [u n v] of interferogram n at point v are the differences of one phase
    per date. *)
Definition one_series (ifgs : list (nat * nat)) (npoints : nat) (u : nat -> nat -> Q) : Prop :=
  exists s : nat -> nat -> Q, forall n v, n < length ifgs -> v < npoints ->
    (u n v == s (snd (nth n ifgs (0, 0)%nat)) v - s (fst (nth n ifgs (0, 0)%nat)) v)%Q.
