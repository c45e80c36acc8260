(** Vocabulary for the spatio-temporal unwrapping properties. *)
From Verif Require Import Base GraphModel GraphSpec McfSpec.

(** Phase of interferogram number [e] at point [v]: read from the stack, or the
    difference of its two dates. *)
Definition ifg_phase (is_ifg : bool) (ifgs : list (nat * nat)) (data : list (list Q)) (e v : nat) : Q :=
  if is_ifg then nth v (nth e data []) 0%Q
  else (nth v (nth (snd (nth e ifgs (0, 0)%nat)) data []) 0 - nth v (nth (fst (nth e ifgs (0, 0)%nat)) data []) 0)%Q.

(** The interferograms come, modulo whole cycles, from one phase per date and point. *)
Definition consistent (is_ifg : bool) (ifgs : list (nat * nat)) (data : list (list Q)) (npoints : nat) : Prop :=
  exists s : nat -> nat -> Q, forall e v, e < length ifgs -> v < npoints ->
    cong2pi (ifg_phase is_ifg ifgs data e v)
            (s (snd (nth e ifgs (0, 0)%nat)) v - s (fst (nth e ifgs (0, 0)%nat)) v)%Q.

(** A stack of [nrows] rows with at least [npoints] samples each. *)
Definition stack (data : list (list Q)) (npoints : nat) : Prop :=
  forall row, In row data -> npoints <= length row.
