(** Properties C35 and C36: the bulk offsets of the tiles.
    Code: /repo/src/spurt/workflows/emcf/_bulk_offset.py,
    /repo/src/spurt/utils/merge.py:93-130. *)
From Coq Require Import String.
From Verif Require Import Base BaseLemmas GraphSpec OverlapModel TileModel BulkModel BulkSpec BulkProofs.
From Coq Require Import List ZifyBool Lqa.
Import ListNotations.
Open Scope nat_scope.
Set Default Goal Selector "!".
Local Open Scope Z_scope.

(** * C35: the integer method *)
(** Whatever optimal answer the MIP solver gives: one offset per tile, zero at
    the reference of every component, the reported value is the disagreement
    of the offsets returned, and no other offsets in range that are zero at
    the references disagree less. No condition on the overlaps. *)
Theorem C35_offsets solve olaps labels off counts n v : mip_sound solve ->
  solve_int_offsets solve olaps labels off counts = Ok (n, v) ->
  length n = length labels /\
  (forall r, reference labels counts r -> nth r n 0 = 0) /\
  v = disagreement olaps off n /\
  (forall n', length n' = length labels ->
     (forall i, (i < length labels)%nat -> Z.abs (nth i n' 0) <= 2 ^ 31 - 1) ->
     (forall k, (k < length olaps)%nat -> Z.abs (misfit olaps off n' k) <= 2 ^ 31 - 1) ->
     (forall r, reference labels counts r -> nth r n' 0 = 0) ->
     v <= disagreement olaps off n').
Proof.
  intros Hs H. destruct (int_ok _ _ _ _ _ Hs _ _ H) as (A & B & C & D & E).
  split; [auto|]. split; [auto|]. split; [auto|]. intros n' L B' M' R. subst v. apply E; auto.
  intros i Hi. specialize (B' i Hi). change int32_max with (2 ^ 31 - 1). lia.
Qed.

(** Over all integer offsets, with no condition on them, when the measured
    offsets add up to less than 2^30 and the labels are the components. *)
Theorem C35_optimal solve olaps labels off counts n v : mip_sound solve ->
  layout olaps labels -> components_of olaps labels ->
  solve_int_offsets solve olaps labels off counts = Ok (n, v) ->
  sumZ (map (fun k => Z.abs (nth k off 0)) (seq 0 (length olaps))) < 2 ^ 30 ->
  forall n', length n' = length labels -> v <= disagreement olaps off n'.
Proof.
  intros Hs Hl Hc H Hb n' L. destruct (int_ok _ _ _ _ _ Hs _ _ H) as (_ & _ & _ & -> & _).
  refine (int_optimal _ _ _ _ _ Hs Hl Hc _ _ H _ n' L). change int32_max with (2 ^ 31 - 1). lia.
Qed.

(** A solution is found whenever the solver is complete. *)
Theorem C35_total solve olaps labels off counts : mip_complete solve -> layout olaps labels ->
  (forall k, (k < length olaps)%nat -> Z.abs (nth k off 0) <= 2 ^ 31 - 1) ->
  exists n v, solve_int_offsets solve olaps labels off counts = Ok (n, v).
Proof. intros Hc Hl Hb. apply int_total; auto. Qed.

(** When some offsets explain all measurements, the residual is zero, the
    offsets returned explain them too and are the only ones, zero at the
    references, that do. *)
Theorem C35_consistent solve olaps labels off counts n v n0 : mip_sound solve ->
  layout olaps labels -> components_of olaps labels ->
  solve_int_offsets solve olaps labels off counts = Ok (n, v) ->
  length n0 = length labels -> explains olaps off n0 ->
  (forall u w, (u < length labels)%nat -> (w < length labels)%nat ->
     Z.abs (nth u n0 0 - nth w n0 0) <= 2 ^ 31 - 1) ->
  v = 0 /\ explains olaps off n /\
  (forall n', explains olaps off n' -> (forall r, reference labels counts r -> nth r n' 0 = 0) ->
     forall t, (t < length labels)%nat -> nth t n' 0 = nth t n 0).
Proof. intros Hs Hl Hc H L E B. eapply int_consistent; eauto. Qed.

(** Then subtracting 2pi times the offsets makes every pair of tiles agree:
    [x] and [y] are the phases of the two tiles at a shared pixel. *)
Theorem C35_aligned olaps off n : explains olaps off n ->
  forall k x y, (k < length olaps)%nat -> (y - x == twopi * inject_Z (nth k off 0%Z))%Q ->
  let p := nth k olaps (0, 0)%nat in
  (x - twopi * inject_Z (nth (fst p) n 0%Z) == y - twopi * inject_Z (nth (snd p) n 0%Z))%Q.
Proof.
  intros H k x y Hk E p. specialize (H k Hk). unfold misfit in H. fold p in H.
  replace (nth k off 0) with (nth (snd p) n 0 - nth (fst p) n 0) in E by lia.
  rewrite inject_Z_sub in E. lra.
Qed.

(** From the overlap file: every band is solved with the medians of that band,
    read from the group of each pair. *)
Theorem C35_file solve lsq f t arr O R : mip_sound solve ->
  get_bulk_offsets solve lsq "integer"%string f t arr = Ok (O, R) ->
  length O = length R /\
  forall b, (b < length O)%nat -> exists n off,
    nth b O [] = map inject_Z n /\ nth b R 0%Q = inject_Z (disagreement (of_overlaps f) off n) /\
    length n = length (of_conn_comp f) /\
    length off = length (of_overlaps f) /\
    (forall k, (k < length off)%nat -> median_of f b (nth k (of_overlaps f) (0, 0)%nat) (nth k off 0)) /\
    (forall r, reference (of_conn_comp f) (map (count_valid arr) (tiles t)) r -> nth r n 0 = 0) /\
    (layout (of_overlaps f) (of_conn_comp f) -> components_of (of_overlaps f) (of_conn_comp f) ->
     sumZ (map (fun k => Z.abs (nth k off 0)) (seq 0 (length (of_overlaps f)))) < 2 ^ 30 ->
     forall n', length n' = length n ->
       disagreement (of_overlaps f) off n <= disagreement (of_overlaps f) off n').
Proof.
  intros Hs H. destruct (bulk_int _ _ _ _ _ _ _ H) as [L HB]. split; [auto|]. intros b Hb.
  destruct (HB b Hb) as (n & v & off & E1 & E2 & Lo & Hm & Hsol). exists n, off.
  destruct (C35_offsets _ _ _ _ _ _ _ Hs Hsol) as (Ln & Hr & Ev & _).
  split; [auto|]. split; [now rewrite E2, Ev|]. split; [auto|]. split; [auto|]. split; [auto|]. split; [auto|].
  intros Hl Hc Hs2 n' Ln'. rewrite <- Ev.
  refine (C35_optimal _ _ _ _ _ _ _ Hs Hl Hc Hsol Hs2 n' _). congruence.
Qed.

(** The tile sizes compared are the numbers of valid pixels in the tiles. *)
Theorem C35_tile_size arr b : 0 <= xmin b -> 0 <= ymin b ->
  count_valid arr b = Z.of_nat (length (filter (valid_at arr)
    (box_pixels (Z.to_nat (xmin b)) (Z.to_nat (xmax b)) (Z.to_nat (ymin b)) (Z.to_nat (ymax b))))).
Proof. apply count_valid_spec. Qed.

Example C35_tile_size_witness :
  count_valid [[true; false; true]; [true; true; false]; [true; true; true]] (BBox 1 1 3 5) = 3.
Proof. reflexivity. Qed.

(** Five tiles in two components. The solver is exhaustive search. *)
Definition C35_olaps : list (nat * nat) := [(0, 1); (1, 2); (3, 4)]%nat.
Definition C35_labels : list nat := [0; 0; 0; 1; 1]%nat.
Definition C35_counts : list Z := [5; 7; 7; 1; 2].

Lemma C35_witness_layout : layout C35_olaps C35_labels.
Proof.
  split; [discriminate|]. split.
  - intros c Hc. cbn in Hc. destruct c as [|[|c]]; cbn; auto; lia.
  - intros p Hp. cbn in Hp. intuition; subst; cbn; lia.
Qed.
Lemma C35_witness_comp : components_of C35_olaps C35_labels.
Proof.
  intros u w Hu Hw. split.
  - assert (forall a b, In (a, b) C35_olaps -> reach C35_olaps a b /\ reach C35_olaps b a) as L.
    { intros a b H. split; (eapply reach_step; [constructor|]); auto. }
    assert (forall a b, In (a, b) C35_olaps -> reach C35_olaps a b) as L1' by apply L.
    assert (forall a b, In (a, b) C35_olaps -> reach C35_olaps b a) as L2' by (intros; now apply L).
    assert (reach C35_olaps 0 2 /\ reach C35_olaps 2 0) as [L1 L2].
    { split; (eapply reach_step; [eapply reach_step; [constructor|]|]); cbn; eauto 8. }
    cbn in Hu, Hw. do 5 (destruct u as [|u]; [do 5 (destruct w as [|w]; [first
      [ intros; apply reach_refl | discriminate | intros; first [assumption | eapply L1' ; cbn; tauto | eapply L2'; cbn; tauto ] ]|]); lia|]). lia.
  - intros H. clear Hu Hw. induction H as [|v v' Hr IH Hl]; [auto|]. rewrite IH.
    cbn in Hl. repeat match goal with
      | H : _ \/ _ |- _ => destruct H as [H|H] | H : False |- _ => destruct H
      | H : (_, _) = (_, _) |- _ => injection H as <- <- end; reflexivity.
Qed.

Example C35_witness : forall off, off = [2; -3; 1] ->
  reference C35_labels C35_counts 1 /\ reference C35_labels C35_counts 4 /\
  exists n, solve_int_offsets brute_mip C35_olaps C35_labels off C35_counts = Ok (n, 0) /\
    forall t, (t < 5)%nat -> nth t n 0 = nth t [-2; 0; -3; -1; 0] 0.
Proof.
  intros off Eo. split; [|split].
  - split; [cbn; lia|]. intros v Hv. cbn in Hv. do 5 (destruct v as [|v]; [cbn; try discriminate; lia|]). lia.
  - split; [cbn; lia|]. intros v Hv. cbn in Hv. do 5 (destruct v as [|v]; [cbn; try discriminate; lia|]). lia.
  - assert (forall k, (k < length C35_olaps)%nat -> Z.abs (nth k off 0) <= 2 ^ 31 - 1) as Hb.
    { subst off. intros k Hk. cbn in Hk. do 3 (destruct k as [|k]; [cbn; lia|]). lia. }
    destruct (C35_total brute_mip C35_olaps C35_labels off C35_counts brute_mip_complete C35_witness_layout Hb)
      as (n & v & H).
    destruct (C35_consistent _ _ _ _ _ _ _ [-2; 0; -3; -1; 0] brute_mip_sound C35_witness_layout C35_witness_comp H)
      as (-> & _ & U).
    + reflexivity.
    + subst off. intros k Hk. cbn in Hk. do 3 (destruct k as [|k]; [reflexivity|]). lia.
    + intros u w Hu Hw. cbn in Hu, Hw.
      do 5 (destruct u as [|u]; [do 5 (destruct w as [|w]; [cbn; lia|]); lia|]). lia.
    + exists n. split; [exact H|]. intros t Ht. symmetry. apply U; [| |exact Ht].
      * subst off. intros k Hk. cbn in Hk. do 3 (destruct k as [|k]; [reflexivity|]). lia.
      * intros r [Hr Hm]. cbn in Hr. do 5 (destruct r as [|r]; [first
          [ reflexivity
          | exfalso; pose proof (Hm 1%nat ltac:(cbn; lia) eq_refl) as M; cbn in M; lia
          | exfalso; pose proof (Hm 4%nat ltac:(cbn; lia) eq_refl) as M; cbn in M; lia ]|]). lia.
Qed.

(** Both oracle contracts hold of one function. *)
Example C35_solver : mip_sound brute_mip /\ mip_complete brute_mip.
Proof. split; [apply brute_mip_sound | apply brute_mip_complete]. Qed.

(** * C36: the L2 method *)
(** The offsets are zero at the tile with most points and are still a least
    squares minimiser, the residual is their total absolute misfit. When the
    measurements are consistent the offsets explain them exactly, the residual
    is zero and, if all tiles are connected, no other offsets do. *)
Theorem C36_offsets lsq olaps off nt counts O R :
  (forall p, In p olaps -> fst p <> snd p) ->
  (forall b, In b off -> length (lsq (map (diff_row nt) olaps) b) = nt /\
     minimiser (map (diff_row nt) olaps) b (lsq (map (diff_row nt) olaps) b)) ->
  length counts = nt ->
  solve_l2_min lsq olaps off nt counts = Ok (O, R) ->
  length O = length off /\ length R = length off /\
  forall b, (b < length off)%nat -> let o := nth b O [] in let m := nth b off [] in
    length o = nt /\
    (forall c, most_points counts c -> (nth c o 0 == 0)%Q) /\
    minimiser (map (diff_row nt) olaps) m o /\
    (nth b R 0 == sumQ (map (fun k => Qabs (misfitQ olaps m o k)) (seq 0 (length olaps))))%Q /\
    (forall n0, length n0 = nt -> explainsQ olaps m n0 ->
       explainsQ olaps m o /\ (nth b R 0 == 0)%Q /\
       (forall n', explainsQ olaps m n' -> (forall c, most_points counts c -> (nth c n' 0 == 0)%Q) ->
          (forall u v, (u < nt)%nat -> (v < nt)%nat -> reach olaps u v) ->
          forall t, (t < nt)%nat -> (nth t n' 0 == nth t o 0)%Q)).
Proof. intros Hd Hl Hc H. eapply l2_ok; eauto. Qed.

Theorem C36_total lsq olaps off nt counts : olaps <> [] -> counts <> [] ->
  (forall b, In b off -> length b = length olaps) ->
  (forall p, In p olaps -> (fst p < nt)%nat /\ (snd p < nt)%nat) ->
  exists O R, solve_l2_min lsq olaps off nt counts = Ok (O, R).
Proof. intros. apply l2_total; auto. Qed.

(** Without a single overlap the method raises. *)
Theorem C36_no_overlaps lsq off nt counts : solve_l2_min lsq [] off nt counts = Err IndexError.
Proof. reflexivity. Qed.

Theorem C36_aligned olaps off n : explainsQ olaps off n ->
  forall k x y, (k < length olaps)%nat -> (y - x == twopi * nth k off 0)%Q ->
  let p := nth k olaps (0, 0)%nat in
  (x - twopi * nth (fst p) n 0 == y - twopi * nth (snd p) n 0)%Q.
Proof.
  intros H k x y Hk E p. specialize (H k Hk). cbn zeta in H. fold p in H. rewrite <- H in E. lra.
Qed.

(** From the overlap file. *)
Theorem C36_file solve lsq f t arr O R :
  get_bulk_offsets solve lsq "L2"%string f t arr = Ok (O, R) ->
  exists offs,
    (forall b, (b < length offs)%nat -> length (nth b offs []) = length (of_overlaps f) /\
      forall k, (k < length (of_overlaps f))%nat -> exists m,
        median_of f b (nth k (of_overlaps f) (0, 0)%nat) m /\ nth k (nth b offs []) 0%Q = inject_Z m) /\
    solve_l2_min lsq (of_overlaps f) offs (ntiles t) (map (count_valid arr) (tiles t)) = Ok (O, R).
Proof. apply bulk_l2. Qed.

(** Three tiles in a chain, one band, and a solver that returns a minimiser
    which is not zero at the reference tile. *)
Definition C36_lsq (_ : list (list Q)) (_ : list Q) : list Q := [5; 7; 4]%Q.
Definition C36_olaps : list (nat * nat) := [(0, 1); (1, 2)]%nat.
Example C36_witness :
  (forall p, In p C36_olaps -> fst p <> snd p) /\
  (forall b, In b [[2; -3]]%Q -> length (C36_lsq (map (diff_row 3) C36_olaps) b) = 3%nat /\
     minimiser (map (diff_row 3) C36_olaps) b (C36_lsq (map (diff_row 3) C36_olaps) b)) /\
  exists R, solve_l2_min C36_lsq C36_olaps [[2; -3]]%Q 3 [1; 4; 2]%Z = Ok ([[-2; 0; -3]]%Q, R) /\
    most_points [1; 4; 2]%Z 1.
Proof.
  split; [|split].
  - intros p Hp. cbn in Hp. destruct Hp as [<-|[<-|[]]]; discriminate.
  - intros b Hb. cbn in Hb. destruct Hb as [<-|[]]. split; [reflexivity|]. intros y Hy.
    assert (normsq (subQ [2; -3] (mat_vec (map (diff_row 3) C36_olaps) (C36_lsq [] [])))%Q == 0)%Q as E by reflexivity.
    unfold C36_lsq in *. rewrite E. unfold normsq. apply sumQ_map_nonneg. intros x _.
    destruct (Qlt_le_dec x 0); nra.
  - eexists. split; [vm_compute; reflexivity|]. split; [cbn; lia|]. intros v Hv. cbn in Hv.
    do 3 (destruct v as [|v]; [cbn; lia|]). lia.
Qed.

Print Assumptions C35_offsets.
Print Assumptions C35_optimal.
Print Assumptions C35_total.
Print Assumptions C35_consistent.
Print Assumptions C35_aligned.
Print Assumptions C35_file.
Print Assumptions C36_offsets.
Print Assumptions C36_total.
Print Assumptions C36_no_overlaps.
Print Assumptions C36_aligned.
Print Assumptions C36_file.
Print Assumptions C35_tile_size.
