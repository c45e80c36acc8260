(** C85: the rounded arithmetic is that of IEEE 754, and what the workflow stores as
    float32 is a float32. *)
From Verif Require Import Base BaseLemmas GraphModel GraphSpec McfModel EmcfModel TileModel SlcModel OverlapModel BulkModel MergeModel UnwrapTileModel
  FloatModel FloatProofs FloatMcfModel FloatMcfSpec FloatMcfRound FloatCubeModel FloatTileModel FloatMergeModel FloatRunModel FormatSpec FormatProofs FormatRunProofs
  MergeSpec ExactWitness Props_FloatMerge Props_FloatAny.
From Coq Require Import ZifyBool.
From Coq Require Import List.
Import ListNotations.
Set Default Goal Selector "!".
Local Open Scope Q_scope.

(** Every rational is rounded to the nearest number of the format, and between
    two that are equally near to the one whose significand is even. *)
Theorem C85_rounding : forall x, nearest_even 24 x (rnd32 x) /\ nearest_even 53 x (rnd64 x).
Proof. intros x. split; [exact (rnd_at_nearest 23 x ltac:(lia))|exact (rnd_at_nearest 52 x ltac:(lia))]. Qed.

(** This determines the rounded value. *)
Theorem C85_unique x y : (nearest_even 24 x y -> y == rnd32 x) /\ (nearest_even 53 x y -> y == rnd64 x).
Proof. split; [exact (nearest_rnd_at 23 x y ltac:(lia))|exact (nearest_rnd_at 52 x y ltac:(lia))]. Qed.

(** A number of the format stays as it is. *)
Theorem C85_exact p x y : nearest_even p x y -> holds p x -> y == x.
Proof. exact (nearest_fixed p x y). Qed.

Lemma in32 x : holds 24 (rnd32 x).
Proof. exact (proj1 (proj1 (C85_rounding x))). Qed.
Lemma zero32 : holds 24 0.
Proof. apply holds_zero. lia. Qed.

(** The gradients, which are stored between the two steps, and the unwrapped phases. *)
Theorem C85_cube smcf tsched ssched cpu e c :
  (forall is_ifg G, unwrap_gradients_in_time_fl single smcf tsched cpu e is_ifg (cu_data c) = Ok G -> table_of 24 G) /\
  (forall U, unwrap_cube_fl single smcf tsched ssched cpu e c = Ok U -> table_of 24 U).
Proof.
  split.
  - intros is_ifg G E col Hc x Hx.
    exact (time_stored (holds 24) single smcf zero32 (fun _ _ => in32 _) tsched cpu e is_ifg (cu_data c) G E col x Hc Hx).
  - intros U E row Hr x Hx. exact (cube_stored (holds 24) single smcf zero32 in32 tsched ssched cpu e c U E row x Hr Hx).
Qed.

(** The file of a tile. *)
Theorem C85_tile smcf triangles tsched ssched cpu set tdist tcent sdist scent st gt b f :
  unwrap_one_tile_fl single smcf triangles tsched ssched cpu set tdist tcent sdist scent st gt b = Ok f ->
  table_of 24 (tf_uw f) /\ row_of 24 (tf_offset f).
Proof.
  intros E.
  destruct (tile_stored (holds 24) single smcf zero32 in32 triangles tsched ssched cpu set tdist tcent sdist scent st gt b f E) as [A B].
  split; [|exact B]. intros row Hr x Hx. exact (A row x Hr Hx).
Qed.

(** A tile as it is read for the overlaps and the differences in cycles of two
    such tiles. *)
Theorem C85_overlap : (forall f b, table_of 24 (snd (load_uw_tile_fl rnd32 f b))) /\ (forall x1 x2, holds 24 (cycle_diff_fl rnd32 x1 x2)).
Proof.
  split.
  - intros f b row Hr x Hx. exact (loaded_stored (holds 24) rnd32 in32 f b row x Hr Hx).
  - intros. apply in32.
Qed.

(** How far such a difference lies off its integer is compared without error: the
    rounding of the subtraction changes nothing. *)
Theorem C85_check x1 x2 : let d := cycle_diff_fl rnd32 x1 x2 in rnd64 (d - inject_Z (rint d)) == d - inject_Z (rint d).
Proof.
  intros d. apply (C85_exact 53 _ _ (proj2 (C85_rounding _))).
  destruct (fraction_holds 24 d ltac:(lia) (in32 _)) as (m & e & E & L). exists m, e. split; [exact E|].
  change (2 ^ 24)%Z with 16777216%Z in L. change (2 ^ 53)%Z with 9007199254740992%Z. lia.
Qed.

(** The tolerance of the closure check of flood_fill is the double next to 0.001,
    which is none itself. *)
Theorem C85_tolerance : nearest_even 53 (1 # 1000) tol /\ ~ holds 53 (1 # 1000).
Proof.
  split; [exact (proj2 (C85_rounding (1 # 1000)))|]. intros H.
  apply (C85_exact 53 _ _ (proj2 (C85_rounding (1 # 1000)))) in H. vm_compute in H. discriminate H.
Qed.

(** The tiles before, between and after the passes of the adjustment: phases and
    corrections. *)
Theorem C85_adjust solve files bulk b ts : start_tiles_fl rnd32 rnd64 files bulk b = Ok ts ->
  (forall t, In t ts -> row_of 24 (ft_raw t) /\ row_of 24 (ft_corr t)) /\
  (forall f omap ds ts', fold_res (adjust_pass_fl rnd32 solve f omap) ts ds = Ok ts' ->
     forall t, In t ts' -> row_of 24 (ft_raw t) /\ row_of 24 (ft_corr t) /\ row_of 24 (phase_fl rnd32 t)).
Proof.
  intros E. pose proof (start_stored (holds 24) rnd32 rnd64 in32 files bulk b ts E) as S. split; [exact S|].
  intros f omap ds ts' E' t Ht. destruct (passes_stored (holds 24) rnd32 solve in32 f omap ds ts ts' S E' t Ht) as [A B].
  split; [exact A|]. split; [exact B|]. intros x. exact (add_fl_stored (holds 24) rnd32 in32 _ _ x).
Qed.

(** The output: a run of all steps for one interferogram, of whatever the unwrapping
    of a tile returns and whatever the solvers do. *)
Theorem C85_run fc unwrap comps minp mip_solve lsq solve t mask k r :
  band_fl rnd32 rnd64 fc unwrap comps minp mip_solve lsq solve t mask k = Ok r -> raster_of 24 r.
Proof.
  unfold band_fl. destruct (map_res unwrap (tiles t)) as [files|]; [|discriminate]. cbn [bind]. intros E l x.
  exact (all_stored (holds 24) rnd32 rnd64 fc solve in32 comps minp mip_solve lsq t mask files k r E l x).
Qed.

(** So storing them loses nothing. *)
Theorem C85_stored x : holds 24 x -> rnd32 x == x.
Proof. exact (C85_exact 24 x (rnd32 x) (proj1 (C85_rounding x))). Qed.

(** One tenth is no float32; one more than 2^24 lies half way between two of
    them, of which the even one is taken. *)
Example C85_tie : rnd32 16777217 == 16777216 /\ holds 24 16777218 /\ Qabs (16777218 - 16777217) == Qabs (16777216 - 16777217) /\
  holds_even 24 16777216 /\ ~ holds_even 24 16777218 /\ ~ holds 24 (1 # 10) /\ holds 24 (rnd32 (1 # 10)).
Proof.
  split; [vm_compute; reflexivity|]. split; [exists 8388609%Z, 1%Z; split; [reflexivity|cbn; lia]|]. split; [reflexivity|].
  split; [exists 8388608%Z, 1%Z; split; [reflexivity|]; cbn; split; [lia|reflexivity]|]. split.
  - intros (m & e & E & [A B] & V). change (2 ^ (24 - 1))%Z with 8388608%Z in A. change (2 ^ 24)%Z with 16777216%Z in B.
    change (Qpower 2 e) with (pow2 e) in E.
    destruct (Z.eq_dec e 1) as [->|N].
    + change (pow2 1) with 2 in E. assert (m = 8388609)%Z as -> by (unfold Qeq in E; cbn in E; lia). discriminate V.
    + assert (0 < pow2 e) as P by apply pow2_pos.
      assert (0 < m)%Z as Pm.
      { destruct (Z_lt_le_dec 0 m) as [L|L]; [exact L|exfalso]. assert (inject_Z m <= 0) as I by (change 0 with (inject_Z 0); now apply inject_Z_le_iff).
        assert (inject_Z m * pow2 e <= 0 * pow2 e) as J by (apply Qmult_le_compat_r; lra). lra. }
      rewrite Z.abs_eq in A, B by lia. destruct (Z_lt_le_dec e 1) as [L|L].
      * assert (pow2 e <= pow2 0) as J by (apply pow2_mono; lia). change (pow2 0) with 1 in J.
        assert (inject_Z m <= 16777215) as I by (change 16777215 with (inject_Z 16777215); apply inject_Z_le_iff; lia).
        assert (inject_Z m * pow2 e <= 16777215 * pow2 e) by (apply Qmult_le_compat_r; lra). lra.
      * assert (pow2 2 <= pow2 e) as J by (apply pow2_mono; lia). change (pow2 2) with 4 in J.
        assert (8388608 <= inject_Z m) as I by (change 8388608 with (inject_Z 8388608); apply inject_Z_le_iff; lia).
        assert (8388608 * pow2 e <= inject_Z m * pow2 e) by (apply Qmult_le_compat_r; lra). lra.
  - split; [|apply in32]. intros H. apply C85_stored in H. vm_compute in H. discriminate H.
Qed.

(** The run of C80 has an output. *)
Example C85_witness : exists gt r y, hop3 4 = Ok gt /\
  band_fl rnd32 rnd64 rnd64 (wild_unwrap gt) labels_of 11 exact_mip exact_lsq fm_solve wild_tiles (stack_mask wild_stack) 4 = Ok r /\
  pixel r (6, 0)%Z = Some y /\ raster_of 24 r.
Proof.
  destruct C80_witness as (gt & r & y & A & B & C & _). exists gt, r, y. split; [exact A|]. split; [exact B|]. split; [exact C|].
  exact (C85_run _ _ _ _ _ _ _ _ _ _ _ B).
Qed.

(** One gradient: a third of a cycle, as a float32. *)
Example C85_gradient : row_of 24 (link_column_fl single true [(0, 1)%nat] [[0; twopi / 3]] (0, 1)%nat) /\ ~ holds 24 (twopi / 3).
Proof.
  split.
  - intros x. exact (column_stored (holds 24) single in32 _ _ _ _ x).
  - intros H. apply C85_stored in H. Transparent twopi. vm_compute in H. discriminate H.
Qed.
Opaque twopi.

Print Assumptions C85_rounding.
Print Assumptions C85_unique.
Print Assumptions C85_exact.
Print Assumptions C85_cube.
Print Assumptions C85_tile.
Print Assumptions C85_overlap.
Print Assumptions C85_check.
Print Assumptions C85_tolerance.
Print Assumptions C85_adjust.
Print Assumptions C85_run.
Print Assumptions C85_stored.
