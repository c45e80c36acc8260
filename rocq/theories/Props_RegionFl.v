(** C89, continued: one constant per connected region of coherent pixels, with all
    computations rounded. *)
From Verif Require Import Base BaseLemmas PoolProofs GraphModel GraphSpec GraphProofs Hop3Proofs McfModel McfSpec PhaseProofs EmcfModel StripProofs
  TileModel TileSpec Props_Tile OverlapModel OverlapSpec BulkModel BulkSpec BulkProofs MergeModel MergeSpec AdjustProofs DescribeProofs Props_Merge
  SlcModel SlcSpec SlcProofs UnwrapTileModel UnwrapTileProofs PipelineSpec PipelineProofs Props_Pipeline ExactSpec ExactTileProofs ExactWitness Props_Exact
  FloatModel FloatMcfModel FloatMcfSpec FloatMcfRound FloatPhaseProofs FloatResidueProofs FloatCubeModel Props_FloatMcf Props_FloatCube Props_FloatSmooth
  FloatMergeModel FloatMergeSpec FloatMergeRun Props_FloatMerge FloatTileModel FloatTileSpec FloatTileProofs FloatRunModel FloatRunProofs Props_FloatRun
  LinkedSpec RegionSpec Props_Linked Props_Region.
From Coq Require Import String.
From Coq Require Import List Permutation ZifyBool Lqa.
Import ListNotations.
Set Default Goal Selector "!".
Local Open Scope Q_scope.
Opaque twopi.
Local Notation num := Props_FloatMcf.num.

(** What the tiler gives for the mask of a stack. *)
Lemma stack_tiles pick root use s s' st t h w :
  picks_in_range pick -> tiler_post_init s' = Ok s -> coh_shape st h w -> (0 < h <= 2 ^ 32)%Z -> (0 < w <= 2 ^ 32)%Z ->
  get_tiles pick root use s (stack_mask st) = Ok t ->
  shape t = (h, w) /\ (forall q, (q < ntiles t)%nat -> box_in_image (h, w) (tile_at t q)) /\
  forall x, valid_pixel st x -> exists q, (q < ntiles t)%nat /\ has_pixel (tile_at t q) (fst x) (snd x).
Proof.
  intros Hpick Hs Csh Hh Hw G.
  assert (length (stack_mask st) = Z.to_nat h) as Lm by (unfold stack_mask; rewrite map_length; destruct Csh; lia).
  assert (forall i, (i < length (stack_mask st))%nat -> length (nth i (stack_mask st) []) = Z.to_nat w) as Lrow.
  { intros a Ba. unfold stack_mask in *. rewrite map_length in Ba. rewrite (nth_indep _ [] (map (above (st_threshold st)) [])) by (now rewrite map_length).
    rewrite map_nth, map_length. destruct Csh as [_ C]. specialize (C (nth a (st_coh st) []) (nth_In _ _ Ba)). lia. }
  assert (length (nth 0 (stack_mask st) []) = Z.to_nat w) as L0 by (apply Lrow; lia).
  assert (2 ^ 32 <= 2 ^ 53)%Z as L53 by (vm_compute; discriminate).
  assert (forall i, (i < length (stack_mask st))%nat -> length (nth i (stack_mask st) []) = length (nth 0 (stack_mask st) [])) as Hrect by (intros a Ba; rewrite L0; auto).
  destruct (C30_get_tiles _ _ _ _ s' (stack_mask st) t Hpick Hs ltac:(lia) ltac:(lia) ltac:(lia) ltac:(lia) Hrect G) as (Sh & _ & Bx & K & _).
  rewrite Lm, L0, !Z2Nat.id in * by lia. split; [exact Sh|]. split.
  - intros q Bq. rewrite Forall_forall in Bx. apply Bx. unfold tile_at. now apply nth_In.
  - intros x V. apply K. eapply valid_in_image; eauto.
Qed.

(** In single precision, on the tiles of the tiler: on connected coherent pixels the
    output stays within a bound of the true phase plus one whole number of cycles. *)
Theorem C89_rounded pick root use s s' smcf triangles tsched ssched cpu set tdist tcent sdist scent comps minp mip_solve lsq solve st t gt Phi h w L k i j r :
  picks_in_range pick -> tiler_post_init s' = Ok s -> (1 # 1048576 <= dilation_factor s)%Q ->
  get_tiles pick root use s (stack_mask st) = Ok t -> enough_shared st minp t -> covered_at_most 4 t ->
  (forall pts tri, triangles pts = Ok tri -> planar (delaunay (length pts) tri)) ->
  (forall b l, Permutation (tsched b l) l) -> (forall l, Permutation (ssched l) l) -> (0 < links_per_batch set)%nat ->
  mip_sound mip_solve -> components_ok comps -> amplifies 1 solve ->
  hop3 (Z.of_nat (length (st_files st))) = Ok gt -> NoDup (map fst (st_files st)) ->
  coh_shape st h w -> (0 < h)%Z -> (0 < w)%Z -> (h * w <= 2 ^ 32)%Z ->
  history st Phi -> samples_within 4 st ->
  (forall i j x, is_ifg_of st i j -> valid_pixel st x -> Qabs (ifg_at st Phi i j x) <= 2000) ->
  (L <= 1000)%nat ->
  (forall q, (q < ntiles t)%nat ->
     smooth_by (1 # 30000) triangles st Phi (tile_at t q) /\ varies_by 1000 st Phi (tile_at t q) /\ depth_by L triangles st (tile_at t q)) ->
  nth_error (g_links gt) k = Some (i, j) ->
  band_fl rnd32 rnd64 rnd64 (unwrap_one_tile_fl single smcf triangles tsched ssched cpu set tdist tcent sdist scent st gt)
    comps minp mip_solve lsq solve t (stack_mask st) k = Ok r ->
  forall x, valid_pixel st x -> exists m : Z, forall y, walk (valid_pixel st) x y ->
    exists v, pixel r y = Some v /\ within (num L * (1 # 50000) + (1 # 280)) v (ifg_at st Phi i j y + twopi * inject_Z m).
Proof.
  intros Hpick Htil Hd G En Hcov Htri Ht Hs Hl Hmip Hcomp Hsol Hgt Hst Csh Ph Pw Hhw Hh HM HP HL Ht1 Ek Er x Vx.
  assert (h <= 2 ^ 32 /\ w <= 2 ^ 32)%Z as [Bh Bw] by nia.
  destruct (stack_tiles _ _ _ _ _ st t h w Hpick Htil Csh ltac:(lia) ltac:(lia) G) as (Sh & Hbox & Cov).
  assert (forall p q u v, walk (valid_pixel st) p q -> (u < ntiles t)%nat -> (v < ntiles t)%nat ->
    has_pixel (tile_at t u) (fst p) (snd p) -> has_pixel (tile_at t v) (fst q) (snd q) -> linked st minp t u v) as Lk.
  { intros p q u v. exact (C89_linked _ _ _ _ _ _ t h w _ p q u v Hpick Htil Csh ltac:(lia) ltac:(lia) Hd G En). }
  destruct (C71_single smcf triangles tsched ssched cpu set tdist tcent sdist scent comps minp mip_solve lsq solve st t gt Phi h w L k i j r
    Htri Ht Hs Hl Hmip Hcomp Hsol Hgt Hst Csh Sh Hhw Hbox Hcov) as (c & Cl & Px & _); auto.
  { intros q q' y Bq Bq' Vy Hq Hq'. apply (Lk y y); auto. now constructor. }
  assert (forall y z, walk (valid_pixel st) y z -> valid_pixel st z) as We by (induction 1; auto).
  destruct (Cov x Vx) as (q & Bq & Hq). exists (c q). intros y W. pose proof (We _ _ W) as Vy.
  destruct (Cov y Vy) as (q' & Bq' & Hq'). destruct (Px q' y Bq' Vy Hq') as (v & Ev & E).
  exists v. split; [exact Ev|]. rewrite (Cl q q'); [exact E|auto|]. apply (Lk x y); auto.
Qed.

(** The stack of [C71_witness] on four tiles of the tiler: all coherent pixels are
    connected, so one number of cycles holds for all of them. *)
Definition rf_tiles : tileset := TileSet (10, 2)%Z [BBox 0 0 6 2; BBox 0 0 10 2; BBox 0 0 10 2; BBox 0 0 10 2].
Example rf_tiling : get_tiles pick_rows (fun _ => 2%Z) true (TilerSettings 4 4 100 5) (stack_mask fr_stack) = Ok rf_tiles.
Proof. vm_compute. reflexivity. Qed.

Lemma rf_tile q : (q < 4)%nat -> smooth_by (1 # 30000) px_triangles fr_stack fr_phase (tile_at rf_tiles q) /\
  varies_by 1000 fr_stack fr_phase (tile_at rf_tiles q) /\ depth_by 20 px_triangles fr_stack (tile_at rf_tiles q).
Proof.
  intros Bq. split; [|split].
  - assert (smooth_by (1 # 30000) px_triangles fr_stack fr_phase (BBox 0 0 6 2) /\ smooth_by (1 # 30000) px_triangles fr_stack fr_phase (BBox 0 0 10 2)) as [A B].
    { split; (eapply smooth_by_check; [cbn; lia|cbn; lia|reflexivity|vm_compute; reflexivity]). }
    destruct q as [|[|[|[|]]]]; try lia; assumption.
  - intros x y i j I Vx _ Vy _. pose proof (fr_bound x i j I Vx) as Bx. pose proof (fr_bound y i j I Vy) as By. apply abs_le in Bx, By. apply abs_le. lra.
  - intros pts tri P E. unfold px_triangles in E. destruct (Nat.ltb_spec (length pts) 3); [discriminate|]. injection E as <-.
    assert (forall b, (0 <= xmin b)%Z -> (0 <= ymin b)%Z -> tile_pixels fr_stack b pts -> length pts = length (nonzero (tile_mask fr_stack b))) as K.
    { intros b B1 B2 P'. f_equal. eapply tile_pixels_unique; [exact P'|]. now apply mask_pixels. }
    assert (length pts <= 20)%nat as L.
    { destruct q as [|[|[|[|]]]]; try lia; (apply K in P; [rewrite P; apply Nat.leb_le; vm_compute; reflexivity|cbn; lia|cbn; lia]). }
    intros v Hv. destruct (strip_depth (length pts) ltac:(lia) v Hv) as (n & Bn & Hn). exists n. split; [lia|exact Hn].
Qed.

Lemma rf_enough : enough_shared fr_stack 11 rf_tiles.
Proof.
  intros u v Bu Bv _. cbn in Bu, Bv. apply linked_step with u; [constructor|exact Bu|exact Bv|].
  exists [(0, 0); (0, 1); (1, 0); (1, 1); (2, 0); (2, 1); (3, 0); (4, 0); (4, 1); (5, 0); (5, 1)]%Z.
  split; [repeat constructor; cbn; intuition congruence|]. split; [discriminate|]. split; [cbn; lia|].
  assert (forall q, (q < 4)%nat -> forall r c, (0 <= r < 6)%Z -> (0 <= c < 2)%Z -> has_pixel (tile_at rf_tiles q) r c) as K.
  { intros q Bq r c Br Bc. destruct q as [|[|[|[|]]]]; try lia; unfold has_pixel; cbn; lia. }
  intros x I. repeat (destruct I as [<-|I]; [split; [exists (4 # 5)%Q; split; vm_compute; reflexivity|split; apply K; cbn; lia]|]). destruct I.
Qed.

(** Down the left column, which is coherent throughout, and then to the right. *)
Lemma rf_left a : (0 <= a < 10)%Z -> valid_pixel fr_stack (a, 0)%Z.
Proof.
  intros Ba. exists (4 # 5)%Q. split; [|reflexivity]. assert (exists k, a = Z.of_nat k /\ (k < 10)%nat) as (k & -> & Bk) by (exists (Z.to_nat a); lia).
  do 10 (destruct k as [|k]; [reflexivity|]). lia.
Qed.
Lemma rf_down n a : (0 <= a)%Z -> (a + Z.of_nat n < 10)%Z -> walk (valid_pixel fr_stack) (a, 0)%Z (a + Z.of_nat n, 0)%Z.
Proof.
  revert a. induction n as [|n IH]; intros a Ba Bn.
  - rewrite Z.add_0_r. constructor. apply rf_left. lia.
  - apply walk_step with (a + 1, 0)%Z; [apply rf_left; lia|unfold adjacent; cbn; lia|].
    replace (a + Z.of_nat (S n))%Z with (a + 1 + Z.of_nat n)%Z by lia. apply IH; lia.
Qed.
Lemma walk_app P x y z : walk P x y -> walk P y z -> walk P x z.
Proof. intros A B. induction A; [exact B|econstructor; eauto]. Qed.
Lemma rf_walk y : valid_pixel fr_stack y -> walk (valid_pixel fr_stack) (0, 0)%Z y.
Proof.
  intros V. pose proof (valid_in_image _ _ _ _ fr_coh V) as [A B]. cbn [fst snd] in A, B. destruct y as [a c]. cbn [fst snd] in A, B.
  pose proof (rf_down (Z.to_nat a) 0 ltac:(lia) ltac:(lia)) as W. rewrite Z2Nat.id, Z.add_0_l in W by lia.
  assert (c = 0 \/ c = 1)%Z as [->| ->] by lia; [exact W|].
  apply walk_app with (1 := W). apply walk_step with (a, 1)%Z; [apply rf_left; lia|unfold adjacent; cbn; lia|now constructor].
Qed.

Example C89_rounded_witness : exists gt r (m : Z), hop3 4 = Ok gt /\
  band_fl rnd32 rnd64 rnd64 (fr_unwrap gt) labels_of 11 exact_mip exact_lsq fm_solve rf_tiles (stack_mask fr_stack) 4 = Ok r /\
  forall y, valid_pixel fr_stack y -> exists v, pixel r y = Some v /\ within (1 # 200) v (ifg_at fr_stack fr_phase 1 3 y + twopi * inject_Z m).
Proof.
  destruct (hop3 4) as [gt|] eqn:Egt; [|discriminate]. exists gt.
  destruct (band_fl rnd32 rnd64 rnd64 (fr_unwrap gt) labels_of 11 exact_mip exact_lsq fm_solve rf_tiles (stack_mask fr_stack) 4) as [r|] eqn:Er.
  2:{ exfalso. apply (f_equal (fun r => match r with Ok _ => true | Err _ => false end)) in Er. revert Er.
      apply (hop3_is 4) in Egt as [_ ->]. vm_compute. discriminate. }
  pose proof rf_tiling as Htl. exists r. destruct (C89_rounded pick_rows (fun _ => 2%Z) true (TilerSettings 4 4 100 5) (TilerSettings 4 4 100 5)
    (fun _ _ => None) px_triangles (fun _ l => rev l) (@rev nat) 4 (Settings Constant Constant 2 0 0) [] [] (fun _ => []) (fun _ => [])
    labels_of 11 exact_mip exact_lsq fm_solve fr_stack rf_tiles gt fr_phase 10 2 20 4 1 3 r) with (x := (0, 0)%Z) as (m & Hm); auto.
  - apply pick_rows_ok.
  - vm_compute. discriminate.
  - apply rf_enough.
  - intros x l Hl Hq. apply Nat.le_trans with (length (seq 0 4)); [|cbn; lia]. apply NoDup_incl_length; [exact Hl|]. intros q I. apply in_seq. apply Hq in I as [I _]. cbn in I. lia.
  - apply px_planar.
  - intros _ l. apply Permutation_sym, Permutation_rev.
  - intros l. apply Permutation_sym, Permutation_rev.
  - cbn; lia.
  - apply exact_mip_sound.
  - apply components_witness.
  - apply fm_amplifies.
  - repeat constructor; cbn; intuition discriminate.
  - apply fr_coh.
  - lia.
  - lia.
  - lia.
  - apply fr_history.
  - apply fr_samples.
  - intros i j x I V. pose proof (fr_bound x i j I V). lra.
  - lia.
  - apply rf_tile.
  - apply (hop3_is 4) in Egt as [_ ->]. reflexivity.
  - apply rf_left. lia.
  - exists m. split; [reflexivity|]. split; [reflexivity|]. intros y V. destruct (Hm y (rf_walk y V)) as (v & Ev & Wv).
    exists v. split; [exact Ev|]. unfold within in *. apply Qle_trans with (1 := Wv). vm_compute. discriminate.
Qed.

Print Assumptions C89_rounded.
