(** Lemmas for Props_Masked.v: reading a tile looks at its valid pixels only, and
    the workflow at its tiles. *)
From Verif Require Import Base BaseLemmas GraphModel McfModel EmcfModel TileModel TileSpec SlcModel SlcSpec SlcProofs ThreeDModel OverlapModel WorkflowModel WorkflowProofs UnwrapTileModel
  FloatCubeModel FloatTileModel PipelineSpec MaskedSpec.
From Coq Require Import List ZifyBool.
Import ListNotations.
Set Default Goal Selector "!".
Local Open Scope nat_scope.

Lemma grid_nth {A B} (a : list (list A)) (b : list (list B)) : same_grid a b <->
  length a = length b /\ forall i r s, nth_error a i = Some r -> nth_error b i = Some s -> length r = length s.
Proof.
  unfold same_grid. revert b. induction a as [|r a IH]; intros [|s b]; cbn [map length]; split; try (intros H; discriminate H).
  - intros _. split; [reflexivity|]. intros [|i] r s H; discriminate H.
  - reflexivity.
  - intros [H _]. discriminate H.
  - intros [H _]. discriminate H.
  - intros [= H1 H2]. apply IH in H2 as [H2 H3]. split; [now f_equal|]. intros [|i] r' s' E E'; cbn in E, E'; [congruence|eauto].
  - intros [[= H1] H2]. f_equal; [apply (H2 O); reflexivity|]. apply IH. split; [exact H1|]. intros i r' s' E E'. exact (H2 (S i) r' s' E E').
Qed.

(** [img[msk]] depends on the selected pixels. *)
Lemma select_row {A} : forall (row row' : list A) m, length row = length row' ->
  (forall j, nth_error m j = Some true -> nth_error row j = nth_error row' j) ->
  map fst (filter snd (combine row m)) = map fst (filter snd (combine row' m)).
Proof.
  induction row as [|x row IH]; intros [|x' row'] m L H; try discriminate L; [reflexivity|]. destruct m as [|b m]; [reflexivity|]. cbn [combine filter snd].
  assert (map fst (filter snd (combine row m)) = map fst (filter snd (combine row' m))) as E.
  { apply IH; [now injection L|]. intros j Ej. exact (H (S j) Ej). }
  destruct b; [|exact E]. cbn [map fst]. f_equal; [|exact E]. specialize (H O eq_refl). cbn in H. congruence.
Qed.
Lemma select_same {A} (img img' : list (list A)) msk : same_grid img img' ->
  (forall i j, pixel_at msk i j = Some true -> pixel_at img i j = pixel_at img' i j) -> select img msk = select img' msk.
Proof.
  intros G H. unfold select.
  assert (same_shape img msk = same_shape img' msk) as ->.
  { unfold same_shape. pose proof (proj1 (grid_nth _ _) G) as [L _]. rewrite L. f_equal. clear H L. revert img' msk G.
    unfold same_grid. induction img as [|r img IH]; intros [|r' img'] msk G; try discriminate G; [reflexivity|]. injection G as G1 G2.
    destruct msk as [|m msk]; [reflexivity|]. cbn [combine forallb fst snd]. rewrite G1. f_equal. now apply IH. }
  destruct (same_shape img' msk); [|reflexivity]. f_equal. revert img' msk G H. unfold same_grid.
  induction img as [|r img IH]; intros [|r' img'] msk G H; try discriminate G; [reflexivity|]. injection G as G1 G2.
  destruct msk as [|m msk]; [reflexivity|]. cbn [combine flat_map fst snd]. f_equal.
  - apply select_row; [exact G1|]. intros j. exact (H O j).
  - apply IH; [exact G2|]. intros i j. exact (H (S i) j).
Qed.

Lemma grid_ext {A} (a b : list (list A)) : same_grid a b -> (forall i j, pixel_at a i j = pixel_at b i j) -> a = b.
Proof.
  unfold same_grid. revert b. induction a as [|r a IH]; intros [|s b] G H; try discriminate G; [reflexivity|]. injection G as G1 G2. f_equal.
  - pose proof (fun j => H O j) as H0. cbn in H0. clear - G1 H0. revert s G1 H0. induction r as [|x r IH]; intros [|y s] G H; try discriminate G; [reflexivity|].
    f_equal; [specialize (H O); cbn in H; congruence|]. apply IH; [now injection G|]. intros j. exact (H (S j)).
  - apply IH; [exact G2|]. intros i j. exact (H (S i) j).
Qed.

Lemma image_at_pixel {A} (img : list (list A)) i j : image_at img (Z.of_nat i, Z.of_nat j) = pixel_at img i j.
Proof.
  unfold image_at. cbn [fst snd]. rewrite !Nat2Z.id. now replace ((0 <=? Z.of_nat i) && (0 <=? Z.of_nat j))%Z with true by lia.
Qed.

Lemma above_valid st i j : option_map (above (st_threshold st)) (pixel_at (st_coh st) i j) = Some true <-> valid_pixel st (Z.of_nat i, Z.of_nat j).
Proof.
  unfold valid_pixel. rewrite image_at_pixel. destruct (pixel_at (st_coh st) i j) as [[q|]|]; cbn [option_map above].
  - split.
    + intros [= H]. exists q. split; [reflexivity|]. apply Qnot_le_lt. intros L. apply Qle_bool_iff in L. rewrite L in H. discriminate H.
    + intros (q' & [= <-] & L). f_equal. apply negb_true_iff. destruct (Qle_bool q (st_threshold st)) eqn:E; [|reflexivity]. apply Qle_bool_iff in E.
      exfalso. apply (Qlt_not_le _ _ L E).
  - split; [intros H; discriminate H|]. intros (q' & E & _). discriminate E.
  - split; [intros H; discriminate H|]. intros (q' & E & _). discriminate E.
Qed.

Lemma stack_mask_same P st st' : same_at P st st' -> stack_mask st = stack_mask st'.
Proof.
  intros [_ G V _ _]. unfold stack_mask. apply grid_ext.
  - unfold same_grid in *. rewrite !map_map. erewrite map_ext; [rewrite G|intros r; now rewrite map_length]. apply map_ext. intros r. now rewrite map_length.
  - intros i j. rewrite !pixel_at_map.
    pose proof (above_valid st i j) as H1. pose proof (above_valid st' i j) as H2. pose proof (V (Z.of_nat i, Z.of_nat j)) as H3.
    assert (pixel_at (st_coh st) i j = None <-> pixel_at (st_coh st') i j = None) as H4.
    { apply grid_nth in G as [L G]. unfold pixel_at. destruct (nth_error (st_coh st) i) as [r|] eqn:E1, (nth_error (st_coh st') i) as [s|] eqn:E2.
      - rewrite !nth_error_None. now rewrite (G i r s E1 E2).
      - exfalso. apply nth_error_None in E2. assert (i < length (st_coh st)) by (apply nth_error_Some; congruence). lia.
      - exfalso. apply nth_error_None in E1. assert (i < length (st_coh st')) by (apply nth_error_Some; congruence). lia.
      - tauto. }
    destruct (pixel_at (st_coh st) i j) as [q|], (pixel_at (st_coh st') i j) as [q'|]; cbn [option_map] in *.
    + destruct (above (st_threshold st) q), (above (st_threshold st') q'); try reflexivity; exfalso.
      * assert (Some false = Some true) by tauto. discriminate.
      * assert (Some false = Some true) by tauto. discriminate.
    + exfalso. assert (Some q = None) by tauto. discriminate.
    + exfalso. assert (Some q' = None) by tauto. discriminate.
    + reflexivity.
Qed.

Lemma window_map {A B} (f : A -> B) img b : map (map f) (read_window img b) = read_window (map (map f) img) b.
Proof.
  unfold read_window. rewrite skipn_map, firstn_map, !map_map. apply map_ext. intros r. now rewrite skipn_map, firstn_map.
Qed.

Section Same.
  Context (P : Z * Z -> Prop) (st st' : slc_stack Q) (b : bbox).
  Hypothesis H : same_at P st st'.
  (* the window starts at its corner, or at zero *)
  Hypothesis HP : forall i j, valid_pixel st (Z.of_nat i, Z.of_nat j) ->
    Z.to_nat (xmin b) <= i < Z.to_nat (xmin b) + Z.to_nat (xmax b - xmin b) -> Z.to_nat (ymin b) <= j < Z.to_nat (ymin b) + Z.to_nat (ymax b - ymin b) ->
    P (Z.of_nat i, Z.of_nat j).

  Lemma tile_mask_same : tile_mask st b = tile_mask st' b.
  Proof. unfold tile_mask. rewrite !window_map. fold (stack_mask st) (stack_mask st'). now rewrite (stack_mask_same P st st' H). Qed.

  Lemma read_date_same n d : read_date 0%Q st b (tile_mask st b) n d = read_date 0%Q st' b (tile_mask st' b) n d.
  Proof.
    rewrite <- tile_mask_same. pose proof H as [Hf _ _ Hn Hs]. unfold read_date. rewrite Hf. destruct (dict_get d (st_files st)) as [[f|]|]; try reflexivity.
    pose proof (Hn f) as N. pose proof (Hs f) as S0. destruct (st_slc st f) as [img|], (st_slc st' f) as [img'|].
    - destruct (S0 img img' eq_refl eq_refl) as [G V]. apply select_same; [now apply same_grid_window|].
      intros i j. unfold tile_mask. rewrite window_map, !read_window_at.
      destruct ((i <? Z.to_nat (xmax b - xmin b)) && (j <? Z.to_nat (ymax b - ymin b))) eqn:B; [|discriminate].
      rewrite pixel_at_map, above_valid. intros Vx. rewrite <- !image_at_pixel. apply V, HP; [exact Vx|lia|lia].
    - exfalso. assert (Some img = None) as E by tauto. discriminate E.
    - exfalso. assert (Some img' = None) as E by tauto. discriminate E.
    - reflexivity.
  Qed.

  Lemma read_tile_same : SlcModel.read_tile 0%Q st b = SlcModel.read_tile 0%Q st' b.
  Proof.
    unfold SlcModel.read_tile. cbv zeta.
    assert (st_dates st = st_dates st') as Ed by (unfold st_dates; now rewrite (sa_files _ _ _ H)).
    rewrite <- Ed. set (n := length (nonzero (tile_mask st b))).
    assert (forall l, map_res (read_date 0%Q st b (tile_mask st b) n) l = map_res (read_date 0%Q st' b (tile_mask st' b) n) l) as E.
    { induction l as [|d l IH]; cbn [map_res]; [reflexivity|]. rewrite read_date_same, IH. reflexivity. }
    unfold n in *. rewrite E. now rewrite tile_mask_same.
  Qed.

  Lemma points_same : nonzero (map (map (above (st_threshold st))) (read_temporal_coherence st b)) = nonzero (map (map (above (st_threshold st'))) (read_temporal_coherence st' b)).
  Proof. exact (f_equal nonzero tile_mask_same). Qed.
End Same.

(** The workflow with two ways to unwrap a tile that agree. *)
Lemma pool_ext e e' (task task' : nat -> res tile_file) : e_tmp e = e_tmp e' -> (forall i, task i = task' i) -> forall order, pool e task order = pool e' task' order.
Proof.
  intros Et Hi. induction order as [|i l IH]; cbn [pool]; [reflexivity|]. rewrite <- Hi, IH, Et. reflexivity.
Qed.

(** Programs with the same runs. *)
Definition same_runs {A} (p q : prog A) : Prop := forall s, run p s = run q s.
Lemma same_then {A B} (p q : prog A) (k l : A -> prog B) : same_runs p q -> (forall a, same_runs (k a) (l a)) -> same_runs (then_ p k) (then_ q l).
Proof. intros Hp Hk s. rewrite !run_then, Hp. destruct (run q s) as [ws [a|x]]; cbn [fst snd]; [|reflexivity]. cbv zeta. now rewrite Hk. Qed.
Lemma same_refl {A} (p : prog A) : same_runs p p.
Proof. intros s. reflexivity. Qed.

Lemma main_same e u' : (forall b, e_unwrap e b = u' b) ->
  same_runs (main e) (main (Env (e_tmp e) (e_out e) (e_dates e) (e_ifgs e) (e_valid e) u' (e_sched e) (e_use_tiles e)
      (e_tiler e) (e_parallel_tiles e) (e_min_overlap e) (e_method e) (e_bulk_method e) (e_parallel_ifgs e) (e_pick e)
      (e_root e) (e_components e) (e_mip e) (e_lsq e) (e_cg e) (e_ilu e) (e_triangles e))).
Proof.
  intros Hu. set (e' := Env _ _ _ _ _ _ _ _ _ _ _ _ _ _ _ _ _ _ _ _ _ _). unfold main.
  apply same_then; [exact (same_refl (get_tiles_step e))|]. intros _.
  apply same_then; [|intros _; apply same_then; [exact (same_refl (overlaps_step e))|]; intros _; apply same_then; [exact (same_refl (offsets_step e))|]; intros _; exact (same_refl (merge_tiles e))].
  unfold unwrap_tiles. apply same_then; [exact (same_refl (read_tileset e))|]. intros t. change (e_parallel_tiles e') with (e_parallel_tiles e).
  destruct (_ <=? _)%Z; [apply same_refl|]. change (e_tmp e') with (e_tmp e). apply same_then; [apply same_refl|]. intros m. change (e_sched e') with (e_sched e).
  rewrite (pool_ext e e' _ (fun i => e_unwrap e' (nth i (tiles t) (BBox 0 0 0 0))) eq_refl (fun i => Hu _)). apply same_refl.
Qed.
