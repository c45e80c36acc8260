(** C89, continued: one constant per connected region of coherent pixels. *)
From Verif Require Import Base BaseLemmas FloatModel GraphModel GraphSpec McfModel McfSpec EmcfModel TileModel TileSpec SlcModel SlcSpec OverlapModel
  MergeModel MergeSpec BulkModel BulkSpec NamesModel NamesProofs WorkflowModel WorkflowSpec UnwrapTileModel PipelineSpec ExactSpec
  Props_Tile Props_Workflow Props_Pipeline ExactWitness Props_Exact BulkProofs Props_Total MaskedProofs LinkedSpec RegionSpec Props_Linked.
From Coq Require Import List Permutation ZifyBool Lqa.
Import ListNotations.
Set Default Goal Selector "!".
Local Open Scope nat_scope.

Lemma valid_in_image st h w x : coh_shape st h w -> valid_pixel st x -> in_image (h, w) (fst x) (snd x).
Proof.
  intros [Hh Hw] (q & V & _). unfold image_at in V. destruct ((0 <=? fst x) && (0 <=? snd x))%Z eqn:E; [|discriminate].
  unfold pixel_at in V. destruct (nth_error (st_coh st) (Z.to_nat (fst x))) as [row|] eqn:Er; [|discriminate].
  pose proof (Hw row (nth_error_In _ _ Er)). assert (Z.to_nat (fst x) < length (st_coh st)) by (apply nth_error_Some; congruence).
  assert (Z.to_nat (snd x) < length row) by (apply nth_error_Some; congruence). unfold in_image. cbn [fst snd]. lia.
Qed.

Lemma linked_on st n t i j k : linked st n t i j -> linked st n t j k -> linked st n t i k.
Proof. intros L K. induction K as [|v v' K IH Bv Bv' O]; [exact L|now apply linked_step with v]. Qed.

Lemma linked_both st n t : enough_shared st n t -> forall i j, i < ntiles t -> linked_by (valid_pixel st) t (get_overlaps t) i j -> linked st n t i j.
Proof.
  intros En i j Bi L. induction L as [i|i j k I S L IH]; [constructor|].
  assert (j < ntiles t) as Bj by (destruct (C26_overlaps t) as (B & _); destruct I as [I|I]; apply B in I; lia).
  apply linked_on with j; auto.
Qed.

(** Tiles along a walk over coherent pixels are linked by overlaps that count. *)
Theorem C89_linked pick root use s s' st t h w n p q u v :
  picks_in_range pick -> tiler_post_init s' = Ok s -> coh_shape st h w -> (0 < h <= 2 ^ 32)%Z -> (0 < w <= 2 ^ 32)%Z ->
  (1 # 1048576 <= dilation_factor s)%Q -> get_tiles pick root use s (stack_mask st) = Ok t ->
  enough_shared st n t -> walk (valid_pixel st) p q -> u < ntiles t -> v < ntiles t ->
  has_pixel (tile_at t u) (fst p) (snd p) -> has_pixel (tile_at t v) (fst q) (snd q) -> linked st n t u v.
Proof.
  intros Hpick Hs Csh Hh Hw Hd G En W Bu Bv Hp Hq. apply linked_both; auto.
  assert (length (stack_mask st) = Z.to_nat h) as Lm by (unfold stack_mask; rewrite map_length; destruct Csh; lia).
  assert (forall i, i < length (stack_mask st) -> length (nth i (stack_mask st) []) = Z.to_nat w) as Lrow.
  { intros a Ba. unfold stack_mask in *. rewrite map_length in Ba. rewrite (nth_indep _ [] (map (above (st_threshold st)) [])) by (now rewrite map_length).
    rewrite map_nth, map_length. destruct Csh as [_ C]. specialize (C (nth a (st_coh st) []) (nth_In _ _ Ba)). lia. }
  assert (length (nth 0 (stack_mask st) []) = Z.to_nat w) as L0 by (apply Lrow; lia).
  assert (forall i, i < length (stack_mask st) -> length (nth i (stack_mask st) []) = length (nth 0 (stack_mask st) [])) as Hrect by (intros i Bi; rewrite L0; auto).
  assert (2 ^ 32 <= 2 ^ 53)%Z as L53 by (vm_compute; discriminate).
  destruct (C30_get_tiles pick root use s s' (stack_mask st) t Hpick Hs ltac:(lia) ltac:(lia) ltac:(lia) ltac:(lia) Hrect G) as (Sh & _).
  destruct (C89_tiles pick root use s s' (stack_mask st) t Hpick Hs ltac:(lia) ltac:(lia) ltac:(lia) ltac:(lia) Hrect Hd G) as [K _].
  apply (K (valid_pixel st) p q u v); auto. intros x Vx. rewrite Sh, Lm, L0, !Z2Nat.id by lia. eapply valid_in_image; eauto.
Qed.

(** The whole workflow on a smooth stack: on connected coherent pixels the output is
    the true phase plus one whole number of cycles. *)
Section Region.
  Context (smcf : list arc -> list Z -> option (list Z))
          (triangles : list (Z * Z) -> res (list (nat * nat * nat)))
          (tsched : nat -> list nat -> list nat) (ssched : list nat -> list nat) (cpu : Z)
          (set : settings) (tdist tcent : list Z) (sdist scent : list (Z * Z) -> list Z).
  Hypothesis Hsm : smcf_sound smcf.
  Hypothesis Htri : forall pts tri, triangles pts = Ok tri -> planar (delaunay (length pts) tri).
  Hypothesis Ht : forall b l, Permutation (tsched b l) l.
  Hypothesis Hs : forall l, Permutation (ssched l) l.
  Hypothesis Hl : 0 < links_per_batch set.
  Notation unwrap := (unwrap_one_tile smcf triangles tsched ssched cpu set tdist tcent sdist scent).

  Theorem C89_region st Phi e s ws fn h w s' t :
    NoDup (map fst (st_files st)) -> coh_shape st h w -> (0 < h)%Z -> (0 < w)%Z -> (h * w <= 2 ^ 32)%Z ->
    (forall d, In d (st_dates st) -> underscore_free d) ->
    (forall d1 d2, In d1 (st_dates st) -> In d2 (st_dates st) -> occurs ".tif" (stem (e_out e) (d1, d2)) = false) ->
    picks_in_range (e_pick e) -> tiler_post_init s' = Ok (e_tiler e) -> sched_ok e ->
    (forall n l, length (e_components e n l) = n) -> fresh e s ->
    run (cli unwrap st e) s = (ws, Ok fn) ->
    history st Phi ->
    get_tiles (e_pick e) (e_root e) (e_use_tiles e) (e_tiler e) (stack_mask st) = Ok t ->
    (1 # 1048576 <= dilation_factor (e_tiler e))%Q -> enough_shared st (e_min_overlap e) t ->
    (forall q, q < ntiles t -> smooth triangles st Phi (tile_at t q)) ->
    bulk_solver_ok (e_components e) (e_mip e) (e_lsq e) (e_bulk_method e) (one_region st t) ->
    forall i j, i < j < length (st_dates st) -> j - i <= 3 ->
      let d1 := nth i (st_dates st) ""%string in let d2 := nth j (st_dates st) ""%string in
      let n := unw_filename (e_out e) d1 d2 in
      (forall x, valid_pixel st x -> (Qabs (true_ifg Phi d1 d2 x) <= twopi * inject_Z (2 ^ 29))%Q) ->
      s n = None ->
      exists r, apply_writes s ws n = Some (CRaster r) /\
        forall x, valid_pixel st x -> exists m : Z, forall y, walk (valid_pixel st) x y ->
          exists v, pixel r y = Some v /\ (v == true_ifg Phi d1 d2 y + twopi * inject_Z m)%Q.
  Proof using Hsm Htri Ht Hs Hl.
    intros Nf Csh Ph Pw Hhw Hus Htif Hpick Htil Hsch Hcc Hfr R Hh G Hd En Hsmo Hbs i j B Dij d1 d2 n Hrange Hs0.
    assert (h <= 2 ^ 32 /\ w <= 2 ^ 32)%Z as [Bh Bw] by nia.
    assert (forall p q u v, walk (valid_pixel st) p q -> u < ntiles t -> v < ntiles t ->
      has_pixel (tile_at t u) (fst p) (snd p) -> has_pixel (tile_at t v) (fst q) (snd q) -> linked st (e_min_overlap e) t u v) as Lk.
    { intros p q u v. exact (C89_linked _ _ _ _ _ _ t h w _ p q u v Hpick Htil Csh ltac:(lia) ltac:(lia) Hd G En). }
    assert (bulk_solver_ok (e_components e) (e_mip e) (e_lsq e) (e_bulk_method e)
      (forall u v, u < ntiles t -> v < ntiles t -> linked st (e_min_overlap e) t u v)) as Hbs'.
    { destruct Hbs as [B1 B2]. split; [exact B1|]. intros M. destruct (B2 M) as [L [W V]]. split; [exact L|].
      intros u v Bu Bv. destruct (V u Bu) as (x & Vx & Hx). destruct (V v Bv) as (y & Vy & Hy). apply (Lk x y); auto. }
    destruct (C59_workflow smcf triangles tsched ssched cpu set tdist tcent sdist scent Hsm Htri Ht Hs Hl st Phi e s ws fn h w s' t
      Nf Csh Ph Pw Hhw Hus Htif Hpick Htil Hsch Hcc Hfr R Hh G Hsmo Hbs' i j B Dij Hrange Hs0) as (r & c & A & Cl & Px).
    exists r. split; [exact A|]. intros x Vx.
    assert (forall y, valid_pixel st y -> exists q, q < ntiles t /\ has_pixel (tile_at t q) (fst y) (snd y)) as Cov.
    { intros y Vy. pose proof (valid_in_image st h w y Csh Vy) as I.
      assert (length (stack_mask st) = Z.to_nat h) as Lm by (unfold stack_mask; rewrite map_length; destruct Csh; lia).
      assert (forall i, i < length (stack_mask st) -> length (nth i (stack_mask st) []) = Z.to_nat w) as Lrow.
      { intros a Ba. unfold stack_mask in *. rewrite map_length in Ba. rewrite (nth_indep _ [] (map (above (st_threshold st)) [])) by (now rewrite map_length).
        rewrite map_nth, map_length. destruct Csh as [_ C]. specialize (C (nth a (st_coh st) []) (nth_In _ _ Ba)). lia. }
      assert (length (nth 0 (stack_mask st) []) = Z.to_nat w) as L0 by (apply Lrow; lia).
      assert (2 ^ 32 <= 2 ^ 53)%Z as L53 by (vm_compute; discriminate).
      assert (forall i, i < length (stack_mask st) -> length (nth i (stack_mask st) []) = length (nth 0 (stack_mask st) [])) as Hrect by (intros a Ba; rewrite L0; auto).
      destruct (C30_get_tiles _ _ _ _ s' (stack_mask st) t Hpick Htil ltac:(lia) ltac:(lia) ltac:(lia) ltac:(lia) Hrect G) as (_ & _ & _ & K & _).
      apply K. rewrite Lm, L0, !Z2Nat.id by lia. exact I. }
    assert (forall y z, walk (valid_pixel st) y z -> valid_pixel st z) as We by (induction 1; auto).
    destruct (Cov x Vx) as (q & Bq & Hq). exists (c q). intros y W. pose proof (We _ _ W) as Vy.
    destruct (Cov y Vy) as (q' & Bq' & Hq').
    destruct (Px q' y Bq' Vy Hq') as (v & Ev & E).
    { intros q2 B2 H2. apply (Lk y y); auto. now constructor. }
    exists v. split; [exact Ev|]. rewrite E, (Cl q q'); [reflexivity|auto|]. apply (Lk x y); auto.
  Qed.
End Region.

(** One shared pixel is enough if that is all the settings ask for. *)
Lemma one_is_enough st n t : (n <= 1)%Z -> enough_shared st n t.
Proof.
  intros Hn u v Bu Bv (p & Vp & A & B). apply linked_step with u; [constructor|exact Bu|exact Bv|].
  exists [p]. split; [repeat constructor; auto|]. split; [discriminate|]. split; [cbn; lia|]. intros x [<-|[]]. auto.
Qed.

(** The run of [C60_witness] on four tiles: all pixels are coherent, so all
    interferograms come out with one number of cycles for the whole image. *)
Lemma ex_enough : enough_shared ex_stack 11 ex_tiles.
Proof.
  assert (forall u, u < 3 -> overlapping ex_stack 11 (tile_at ex_tiles (S u)) (tile_at ex_tiles u)) as O.
  { intros u Bu. destruct (ex_overlapping u Bu) as (l & O1 & O2 & O3 & O4). exists l. repeat (split; [assumption|]). intros x I. destruct (O4 x I) as (A & B & C). auto. }
  assert (forall u k, u + k < 4 -> linked ex_stack 11 ex_tiles u (u + k)) as Up.
  { induction k as [|k IH]; intros B; [rewrite Nat.add_0_r; constructor|]. apply linked_step with (u + k); [apply IH; lia|cbn; lia|cbn; lia|].
    replace (u + S k) with (S (u + k)) by lia. apply ex_overlapping. lia. }
  assert (forall u k, u + k < 4 -> linked ex_stack 11 ex_tiles (u + k) u) as Dn.
  { induction k as [|k IH]; intros B; [rewrite Nat.add_0_r; constructor|].
    apply linked_on with (u + k); [|apply IH; lia]. apply linked_step with (u + S k); [constructor|cbn; lia|cbn; lia|].
    replace (u + S k) with (S (u + k)) by lia. apply O. lia. }
  intros u v Bu Bv _. cbn in Bu, Bv. destruct (Nat.le_ge_cases u v).
  - replace v with (u + (v - u)) by lia. apply Up. lia.
  - replace u with (v + (u - v)) by lia. apply Dn. lia.
Qed.

Lemma ex_valid x : valid_pixel ex_stack x <-> in_image (18, 2)%Z (fst x) (snd x).
Proof.
  split; [apply valid_in_image, ex_coh|]. intros [A B]. cbn [fst snd] in A, B. exists (4 # 5)%Q. split; [|reflexivity].
  unfold image_at. replace (_ && _)%bool with true by lia. unfold pixel_at, ex_stack, st_coh. rewrite nth_error_map, (nth_error_nth' _ 0) by (rewrite seq_length; lia).
  cbn [option_map]. destruct (Z.to_nat (snd x)) as [|[|k]] eqn:E; [reflexivity|reflexivity|lia].
Qed.

Lemma walk_mono (P Q : Z * Z -> Prop) x y : (forall z, P z -> Q z) -> walk P x y -> walk Q x y.
Proof. intros H. induction 1; [constructor; auto|econstructor; eauto]. Qed.

Example C89_region_witness : exists ws fn r (m : Z), run (cli px_unwrap ex_stack ex_env) wf_empty = (ws, Ok fn) /\
  apply_writes wf_empty ws "out/20200113_20200206.unw.tif"%string = Some (CRaster r) /\
  forall y, in_image (18, 2)%Z (fst y) (snd y) -> exists v, pixel r y = Some v /\
    (v == true_ifg px_phase "20200113" "20200206" y + twopi * inject_Z m)%Q.
Proof.
  destruct C60_witness as (ws & fn & _ & _ & _ & R & _).
  assert (NoDup (map fst (st_files ex_stack))) as H1 by (repeat constructor; cbn; intuition discriminate).
  assert (forall d, In d (st_dates ex_stack) -> underscore_free d) as H3.
  { intros d I; vm_compute in I; repeat (destruct I as [<-|I]; [reflexivity|]); destruct I. }
  assert (forall d1 d2, In d1 (st_dates ex_stack) -> In d2 (st_dates ex_stack) -> occurs ".tif" (stem "out" (d1, d2)) = false) as H4.
  { intros d1 d2 I1 I2; vm_compute in I1, I2; repeat (destruct I1 as [<-|I1]; [repeat (destruct I2 as [<-|I2]; [reflexivity|]); destruct I2|]); destruct I1. }
  assert (sched_ok ex_env) as H7 by (intros l; apply Permutation_sym, Permutation_rev).
  assert (fresh ex_env wf_empty) as H9 by (intros n _; reflexivity).
  assert (bulk_solver_ok labels_of brute_mip exact_lsq "integer" (one_region ex_stack ex_tiles)) as Hbs.
  { split; [intros _; split; [apply brute_mip_sound|apply components_witness]|intros X; discriminate X]. }
  destruct (C89_region (fun _ _ => None) px_triangles (fun _ l => rev l) (@rev nat) 4 (Settings Constant Constant 2 0 0) [] [] (fun _ => []) (fun _ => [])
      px_smcf px_planar (fun _ l => Permutation_sym (Permutation_rev l)) (fun l => Permutation_sym (Permutation_rev l)) ltac:(cbn; lia)
      ex_stack px_phase ex_env wf_empty ws fn 18 2 (TilerSettings 4 4 100 1%Q) ex_tiles
      H1 ex_coh ltac:(lia) ltac:(lia) ltac:(lia) H3 H4 pick_rows_ok eq_refl H7 (proj1 components_witness) H9 R ex_history ex_tiling
      ltac:(vm_compute; discriminate) ex_enough ex_smooth Hbs 1 3 ltac:(cbn; lia) ltac:(lia))
      as (r & E & P).
  - intros x V. eapply Qle_trans; [apply ex_bound; [cbn; lia|exact V]|]. vm_compute. discriminate.
  - reflexivity.
  - destruct (P (0, 0)%Z) as (m & Hm); [apply ex_valid; unfold in_image; cbn; lia|].
    exists ws, fn, r, m. split; [exact R|]. split; [exact E|]. intros y Hy. apply Hm.
    eapply walk_mono; [|apply (image_walk (18, 2)%Z (0, 0)%Z y); [unfold in_image; cbn; lia|exact Hy]]. intros z Hz. now apply ex_valid.
Qed.

Print Assumptions C89_linked.
Print Assumptions C89_region.
