(** C84 and C88 for whole runs of the program. *)
From Verif Require Import Base BaseLemmas PoolProofs GraphModel GraphSpec GraphProofs Hop3Proofs McfModel McfSpec PhaseProofs EmcfModel StripProofs
  TileModel TileSpec Props_Tile NamesModel NamesProofs OverlapModel OverlapSpec BulkModel BulkSpec MergeModel MergeSpec AdjustProofs MergeBatchProofs
  WorkflowModel WorkflowSpec WorkflowProofs WorkflowMerge WorkflowMain DescribeProofs Props_Merge Props_Workflow SlcModel SlcSpec SlcProofs Props_Slc UnwrapTileModel
  UnwrapTileProofs PipelineSpec PipelineProofs Props_Pipeline ExactSpec ExactRunProofs ShiftSpec TotalMergeProofs TotalRunProofs
  BulkProofs ShiftMergeProofs ExactWitness CertSolver Props_Any Props_InvariantTile ExactTileProofs
  PerturbSpec Props_Perturb ReferenceSpec Props_Reference.
From Coq Require Import List Permutation Sorting.Sorted ZifyBool Lqa.
Import ListNotations.
Set Default Goal Selector "!".
Local Open Scope nat_scope.
Opaque twopi.

Section Run.
  Context (smcf : list arc -> list Z -> option (list Z))
          (triangles : list (Z * Z) -> res (list (nat * nat * nat)))
          (tsched : nat -> list nat -> list nat) (ssched : list nat -> list nat) (cpu : Z)
          (set : settings) (tdist tcent : list Z) (sdist scent : list (Z * Z) -> list Z).
  Hypothesis Hsm : smcf_sound smcf.
  Hypothesis Htri : forall pts tri, triangles pts = Ok tri -> planar (delaunay (length pts) tri).
  Hypothesis Ht : forall b l, Permutation (tsched b l) l.
  Hypothesis Hs : forall l, Permutation (ssched l) l.
  Hypothesis Hl : 0 < links_per_batch set.
  Notation unwrap := (unwrap_one_tile smcf triangles tsched ssched cpu set tdist tcent sdist scent).

  (** A run from empty folders on the first stack that ends, and a second stack with
      [eps t x] added to date [t]. If nothing jumps in any tile, the program ends on the
      second stack too, from any empty folders. It writes the same files. The raster of
      dates [i] and [j] changes by [eps j x - eps i x] at every pixel [x], and the same
      pixels are NaN. *)
  Theorem C84_run st st' gt e s s2 ws fn h w s' eps :
    hop3 (Z.of_nat (length (st_files st))) = Ok gt ->
    NoDup (map fst (st_files st)) -> coh_shape st h w -> (0 < h)%Z -> (0 < w)%Z -> (h * w <= 2 ^ 32)%Z ->
    (forall d, In d (st_dates st) -> underscore_free d) ->
    (forall d1 d2, In d1 (st_dates st) -> In d2 (st_dates st) -> occurs ".tif" (stem (e_out e) (d1, d2)) = false) ->
    picks_in_range (e_pick e) -> tiler_post_init s' = Ok (e_tiler e) -> sched_ok e ->
    (forall n l, length (e_components e n l) = n) -> respects (e_cg e) -> (0 < e_parallel_tiles e)%Z ->
    readable st -> readable st' -> moved_stack st st' eps ->
    (forall t b, get_tiles (e_pick e) (e_root e) (e_use_tiles e) (e_tiler e) (stack_mask st) = Ok t -> In b (tiles t) ->
       steady triangles st (g_links gt) eps b) ->
    run (cli unwrap st e) s = (ws, Ok fn) ->
    fresh e s -> fresh e s2 -> (forall n, In n fn -> s n = None /\ s2 n = None) ->
    exists ws2, run (cli unwrap st' e) s2 = (ws2, Ok fn) /\
      forall i j, i < j < length (st_dates st) -> j - i <= 3 ->
        let n := unw_filename (e_out e) (nth i (st_dates st) ""%string) (nth j (st_dates st) ""%string) in
        exists r r2, apply_writes s ws n = Some (CRaster r) /\ apply_writes s2 ws2 n = Some (CRaster r2) /\
          forall x, in_shape (h, w) x = true -> plus_opt (eps j x - eps i x) (pixel r x) (pixel r2 x).
  Proof using Hsm Htri Ht Hs Hl.
    intros Rg Nf Csh Ph Pw Hhw Hus Htif Hpick Htil Hsch Hcc Hcg Hpar Rd Rd' Mv Sd R Hfr Hfr2 Hno.
    pose proof Mv as (Ed & Ec & Eth & _). pose proof (same_dates _ _ Ed Nf) as [Nf' Lf'].
    unfold cli in R. apply then_inv in R as (w0 & gt0 & ws' & R0 & R & ->). apply lift_inv in R0 as [-> R0]. change ([] ++ ws') with ws'. cbn [apply_writes fold_left] in R.
    assert (gt0 = gt) as -> by congruence. apply hop3_is in R0 as [N4 Egt].
    set (e1 := stack_env st gt unwrap e) in *. set (e2 := stack_env st' gt unwrap e).
    assert (planar gt) as Pgt by (rewrite Egt; apply hop3_planar; auto).
    assert (length (st_files st) = g_npoints gt) as Ld by (rewrite Egt; reflexivity).
    assert (forall a b, In (a, b) (g_links gt) <-> a < b < length (st_dates st) /\ b - a <= 3) as Lk.
    { intros a b. rewrite Egt, dates_length. cbn [g_links hop3_graph]. now apply hop3_link_list_In. }
    assert (NoDup (st_dates st)) as Nd by (unfold st_dates, dates_of; eapply Permutation_NoDup; [symmetry; apply sort_str_perm|exact Nf]).
    assert (names_ok e1) as Hn by (split; [exact Nd|split; [apply (pl_nodup gt Pgt)|split; [exact Hus|exact Htif]]]).
    assert (stack_mask st' = stack_mask st) as Em by (unfold stack_mask; now rewrite Ec, Eth).
    assert (e_dates e2 = e_dates e1) as Ed' by exact Ed.
    assert (names_ok e2) as Hn2.
    { unfold names_ok. rewrite Ed'. exact Hn. }
    assert (length (stack_mask st) = Z.to_nat h) as Lm by (unfold stack_mask; rewrite map_length; destruct Csh; lia).
    assert (forall i, i < length (stack_mask st) -> length (nth i (stack_mask st) []) = Z.to_nat w) as Lrow.
    { intros a Ba. unfold stack_mask in *. rewrite map_length in Ba. rewrite (nth_indep _ [] (map (above (st_threshold st)) [])) by (now rewrite map_length).
      rewrite map_nth, map_length. destruct Csh as [_ C]. specialize (C (nth a (st_coh st) []) (nth_In _ _ Ba)). lia. }
    assert (forall t, get_tiles (e_pick e) (e_root e) (e_use_tiles e) (e_tiler e) (stack_mask st) = Ok t ->
      shape t = (h, w) /\ 1 <= ntiles t /\ (forall b, In b (tiles t) -> box_in_image (h, w) b)) as Hgt.
    { intros t G. assert (length (nth 0 (stack_mask st) []) = Z.to_nat w) as L0 by (apply Lrow; lia).
      pose proof G as G'. apply (C30_get_tiles _ _ _ _ s') in G' as (E1 & E0 & E2 & _); auto; rewrite ?Lm, ?L0, ?Z2Nat.id in * by lia; try lia; try nia.
      - split; [exact E1|]. split; [lia|]. now apply Forall_forall.
      - intros a Ba. apply Lrow. lia. }
    assert (coh_shape st' h w) as Csh' by (unfold coh_shape; now rewrite Ec).
    assert (forall stk, NoDup (map fst (st_files stk)) -> length (st_files stk) = length (st_files st) -> coh_shape stk h w -> stack_mask stk = stack_mask st ->
      unwrap_ok (stack_env stk gt unwrap e) h w) as Huk.
    { intros stk Nk Lkk Ck Emk t b f G I E. cbn in G, E. rewrite Emk in G. destruct (Hgt t G) as (_ & _ & Hbox). specialize (Hbox b I). unfold box_in_image in Hbox.
      destruct (C58_tile smcf triangles tsched ssched cpu set tdist tcent sdist scent Hsm Htri Ht Hs Hl stk gt b f) as (T1 & T2 & T3 & T4 & _); auto; try lia.
      split; [exact T1|]. split; [exact (proj2 (proj2 T2))|]. split; [now apply before_nodup|].
      intros r c J. apply T4 in J as [(z & J & _) _]. apply (image_in _ h w) in J; auto. }
    pose proof (Huk st Nf eq_refl Csh eq_refl) as Hu. fold e1 in Hu. pose proof (Huk st' Nf' Lf' Csh' Em) as Hu2. fold e2 in Hu2. clear Huk.
    assert (output_files e1 = Ok fn /\ e_method e = "dirichlet"%string) as [Ho Hmeth].
    { pose proof R as R'. apply main_done in R' as (w1 & w2 & w3 & w4 & w5 & t0 & R1 & R2 & R3 & R4 & R5 & _). split; [eapply outputs; eauto|].
      unfold merge_tiles in R5. destruct (String.eqb_spec (e_method e1) "dirichlet"%string) as [Q|Q]; [exact Q|discriminate R5]. }
    destruct (outputs_pairs e1 fn Ho) as [Efn Bfn]. rewrite map_map in Efn. change (e_ifgs e1) with (g_links gt) in Efn.
    assert (length fn = length (g_links gt)) as Lfn by (rewrite Efn, map_length; reflexivity).
    assert (0 < length (g_links gt)) as Pos.
    { assert (In (0, 1) (g_links gt)) as I by (apply Lk; rewrite dates_length; lia). destruct (g_links gt); [destruct I|cbn; lia]. }
    assert (output_files e2 = Ok fn) as Ho2.
    { rewrite <- Ho. unfold output_files. change (e_ifgs e2) with (e_ifgs e1). change (e_out e2) with (e_out e1). now rewrite Ed'. }
    assert (forall k, k < length fn -> s (nth k fn ""%string) = None /\ s2 (nth k fn ""%string) = None) as Hno' by (intros k B; apply Hno, nth_In, B).
    assert (forall k, k < length fn -> _) as D1 by (intros k Bk; exact (run_detail e1 s ws' fn h w k Hn Hsch Hfr Hu Hhw Hcc R Bk (proj1 (Hno' k Bk)))).
    destruct (D1 0 ltac:(lia)) as (t & files & _ & G & L & Hfiles & _).
    change (get_tiles (e_pick e) (e_root e) (e_use_tiles e) (e_tiler e) (stack_mask st) = Ok t) in G. destruct (Hgt t G) as (Sh & Nt & Hbox). clear Hgt.
    assert (forall b, In b (tiles t) -> (0 <= xmin b)%Z /\ (0 <= ymin b)%Z) as Hpos.
    { intros b I. specialize (Hbox b I). unfold box_in_image in Hbox. lia. }
    assert (map_res (unwrap st gt) (tiles t) = Ok files) as Efl.
    { destruct (proj2 (map_res_ok_iff (unwrap st gt) (tiles t))) as (files0 & E0).
      - intros b I. apply (In_nth _ _ (BBox 0 0 0 0)) in I as (q & Bq & <-). exists (nth q files dfile). apply Hfiles, Bq.
      - rewrite E0. f_equal. apply map_res_nth in E0 as [L0 V]. unfold ntiles in *. apply (nth_ext _ _ dfile dfile); [lia|]. intros q Bq.
        specialize (V q (BBox 0 0 0 0) dfile ltac:(lia)). specialize (Hfiles q ltac:(lia)). cbn [e_unwrap stack_env e1] in Hfiles.
        change (tile_at t q) with (nth q (tiles t) (BBox 0 0 0 0)) in Hfiles. congruence. }
    destruct (files_moved smcf triangles tsched ssched cpu set tdist tcent sdist scent Hsm Htri Ht Hs Hl st st' gt t h w eps files Rg Nf Csh Hhw Hpos Rd Rd' Mv
      (fun b I => Sd t b G I) Efl) as (files' & Efl' & Cut & Cut' & Ly & Sf).
    pose proof Cut as (_ & _ & Hti & Hcut). pose proof Cut' as (L' & _ & Hti' & Hcut'). rewrite no_file_d in *.
    assert (forall q, q < ntiles t -> e_unwrap e2 (tile_at t q) = Ok (nth q files' dfile)) as Hfiles'.
    { intros q Bq. apply map_res_nth in Efl' as [_ V]. exact (V q (BBox 0 0 0 0) dfile Bq). }
    assert (forall q, file_coords (nth q files' dfile) = file_coords (nth q files dfile)) as Hco.
    { intros q. destruct Ly as [_ Y]. rewrite no_file_d in Y. destruct (Y q) as [Y1 Y2]. unfold file_coords. now rewrite Y1, Y2. }
    assert (map file_coords files' = map file_coords files) as Hmap.
    { apply (nth_ext _ _ (file_coords dfile) (file_coords dfile)); [rewrite !map_length; lia|]. intros q _. rewrite !map_nth. apply Hco. }
    assert (forall x fl, In fl files' -> In x (file_coords fl) -> in_shape (h, w) x = true) as Ins'.
    { intros [a c] fl J X. destruct (Hcut' fl J) as (_ & Gr & _). specialize (Gr a c X). unfold in_shape. cbn in *. lia. }
    assert (forall k t0 files0, k < length fn -> get_tiles (e_pick e) (e_root e) (e_use_tiles e) (e_tiler e) (stack_mask st) = Ok t0 -> length files0 = ntiles t0 ->
      (forall q, q < ntiles t0 -> e_unwrap e1 (tile_at t0 q) = Ok (nth q files0 dfile)) -> t0 = t /\ files0 = files) as U1.
    { intros k t0 files0 _ G0 L0 V0. assert (t0 = t) as -> by congruence. split; [reflexivity|]. apply (nth_ext _ _ dfile dfile); [lia|]. intros q Bq.
      specialize (V0 q ltac:(lia)). rewrite Hfiles in V0 by lia. now injection V0. }
    (* several tiles: what both runs share *)
    assert (ntiles t <> 1 -> exists f omap m bulk rr,
      compute_phasediff_deciles (e_components e) (e_min_overlap e) files t = Ok f /\
      compute_phasediff_deciles (e_components e) (e_min_overlap e) files' t = Ok f /\
      get_bulk_offsets (e_mip e) (e_lsq e) (e_bulk_method e) f t (stack_mask st) = Ok (bulk, rr) /\
      overlap_map f = Ok omap /\ get_max_degree (map file_coords files) (shape t) = Ok m /\
      forall k, k < length fn -> exists arr diff model arr' diff' model',
        apply_writes s ws' (nth k fn ""%string) = Some (CRaster arr) /\
        alone e1 f omap m bulk (shape t) files k = Ok (arr, diff, model) /\
        alone e2 f omap m bulk (shape t) files' k = Ok (arr', diff', model') /\
        forall x, in_shape (h, w) x = true -> plus_opt (drift (g_links gt) eps k x) (pixel arr x) (pixel arr' x)) as Hmulti.
    { intros N1. destruct (D1 0 ltac:(lia)) as (t0 & files0 & r0 & G0 & L0 & V0 & _ & [[? _]|(_ & f & omap & m & bulk & rr & d0 & m0 & X1 & X2 & X3 & X4 & X5 & _)]);
        destruct (U1 0 t0 files0 ltac:(lia) G0 L0 V0) as [-> ->]; [contradiction|].
      destruct (C84_merge (e_components e) (e_min_overlap e) files files' t f h w (length (g_links gt)) (drift (g_links gt) eps) (e_cg e) (e_ilu e) (e_triangles e) omap
        Hcc Hcg Cut Cut' Ly Sf X1 X3) as [X1' Mg].
      exists f, omap, m, bulk, rr. split; [exact X1|]. split; [exact X1'|]. split; [exact X2|]. split; [exact X3|]. split; [exact X5|]. intros k Bk.
      destruct (D1 k Bk) as (t1 & files1 & r1 & G1 & L1 & V1 & W1 & [[? _]|(_ & f1 & omap1 & m1 & bulk1 & rr1 & d1 & mm1 & Y1 & Y2 & Y3 & _ & Y5 & Y6)]);
        destruct (U1 k t1 files1 Bk G1 L1 V1) as [-> ->]; [contradiction|].
      rewrite X1 in Y1. injection Y1 as <-. rewrite X2 in Y2. injection Y2 as <- <-. rewrite X3 in Y3. injection Y3 as <-. rewrite X5 in Y5. injection Y5 as <-.
      destruct (Mg m bulk (shape t) [k] [(r1, d1, mm1)]) as (outs' & M' & _ & Lo & P).
      { apply (batch_one e1). eauto. }
      apply (batch_one e2) in M' as ([[arr' diff'] model'] & M' & ->).
      destruct (P 0 k r1 d1 mm1 eq_refl eq_refl) as (arr2 & diff2 & model2 & N2 & Px). cbn in N2. injection N2 as <- <- <-.
      exists r1, d1, mm1, arr', diff', model'. split; [exact W1|]. split; [exact Y6|]. split; [exact M'|]. intros x I. rewrite Sh in Px. apply (Px x I). }
    assert (exists ws2, run (main e2) s2 = (ws2, Ok fn)) as (ws2 & R2).
    { apply (main_total e2 s2 t files' fn); auto.
      - cbn. now rewrite Em.
      - intros N1 k Bk. rewrite Sh. apply (single_total_band _ _ _ (length (g_links gt))); [apply Hcut', nth_In; lia|lia|].
        intros x. apply Ins', nth_In. lia.
      - intros N1. destruct (Hmulti N1) as (f & omap & m & bulk & rr & X1 & X1' & X2 & X3 & X5 & K).
        exists f, omap, m, bulk, rr. split; [exact X1'|]. split; [cbn; now rewrite Em|]. split; [exact X3|]. split; [now rewrite Hmap|].
        split; [intros X; rewrite X in Lfn; cbn in Lfn; lia|]. split; [split; [|split]|].
        + intros X. rewrite X in L'. cbn in L'. lia.
        + intros fl J. destruct (Hcut' fl J) as (A & _ & B & _ & C). split; [exact C|exact A].
        + apply (computed_recorded (e_components e) (e_min_overlap e) files' t f h w X1' Hcc L'); auto.
          * intros fl J. apply Hcut', J.
          * intros fl J. apply Hcut', J.
        + intros k Bk. destruct (K k Bk) as (? & ? & ? & arr' & diff' & model' & _ & _ & A & _). eauto. }
    exists ws2. split.
    { unfold cli. rewrite Lf', Rg. exact R2. }
    intros i j Bij Dij n.
    assert (In (i, j) (g_links gt)) as I by now apply Lk. apply In_nth_error in I as (k & Ek).
    assert (nth_error fn k = Some n) as En.
    { rewrite Efn, nth_error_map, Ek. reflexivity. }
    assert (k < length fn) as Bk by (apply nth_error_Some; congruence).
    assert (nth k fn ""%string = n) as Enk by now apply nth_error_nth.
    assert (forall x, drift (g_links gt) eps k x = (eps j x - eps i x)%Q) as Edr by (intros x; unfold drift; now rewrite (nth_error_nth _ _ _ Ek)).
    destruct (D1 k Bk) as (t1 & files1 & r1 & G1 & L1 & V1 & W1 & K1). destruct (U1 k t1 files1 Bk G1 L1 V1) as [-> ->].
    destruct (run_detail e2 s2 ws2 fn h w k Hn2 Hsch Hfr2 Hu2 Hhw Hcc R2 Bk (proj2 (Hno' k Bk))) as (t2 & files2 & r2 & G2 & L2 & V2 & W2 & K2).
    assert (t2 = t) as -> by (cbn in G2; rewrite Em in G2; congruence).
    assert (files2 = files') as ->.
    { apply (nth_ext _ _ dfile dfile); [lia|]. intros q Bq. specialize (V2 q ltac:(lia)). rewrite Hfiles' in V2 by lia. now injection V2. }
    exists r1, r2. rewrite <- Enk. split; [exact W1|]. split; [exact W2|]. intros x Ix. rewrite <- Edr.
    destruct (Nat.eq_dec (ntiles t) 1) as [N1|N1].
    - destruct K1 as [[_ K1]|[? _]]; [|contradiction]. destruct K2 as [[_ K2]|[? _]]; [|contradiction].
      assert (In (nth 0 files dfile) files) as J by (apply nth_In; lia). assert (In (nth 0 files' dfile) files') as J' by (apply nth_In; lia).
      destruct (Hcut _ J) as (A1 & _ & _ & _ & A2). destruct (Hcut' _ J') as (A1' & _ & _ & _ & A2'). rewrite <- Sh in Ix.
      destruct (C41_single _ _ _ _ x A2 A1 K1 Ix) as (_ & P1 & P2). destruct (C41_single _ _ _ _ x A2' A1' K2 Ix) as (_ & P1' & P2'). rewrite Hco in P1', P2'.
      destruct (in_dec (fun a b : Z * Z => ltac:(decide equality; apply Z.eq_dec)) x (file_coords (nth 0 files dfile))) as [Q|Q].
      + apply In_nth_error in Q as (p & Ep). destruct (P2 p Ep) as (v & -> & Ev). destruct (P2' p Ep) as (v' & -> & Ev'). cbn.
        rewrite Ev, Ev'. specialize (Sf k 0 p x ltac:(lia)). rewrite no_file_d in Sf. now apply Sf.
      + rewrite (P1 Q), (P1' Q). exact I.
    - destruct (Hmulti N1) as (f & omap & m & bulk & rr & X1 & X1' & X2 & X3 & X5 & K).
      destruct (K k Bk) as (arr & diff & model & arr' & diff' & model' & Z1 & _ & Z3 & Z4).
      rewrite W1 in Z1. injection Z1 as <-. destruct K2 as [[? _]|(_ & f2 & o2 & m2 & b2 & rr2 & d2 & mm2 & Y1 & Y2 & Y3 & _ & Y5 & Y6)]; [contradiction|].
      change (compute_phasediff_deciles (e_components e) (e_min_overlap e) files' t = Ok f2) in Y1. rewrite X1' in Y1. injection Y1 as <-.
      cbn in Y2. rewrite Em, X2 in Y2. injection Y2 as <- <-. rewrite X3 in Y3. injection Y3 as <-. rewrite Hmap, X5 in Y5. injection Y5 as <-.
      rewrite Z3 in Y6. injection Y6 as <- _ _. now apply Z4.
  Qed.

  (** Two stacks with the same interferograms: if the program ends on one it ends on the other, and
      the rasters have the same values. *)
  Theorem C88_run st st' gt e s s2 ws fn h w s' :
    hop3 (Z.of_nat (length (st_files st))) = Ok gt ->
    NoDup (map fst (st_files st)) -> coh_shape st h w -> (0 < h)%Z -> (0 < w)%Z -> (h * w <= 2 ^ 32)%Z ->
    (forall d, In d (st_dates st) -> underscore_free d) ->
    (forall d1 d2, In d1 (st_dates st) -> In d2 (st_dates st) -> occurs ".tif" (stem (e_out e) (d1, d2)) = false) ->
    picks_in_range (e_pick e) -> tiler_post_init s' = Ok (e_tiler e) -> sched_ok e ->
    (forall n l, length (e_components e n l) = n) -> respects (e_cg e) -> (0 < e_parallel_tiles e)%Z ->
    readable st -> readable st' -> same_ifgs st st' ->
    (forall t b, get_tiles (e_pick e) (e_root e) (e_use_tiles e) (e_tiler e) (stack_mask st) = Ok t -> In b (tiles t) ->
       decided triangles st (g_links gt) b) ->
    run (cli unwrap st e) s = (ws, Ok fn) ->
    fresh e s -> fresh e s2 -> (forall n, In n fn -> s n = None /\ s2 n = None) ->
    exists ws2, run (cli unwrap st' e) s2 = (ws2, Ok fn) /\
      forall i j, i < j < length (st_dates st) -> j - i <= 3 ->
        let n := unw_filename (e_out e) (nth i (st_dates st) ""%string) (nth j (st_dates st) ""%string) in
        exists r r2, apply_writes s ws n = Some (CRaster r) /\ apply_writes s2 ws2 n = Some (CRaster r2) /\
          forall x, in_shape (h, w) x = true -> same_value (pixel r x) (pixel r2 x).
  Proof using Hsm Htri Ht Hs Hl.
    intros Rg Nf Csh Ph Pw Hhw Hus Htif Hpick Htil Hsch Hcc Hcg Hpar Rd Rd' S D R Hfr Hfr2 Hno.
    destruct (C84_run st st' gt e s s2 ws fn h w s' (fun _ => added st st') Rg Nf Csh Ph Pw Hhw Hus Htif Hpick Htil Hsch Hcc Hcg Hpar Rd Rd'
      (moved_by_added st st' Rd Rd' S) (fun t b G I => decided_steady _ _ _ _ _ (D t b G I)) R Hfr Hfr2 Hno) as (ws2 & R2 & K).
    exists ws2. split; [exact R2|]. intros i j B Dij n. destruct (K i j B Dij) as (r & r2 & W & W2 & P). exists r, r2. split; [exact W|]. split; [exact W2|].
    intros x I. specialize (P x I). destruct (pixel r x), (pixel r2 x); cbn in *; auto. rewrite P. ring.
  Qed.
End Run.

(** * A case: the stack of [C65_witness], four tiles, phases with residues *)
Lemma rough_steady4 b : In b (tiles rough_tiles) -> steady px_triangles rough_stack (g_links (hop3_graph 4)) eps_r b.
Proof.
  Transparent twopi.
  assert (forallb (steady_b rough_stack phase_or (g_links (hop3_graph 4)) eps_r) (tiles rough_tiles) = true) as K by (vm_compute; reflexivity).
  Opaque twopi.
  intros I. rewrite forallb_forall in K. specialize (K b I). unfold steady_b in K. cbv zeta in K.
  intros pts tri n P T Bn.
  assert (pts = nonzero (tile_mask rough_stack b)) as ->.
  { eapply tile_pixels_unique; [exact P|]. destruct I as [<-|[<-|[<-|[<-|[]]]]]; apply mask_pixels; cbn; lia. }
  set (pts := nonzero (tile_mask rough_stack b)) in *. clearbody pts.
  assert (tri = strip (length pts)) as -> by (unfold px_triangles in T; destruct (_ <? 3); congruence).
  rewrite forallb_forall in K. specialize (K n ltac:(apply in_seq; lia)). apply andb_prop in K as [K0 K]. rewrite forallb_forall in K.
  assert (forall d1 d2 x v, ifg_value rough_stack d1 d2 x v -> cong2pi v (phase_or d2 x - phase_or d1 x)%Q) as V.
  { intros d1 d2 x v (p & q & E1 & E2 & C). unfold phase_or. rewrite E1, E2. exact C. }
  cbv zeta. split.
  - intros a A. apply stays_check in K0. eapply stays_cong; [|exact K0]. now apply V.
  - intros u v a c J A C. specialize (K (u, v) J). cbn [fst snd] in K. apply stays_check in K. eapply stays_cong; [|exact K]. apply cong2pi_sub; now apply V.
Qed.

Lemma rough_decided4 b : In b (tiles rough_tiles) -> decided px_triangles rough_stack (g_links (hop3_graph 4)) b.
Proof.
  intros I pts tri i j P T J. apply (In_nth _ _ (0, 0)) in J as (n & Bn & En).
  destruct (rough_steady4 b I pts tri n P T Bn) as [S0 S1]. cbv zeta in S0, S1. rewrite En in S0, S1. cbn [fst snd] in S0, S1. cbv zeta. split.
  - intros a A. eapply stays_decided, S0, A.
  - intros u v a c K A C. eapply stays_decided, (S1 u v a c); eauto.
Qed.

Lemma rough_names : (forall d, In d (st_dates rough_stack) -> underscore_free d) /\
  forall d1 d2, In d1 (st_dates rough_stack) -> In d2 (st_dates rough_stack) -> occurs ".tif" (stem "out" (d1, d2)) = false.
Proof.
  split; [intros d I; vm_compute in I; repeat (destruct I as [<-|I]; [reflexivity|]); destruct I|].
  intros d1 d2 I1 I2; vm_compute in I1, I2; repeat (destruct I1 as [<-|I1]; [repeat (destruct I2 as [<-|I2]; [reflexivity|]); destruct I2|]); destruct I1.
Qed.

Lemma zero_respects : respects (fun _ b => map (fun _ => 0%Q) b).
Proof. intros a b b' H. induction H; cbn; constructor; [reflexivity|assumption]. Qed.

(** The stack with something added, and the stack with another reference date: both runs
    end, and the theorems compare their rasters with those of the first run. *)
Example C84_run_witness : exists ws fn ws2 ws3,
  run (cli rough_unwrap rough_stack rough_env) wf_empty = (ws, Ok fn) /\
  run (cli rough_unwrap bumped_stack rough_env) wf_empty = (ws2, Ok fn) /\
  run (cli rough_unwrap ref_stack rough_env) wf_empty = (ws3, Ok fn) /\
  ~ (eps_r 2%nat (1, 0)%Z - eps_r 1%nat (1, 0)%Z == 0)%Q /\
  let n := "out/20200113_20200125.unw.tif"%string in
  exists r r2 r3, apply_writes wf_empty ws n = Some (CRaster r) /\ apply_writes wf_empty ws2 n = Some (CRaster r2) /\
    apply_writes wf_empty ws3 n = Some (CRaster r3) /\
    plus_opt (eps_r 2 (1, 0)%Z - eps_r 1 (1, 0)%Z) (pixel r (1, 0)%Z) (pixel r2 (1, 0)%Z) /\ same_value (pixel r (1, 0)%Z) (pixel r3 (1, 0)%Z).
Proof.
  destruct C65_witness as (ws & fn & R). destruct rough_names as [H3 H4].
  assert (NoDup (map fst (st_files rough_stack))) as H1 by (repeat constructor; cbn; intuition discriminate).
  assert (sched_ok rough_env) as H7 by (intros l; apply Permutation_sym, Permutation_rev).
  assert (fresh rough_env wf_empty) as H9 by (intros n _; reflexivity).
  assert (forall n, In n fn -> wf_empty n = None /\ wf_empty n = None) as Hno by (intros n _; split; reflexivity).
  assert (forall t, get_tiles (e_pick rough_env) (e_root rough_env) (e_use_tiles rough_env) (e_tiler rough_env) (stack_mask rough_stack) = Ok t -> t = rough_tiles) as Ut.
  { intros t G. change (get_tiles pick_rows (fun _ => 2%Z) true (TilerSettings 4 4 100 (3 # 2)) (stack_mask rough_stack) = Ok t) in G. rewrite rough_tiling in G. congruence. }
  destruct (C84_run cert_smcf px_triangles (fun _ l => rev l) (@rev nat) 4 (Settings Constant Constant 2 0 0) [] [] (fun _ => []) (fun _ => [])
    cert_smcf_sound px_planar (fun _ l => Permutation_sym (Permutation_rev l)) (fun l => Permutation_sym (Permutation_rev l)) ltac:(cbn; lia)
    rough_stack bumped_stack (hop3_graph 4) rough_env wf_empty wf_empty ws fn 7 2 (TilerSettings 4 4 100 (3 # 2)) eps_r
    eq_refl H1 rough_coh ltac:(lia) ltac:(lia) ltac:(lia) H3 H4 pick_rows_ok eq_refl H7 (proj1 components_witness) zero_respects ltac:(cbn; lia)
    rough_readable bumped_readable bumped_moved (fun t b G I => rough_steady4 b ltac:(rewrite <- (Ut t G); exact I)) R H9 H9 Hno) as (ws2 & R2 & K2).
  destruct (C88_run cert_smcf px_triangles (fun _ l => rev l) (@rev nat) 4 (Settings Constant Constant 2 0 0) [] [] (fun _ => []) (fun _ => [])
    cert_smcf_sound px_planar (fun _ l => Permutation_sym (Permutation_rev l)) (fun l => Permutation_sym (Permutation_rev l)) ltac:(cbn; lia)
    rough_stack ref_stack (hop3_graph 4) rough_env wf_empty wf_empty ws fn 7 2 (TilerSettings 4 4 100 (3 # 2))
    eq_refl H1 rough_coh ltac:(lia) ltac:(lia) ltac:(lia) H3 H4 pick_rows_ok eq_refl H7 (proj1 components_witness) zero_respects ltac:(cbn; lia)
    rough_readable ref_readable ref_same (fun t b G I => rough_decided4 b ltac:(rewrite <- (Ut t G); exact I)) R H9 H9 Hno) as (ws3 & R3 & K3).
  exists ws, fn, ws2, ws3. split; [exact R|]. split; [exact R2|]. split; [exact R3|].
  split; [intros E; apply Qeq_bool_iff in E; vm_compute in E; discriminate|].
  destruct (K2 1 2 ltac:(cbn; lia) ltac:(lia)) as (r & r2 & W & W2 & P2). destruct (K3 1 2 ltac:(cbn; lia) ltac:(lia)) as (r' & r3 & W' & W3 & P3).
  exists r, r2, r3. split; [exact W|]. split; [exact W2|]. split; [exact W3|]. split; [now apply P2|].
  rewrite W in W'. injection W' as <-. now apply P3.
Qed.

Print Assumptions C84_run.
Print Assumptions C88_run.
