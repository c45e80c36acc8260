(** C65: the workflow runs to its end on every stack. *)
From Verif Require Import Base BaseLemmas PoolProofs GraphModel GraphSpec GraphProofs Hop3Proofs McfModel McfSpec DualProofs ResidueProofs PhaseProofs EmcfModel StripProofs
  TileModel TileSpec Props_Tile NamesModel NamesProofs OverlapModel OverlapSpec BulkModel BulkSpec BulkProofs LaplacianProofs MergeModel MergeSpec AdjustProofs MergeBatchProofs
  WorkflowModel WorkflowSpec WorkflowProofs WorkflowMain DescribeProofs Props_Merge Props_Workflow SlcModel SlcSpec SlcProofs Props_Slc UnwrapTileModel
  UnwrapTileProofs PipelineSpec PipelineProofs Props_Pipeline ExactSpec ExactTileProofs ExactMergeProofs ExactBulkProofs ExactRunProofs ExactWitness Props_Exact
  TotalProofs TotalRunProofs TotalMergeProofs Props_Emcf AnyProofs Props_Total OracleProofs CertSolver.
From Coq Require Import List Permutation FinFun Sorting.Sorted ZifyBool Lqa.
Import ListNotations.
Set Default Goal Selector "!".
Local Open Scope nat_scope.
Opaque twopi.

Section Any.
  Context (smcf : list arc -> list Z -> option (list Z))
          (triangles : list (Z * Z) -> res (list (nat * nat * nat)))
          (tsched : nat -> list nat -> list nat) (ssched : list nat -> list nat) (cpu : Z)
          (set : settings) (tdist tcent : list Z) (sdist scent : list (Z * Z) -> list Z).
  (* the network solver, the triangulation and the worker pools *)
  Hypothesis Hsm : smcf_sound smcf.
  Hypothesis Htri : forall pts tri, triangles pts = Ok tri -> planar (delaunay (length pts) tri).
  Hypothesis Ht : forall b l, Permutation (tsched b l) l.
  Hypothesis Hs : forall l, Permutation (ssched l) l.
  (* the settings *)
  Hypothesis Hl : 0 < links_per_batch set.
  Hypothesis Hsc : smcf_complete smcf.
  Hypothesis Hw : (1 <= space_workers (s_worker_count set) cpu)%Z.
  Notation unwrap := (unwrap_one_tile smcf triangles tsched ssched cpu set tdist tcent sdist scent).

  (** The costs of a graph: one per link; the temporal ones at least 1 and not so
      large that a solution would not fit its bounds. *)
  Definition time_costs_ok (nlinks : nat) : Prop := exists tc, pick_cost (t_cost_type set) nlinks tdist tcent = Ok tc /\
    length tc = nlinks /\ (forall x, In x tc -> (1 <= x)%Z) /\ (2 * sumZ tc + 2 <= int32_max)%Z.
  Definition space_costs_ok (pts : list (Z * Z)) (nlinks : nat) : Prop := exists sc, pick_cost (s_cost_type set) nlinks (sdist pts) (scent pts) = Ok sc /\
    length sc = nlinks.

  (** One tile that can be triangulated. *)
  Theorem C65_tile st gt b : hop3 (Z.of_nat (length (st_files st))) = Ok gt -> NoDup (map fst (st_files st)) ->
    (0 <= xmin b)%Z -> (0 <= ymin b)%Z -> readable st -> time_costs_ok (length (g_links gt)) ->
    (forall pts, tile_pixels st b pts -> exists tri, triangles pts = Ok tri /\
       space_costs_ok pts (length (g_links (delaunay (length pts) tri)))) ->
    exists f, unwrap st gt b = Ok f.
  Proof using Hsm Hsc Htri Ht Hs Hl Hw.
    intros G Nf Bx By Hrd (tc & Etc & Ltc & Ptc & Btc) Hok. apply hop3_is in G as [N4 Egt].
    assert (planar gt) as Pgt by (rewrite Egt; apply hop3_planar; auto).
    assert (length (st_files st) = g_npoints gt) as Ld by (rewrite Egt; reflexivity).
    destruct (C50_reads 0%Q st b Nf Hrd) as (wrap & Ew).
    destruct (tile_read set Hl st gt b Nf Ld (conj Bx By) wrap Ew) as (Hp & Es & rows & Ec & Lr & Hd). set (pts := nonzero (tile_mask st b)) in *.
    destruct (Hok pts Hp) as (tri & Et & sc & Esc & Lsc). pose proof (Htri _ _ Et) as Pg.
    unfold unwrap_one_tile. rewrite (planar_solver gt Pgt). cbn [bind].
    change (map (map (above (st_threshold st))) (read_temporal_coherence st b)) with (tile_mask st b). fold pts. rewrite Et. cbn [bind].
    rewrite (planar_solver _ Pg). cbn [bind]. rewrite Ew. cbn [bind]. rewrite Es. cbn [nth]. change (g_npoints (delaunay (length pts) tri)) with (length pts).
    rewrite Nat.eqb_refl. cbn [negb]. rewrite Ec.
    destruct (C22_returns smcf (delaunay (length pts) tri) gt tsched ssched cpu
      (Emcf (dual_solver (delaunay (length pts) tri)) (dual_solver gt) set tdist tcent (sdist pts) (scent pts)) (Cube 2 0 rows) false tc sc) as (U & EU); auto using planar_solver, C21_slc_consistent.
    - exact (planar_solver _ Pg).
    - exact (planar_solver _ Pgt).
    - unfold classify, em_nepochs. cbn. rewrite dates_length in Lr. rewrite Lr, Ld, Nat.eqb_refl. reflexivity.
    - intros r I. cbn in I. apply (In_nth _ _ []) in I as (q & Bq & <-). change (g_npoints (delaunay (length pts) tri)) with (length pts). destruct (Hd q Bq) as [-> _]. lia.
    - rewrite EU. cbn [bind]. eauto.
  Qed.

  (** The whole workflow, with no assumption on the phases: every tile can be
      triangulated, in the coordinates of the tile and in those of the image; the
      unwrapped phases are below 2^14 cycles (overlaps are counted in 16 bits); two
      tiles share enough valid pixels unless there is one tile only; the solver of
      the chosen bulk method answers; the incomplete factorisation succeeds on every
      matrix that is not empty, and either on the empty one or no tile is covered by
      the others. *)
  Theorem C65_workflow st gt e s h w s' t :
    NoDup (map fst (st_files st)) -> hop3 (Z.of_nat (length (st_files st))) = Ok gt -> coh_shape st h w -> (0 < h)%Z -> (0 < w)%Z -> (h * w <= 2 ^ 32)%Z ->
    (forall d, In d (st_dates st) -> underscore_free d) ->
    (forall d1 d2, In d1 (st_dates st) -> In d2 (st_dates st) -> occurs ".tif" (stem (e_out e) (d1, d2)) = false) ->
    picks_in_range (e_pick e) -> tiler_post_init s' = Ok (e_tiler e) -> sched_ok e ->
    (forall n l, length (e_components e n l) = n) -> fresh e s ->
    readable st ->
    get_tiles (e_pick e) (e_root e) (e_use_tiles e) (e_tiler e) (stack_mask st) = Ok t ->
    time_costs_ok (length (g_links gt)) ->
    (forall q pts, q < ntiles t -> tile_pixels st (tile_at t q) pts ->
       exists tri, triangles pts = Ok tri /\ space_costs_ok pts (length (g_links (delaunay (length pts) tri))) /\
       exists tri, e_triangles e (map (place (tile_at t q)) pts) = Ok tri /\ planar (delaunay (length pts) tri)) ->
    (forall q k p f, ntiles t <> 1 -> q < ntiles t -> k < length (g_links gt) ->
       unwrap st gt (tile_at t q) = Ok f -> p < length (file_coords f) ->
       (Qabs (MergeSpec.phase_of f k p) <= twopi * inject_Z (2 ^ 14 - 1))%Q) ->
    e_method e = "dirichlet"%string -> (0 < e_parallel_tiles e)%Z -> (11 <= e_min_overlap e)%Z ->
    e_bulk_method e = "integer"%string /\ mip_sound (e_mip e) /\ mip_complete (e_mip e) /\ components_ok (e_components e) \/
    e_bulk_method e = "L2"%string /\ (forall a b, a <> [] -> length (e_lsq e a b) = length (nth 0 a [])) ->
    ntiles t = 1 \/ (exists u v, u < v < ntiles t /\ overlapping st (e_min_overlap e) (tile_at t u) (tile_at t v)) ->
    (forall a, a <> [] -> e_ilu e a = true) ->
    e_ilu e [] = true \/
      (forall u, u < ntiles t -> exists x, valid_pixel st x /\ has_pixel (tile_at t u) (fst x) (snd x) /\
         forall v, v < ntiles t -> v <> u -> ~ has_pixel (tile_at t v) (fst x) (snd x)) ->
    exists ws fn, run (cli unwrap st e) s = (ws, Ok fn).
  Proof using Hsm Hsc Htri Ht Hs Hl Hw.
    intros Nf Rg Csh Ph Pw Hhw Hus Htif Hpick Htil Hsch Hcc Hfr Hrd G Htc Hok Hrange Hmeth Hpar Hmin Hsolv Hov Hilu Hown.
    pose proof Rg as R0. apply hop3_is in R0 as [N4 Egt]. set (e' := stack_env st gt unwrap e) in *.
    assert (exists ws fn, run (main e') s = (ws, Ok fn)) as (ws & fn & R).
    2: { exists ws, fn. unfold cli. rewrite Rg. exact R. }
    assert (planar gt) as Pgt by (rewrite Egt; apply hop3_planar; auto).
    assert (length (st_files st) = g_npoints gt) as Ld by (rewrite Egt; reflexivity).
    assert (forall a b, In (a, b) (g_links gt) <-> a < b < length (st_dates st) /\ b - a <= 3) as Lk.
    { intros a b. rewrite Egt, dates_length. cbn [g_links hop3_graph]. now apply hop3_link_list_In. }
    assert (names_ok e') as Hn.
    { split; [|split; [|split]]; [|apply (pl_nodup gt Pgt)|exact Hus|exact Htif].
      cbn. unfold st_dates, dates_of. eapply Permutation_NoDup; [symmetry; apply sort_str_perm|exact Nf]. }
    assert (length (stack_mask st) = Z.to_nat h) as Lm by (unfold stack_mask; rewrite map_length; destruct Csh; lia).
    assert (forall i, i < length (stack_mask st) -> length (nth i (stack_mask st) []) = Z.to_nat w) as Lrow.
    { intros a Ba. unfold stack_mask in *. rewrite map_length in Ba. rewrite (nth_indep _ [] (map (above (st_threshold st)) [])) by (now rewrite map_length).
      rewrite map_nth, map_length. destruct Csh as [_ C]. specialize (C (nth a (st_coh st) []) (nth_In _ _ Ba)). lia. }
    assert (shape t = (h, w) /\ (forall b, In b (tiles t) -> box_in_image (h, w) b)) as [Sh Hbox].
    { assert (length (nth 0 (stack_mask st) []) = Z.to_nat w) as L0 by (apply Lrow; lia).
      pose proof G as G'. apply (C30_get_tiles _ _ _ _ s') in G' as (E1 & _ & E2 & _); auto; rewrite ?Lm, ?L0, ?Z2Nat.id in * by lia; try lia; try nia.
      - split; [exact E1|]. now apply Forall_forall.
      - intros a Ba. apply Lrow. lia. }
    assert (forall q, q < ntiles t -> (0 <= xmin (tile_at t q))%Z /\ (0 <= ymin (tile_at t q))%Z) as Hpos.
    { intros q Bq. specialize (Hbox (tile_at t q) (nth_In _ _ Bq)). unfold box_in_image in Hbox. lia. }
    (* the tile files *)
    assert (exists files, map_res (unwrap st gt) (tiles t) = Ok files) as (files & Efl).
    { apply map_res_total. intros b I. apply (In_nth _ _ (BBox 0 0 0 0)) in I as (q & Bq & <-). destruct (Hpos q Bq) as [B1 B2].
      apply (C65_tile st gt (tile_at t q)); auto. intros pts P. destruct (Hok q pts Bq P) as (tri & H1 & H2 & _). eauto. }
    apply map_res_nth in Efl as [L Hfiles0].
    assert (length files = ntiles t) as Ln by (unfold ntiles; lia).
    assert (forall q, q < ntiles t -> e_unwrap e' (tile_at t q) = Ok (nth q files dfile)) as Hfiles.
    { intros q Bq. apply Hfiles0 with (d' := dfile). exact Bq. }
    assert (forall q, q < ntiles t -> tf_tile (nth q files dfile) = tile_at t q /\ tile_bands (length (g_links gt)) (nth q files dfile) /\ StronglySorted before (tf_points (nth q files dfile)) /\
       (forall x, In x (file_coords (nth q files dfile)) <-> valid_pixel st x /\ has_pixel (tile_at t q) (fst x) (snd x)) /\
       (forall k i j p x, nth_error (g_links gt) k = Some (i, j) -> nth_error (file_coords (nth q files dfile)) p = Some x ->
         ifg_value st (nth i (st_dates st) ""%string) (nth j (st_dates st) ""%string) x (MergeSpec.phase_of (nth q files dfile) k p))) as HF.
    { intros q Bq. destruct (Hpos q Bq) as [B1 B2].
      destruct (C58_tile smcf triangles tsched ssched cpu set tdist tcent sdist scent Hsm Htri Ht Hs Hl st gt (tile_at t q) (nth q files dfile)) as (T1 & T2 & T3 & T4 & T5); auto. exact (Hfiles q Bq). }
    assert (exists fn, output_files e' = Ok fn) as (fn & Ho).
    { apply map_res_total. intros [a c] I. change (In (a, c) (g_links gt)) in I. apply Lk in I as [I _]. cbn [fst snd]. change (e_dates e') with (st_dates st).
      destruct (nth_error (st_dates st) a) eqn:E1; [|apply nth_error_None in E1; lia]. destruct (nth_error (st_dates st) c) eqn:E2; [|apply nth_error_None in E2; lia]. eauto. }
    destruct (outputs_pairs e' fn Ho) as [Efn _].
    assert (length fn = length (g_links gt)) as Lfn by (rewrite Efn, !map_length; reflexivity).
    assert (forall fl, In fl files -> exists q, q < ntiles t /\ fl = nth q files dfile) as Hfl.
    { intros fl J. apply (In_nth _ _ dfile) in J as (q & Bq & <-). exists q. split; [lia|reflexivity]. }
    assert (forall fl, In fl files -> NoDup (tf_points fl)) as Hnd.
    { intros fl J. destruct (Hfl fl J) as (q & Bq & ->). apply before_nodup, (HF q Bq). }
    assert (forall fl, In fl files -> in_grid h w (file_coords fl)) as Hgr.
    { intros fl J. destruct (Hfl fl J) as (q & Bq & ->). intros a c X. apply (HF q Bq) in X as [(z & X & _) _]. apply (image_in _ h w) in X; auto. }
    assert (forall fl x, In fl files -> In x (file_coords fl) -> in_shape (h, w) x = true) as Ins.
    { intros fl [a c] J X. specialize (Hgr fl J a c X). unfold in_shape. cbn in *. lia. }
    assert (forall fl, In fl files -> tile_bands (length (g_links gt)) fl) as Hbd.
    { intros fl J. destruct (Hfl fl J) as (q & Bq & ->). apply (HF q Bq). }
    (* points and triangles of a file *)
    assert (forall q, q < ntiles t -> tile_pixels st (tile_at t q) (tf_points (nth q files dfile)) /\
      file_coords (nth q files dfile) = map (place (tile_at t q)) (tf_points (nth q files dfile))) as Hpx.
    { intros q Bq. destruct (HF q Bq) as (T1 & _ & T3 & T4 & _). assert (file_coords (nth q files dfile) = map (place (tile_at t q)) (tf_points (nth q files dfile))) as Ef.
      { unfold file_coords. rewrite T1. reflexivity. }
      split; [|exact Ef]. split; [exact T3|]. intros p.
      assert (has_pixel (tile_at t q) (fst (place (tile_at t q) p)) (snd (place (tile_at t q) p)) <->
        (0 <= fst p < xmax (tile_at t q) - xmin (tile_at t q))%Z /\ (0 <= snd p < ymax (tile_at t q) - ymin (tile_at t q))%Z) as Eh.
      { unfold has_pixel, place. cbn [fst snd]. lia. }
      rewrite <- Eh, <- T4, Ef. split; [apply in_map|]. intros I. apply in_map_iff in I as (p' & E & I). 
      assert (p' = p) as <-; [|exact I]. unfold place in E. injection E as E1 E2. destruct p, p'. cbn in *. f_equal; lia. }
    exists (fst (run (main e') s)), fn.
    assert (exists ws, run (main e') s = (ws, Ok fn)) as (ws & R); [|rewrite R; reflexivity].
    apply (main_total e' s t files fn); auto.
    { intros N1 k Bk. rewrite Sh. apply (single_total_band _ _ _ (length (g_links gt))); [apply (HF 0); lia|lia|].
      intros x. apply Ins, nth_In. lia. }
    intros N1. destruct Hov as [?|(u0 & v0 & Buv & Ouv)]; [contradiction|].
    assert (forall q x p, found files x q p -> q < ntiles t /\ nth_error (file_coords (nth q files dfile)) p = Some x) as Fnd.
    { intros q x p (fl & E1 & E2). rewrite (nth_error_nth _ _ _ E1). split; [rewrite <- Ln; apply nth_error_Some; congruence|exact E2]. }
    assert (forall k i j p p' x, k < length (g_links gt) -> found files x i p -> found files x j p' ->
      exists n, (Z.abs n <= 32767)%Z /\ (MergeSpec.phase_of (nth j files dfile) k p' - MergeSpec.phase_of (nth i files dfile) k p == twopi * inject_Z n)%Q) as Hwh.
    { intros k i j p p' x Bk Fi Fj. pose proof (Fnd _ _ _ Fi) as [Bi Ei]. pose proof (Fnd _ _ _ Fj) as [Bj Ej].
      destruct (nth_error (g_links gt) k) as [[a c]|] eqn:Ek; [|apply nth_error_None in Ek; lia].
      destruct (HF i Bi) as (_ & _ & _ & _ & V1). destruct (HF j Bj) as (_ & _ & _ & _ & V2).
      destruct (V1 k a c p x Ek Ei) as (y1 & y2 & S1 & S2 & C1). destruct (V2 k a c p' x Ek Ej) as (y1' & y2' & S1' & S2' & C2).
      rewrite S1 in S1'. injection S1' as <-. rewrite S2 in S2'. injection S2' as <-. destruct C1 as (n1 & C1), C2 as (n2 & C2).
      pose proof (Hrange i k p _ N1 Bi Bk (Hfiles i Bi) ltac:(apply nth_error_Some; congruence)) as R1.
      pose proof (Hrange j k p' _ N1 Bj Bk (Hfiles j Bj) ltac:(apply nth_error_Some; congruence)) as R2.
      exists (n2 - n1)%Z. split; [|rewrite inject_Z_sub; lra].
      apply Qabs_Qle_condition in R1, R2. pose proof twopi_pos as Tp.
      assert (twopi * inject_Z (n2 - n1) <= twopi * inject_Z (2 * (2 ^ 14 - 1)))%Q as U1.
      { rewrite inject_Z_sub, inject_Z_mult. change (inject_Z 2) with 2%Q. lra. }
      assert (twopi * inject_Z (- (2 * (2 ^ 14 - 1))) <= twopi * inject_Z (n2 - n1))%Q as U2.
      { rewrite inject_Z_sub, inject_Z_opp, inject_Z_mult. change (inject_Z 2) with 2%Q. lra. }
      apply Qmult_le_l in U1; [|exact Tp]. apply Qmult_le_l in U2; [|exact Tp]. rewrite <- Zle_Qle in U1, U2. lia. }
    assert (forall fl, In fl files -> exists tri, e_triangles e' (file_coords fl) = Ok tri /\ planar (delaunay (length (file_coords fl)) tri)) as Htr.
    { intros fl J. destruct (Hfl fl J) as (q & Bq & ->). destruct (Hpx q Bq) as [P E]. destruct (Hok q _ Bq P) as (_ & _ & _ & tri & T1 & T2).
      exists tri. rewrite E, map_length. auto. }
    assert (forall fl, In fl files -> tf_points fl <> []) as Hne.
    { intros fl J. destruct (Hfl fl J) as (q & Bq & ->). destruct (Hpx q Bq) as [P E]. destruct (Hok q _ Bq P) as (tri & T1 & _). intros X. 
      pose proof (Htri _ _ T1) as Pl. rewrite X in Pl. destruct (planar_lap_n _ Pl) as [_ Z0]. unfold lap_n in Z0. cbn in Z0. lia. }
    destruct (overlaps_any (e_components e') (e_min_overlap e') files t h w Ln (fun q Bq => proj1 (HF q Bq)) Hnd Hgr Hhw (length (g_links gt)) Hbd Hwh) as (f & Ecp); auto.
    assert (forall a b, a < b -> b < ntiles t -> overlapping st (e_min_overlap e) (tile_at t a) (tile_at t b) -> In (a, b) (of_overlaps f)) as Hrecd.
    { intros a b Lab Bb (l & Ndl & Nel & Cl & Vl).
      assert (incl l (common_pixels (nth a files dfile) (nth b files dfile))) as Inc.
      { intros x Ix. apply in_common. destruct (Vl x Ix) as (V1 & V2 & V3). split; [apply (HF a ltac:(lia))|apply (HF b Bb)]; auto. }
      pose proof (NoDup_incl_length Ndl Inc) as Le.
      apply (computed_pair (e_components e') (e_min_overlap e') files t f h w Ecp Hcc Ln); auto.
      - intros q Bq. apply HF, Bq.
      - intros q x Bq X. apply (HF q Bq), X.
      - intros X. rewrite X in Le. destruct l; [contradiction|cbn in Le; lia].
      - change (e_min_overlap e') with (e_min_overlap e). lia. }
    assert (of_overlaps f <> []) as Nov.
    { intros X. assert (In (u0, v0) (of_overlaps f)) as I by (apply Hrecd; [lia|lia|exact Ouv]). rewrite X in I. destruct I. }
    destruct (bulk_any (e_components e') (e_min_overlap e') files t h w Hcc Ln (fun q Bq => proj1 (HF q Bq)) Hnd Hgr Hhw (length (g_links gt)) Hbd
      f (e_mip e') (e_lsq e') (e_bulk_method e') (e_valid e') Ecp Nov) as (bulk & rr & Egb).
    { destruct Hsolv as [(S1 & S2 & S3 & S4)|[S1 _]]; [left|right]; auto. }
    assert (sound_files f files) as Hsf.
    { split; [intros X; rewrite X in Ln; cbn in Ln; lia|]. split.
      - intros fl J. split; [exact (proj2 (proj2 (Hbd fl J)))|apply Hnd, J].
      - apply (computed_recorded (e_components e') (e_min_overlap e') files t f h w Ecp Hcc Ln); auto.
        intros q Bq. apply (HF q Bq). }
    assert (exists omap, overlap_map f = Ok omap) as (omap & Eom).
    { eexists. apply (overlap_map_ok f (map (fun fl => Tile fl [] [] [] 0) files)). apply Hsf. rewrite map_map. apply map_id. }
    destruct (max_degree_total files (h, w) Ins Ph Pw) as (m & Em).
    exists f, omap, m, bulk, rr. split; [exact Ecp|]. split; [exact Egb|]. split; [exact Eom|]. split; [now rewrite Sh|].
    assert (0 < length (g_links gt)) as Pos.
    { assert (In (0, 1) (g_links gt)) as I by (apply Lk; rewrite dates_length; lia). destruct (g_links gt); [destruct I|cbn; lia]. }
    split; [intros X; rewrite X in Lfn; cbn in Lfn; lia|]. split; [exact Hsf|]. intros k Bk. rewrite Sh.
    assert (k < length (g_links gt)) as Bkl by lia.
    destruct (bulk_shape (e_components e') (e_min_overlap e') files t h w Hcc Ln (fun q Bq => proj1 (HF q Bq)) Hnd Hgr Hhw (length (g_links gt)) Hbd
      f _ _ _ _ _ _ k Ecp Egb) as (Lb1 & Lb2); auto.
    { intros Em'. destruct Hsolv as [(_ & S2 & _)|[S1 _]]; [exact S2|]. change (e_bulk_method e') with (e_bulk_method e) in Em'. congruence. }
    { intros Em'. destruct Hsolv as [(S1 & _)|[_ S]]; [|exact S]. change (e_bulk_method e') with (e_bulk_method e) in Em'. congruence. }
    apply (alone_total e' f omap m bulk (h, w) files (length (g_links gt)) k Hsf Eom Hbd Bkl); auto.
    - rewrite Lb1, Lb2. auto.
    - destruct Hown as [H0|H0]; [now left|right]. intros q Bq. rewrite Ln in *. destruct (H0 q Bq) as (x & V & P & U). exists x. split; [apply (HF q Bq); auto|].
      intros j Bj Nj X. apply (HF j Bj) in X as [_ X]. exact (U j Bj Nj X).
  Qed.
End Any.

(** * A case *)

(** Seven by two pixels cut into four tiles, phases with no regularity, and a solver
    that can be run. *)
Definition rough_image (t : nat) : list (list Q) :=
  map (fun r => map (fun c => inject_Z (Z.of_nat ((t * (r * r + 3 * c + 5 * t)) mod 13)) * (1 # 2))%Q [0; 1]) (seq 0 7).
Definition rough_stack : slc_stack Q :=
  SlcStack [("20200101", None); ("20200113", Some "a"); ("20200125", Some "b"); ("20200206", Some "c")]%string
    (map (fun r => [Some (4 # 5)%Q; Some (4 # 5)%Q]) (seq 0 7)) (1 # 2)
    (fun f => if String.eqb f "a" then Some (rough_image 1) else if String.eqb f "b" then Some (rough_image 2) else if String.eqb f "c" then Some (rough_image 3) else None).
Definition rough_env : env :=
  Env "tmp" "out" [] [] [] (fun _ => Err ValueError) (@rev nat) true (TilerSettings 4 4 100 (3 # 2)) 2 11 "dirichlet" "integer" 1 pick_rows (fun _ => 2%Z)
      labels_of brute_mip exact_lsq (fun _ b => map (fun _ => 0%Q) b) (fun _ => true) px_triangles.
Definition rough_tiles : tileset := TileSet (7, 2)%Z [BBox 0 0 2 2; BBox 0 0 6 2; BBox 0 0 7 2; BBox 2 0 7 2].
Definition rough_unwrap := unwrap_one_tile cert_smcf px_triangles (fun _ l => rev l) (@rev nat) 4 (Settings Constant Constant 2 0 0) [] [] (fun _ => []) (fun _ => []).

(** There are residues in time. *)
Example rough_residues : match SlcModel.read_tile 0%Q rough_stack (BBox 0 0 7 2) with
  | Ok wrap => existsb (fun l => existsb (fun z => negb (z =? 0)%Z)
      (time_residues (dual_solver (hop3_graph 4)) (link_column false (hop3_link_list 4) (cu_data (cube_of wrap)) l))) [(0, 1); (0, 2); (4, 6); (6, 8)]
  | Err _ => false end = true.
Proof. vm_compute. reflexivity. Qed.

Definition small_phases (f : tile_file) : bool :=
  forallb (fun k => forallb (fun p => Qle_bool (Qabs (MergeSpec.phase_of f k p)) (twopi * inject_Z (2 ^ 14 - 1))) (seq 0 (length (file_coords f)))) (seq 0 6).
Lemma rough_small : forallb (fun b => match rough_unwrap rough_stack (hop3_graph 4) b with Ok f => small_phases f | Err _ => true end) (tiles rough_tiles) = true.
Proof. vm_cast_no_check (eq_refl true). Qed.

Lemma rough_readable : readable rough_stack.
Proof.
  intros d f. cbn [rough_stack st_files dict_get fst snd].
  repeat (destruct (String.eqb _ _); [intros E; first [discriminate E|injection E as <-; eexists; split; [reflexivity|vm_compute; reflexivity]]|]); discriminate.
Qed.

Example rough_tiling : get_tiles pick_rows (fun _ => 2%Z) true (TilerSettings 4 4 100 (3 # 2)) (stack_mask rough_stack) = Ok rough_tiles.
Proof. vm_compute. reflexivity. Qed.
Lemma rough_coh : coh_shape rough_stack 7 2.
Proof. split; [reflexivity|]. intros row I. vm_compute in I. repeat (destruct I as [<-|I]; [reflexivity|]). destruct I. Qed.
Lemma rough_triangles q pts : q < 4 -> tile_pixels rough_stack (tile_at rough_tiles q) pts ->
  (exists tri, px_triangles pts = Ok tri) /\
  exists tri, e_triangles rough_env (map (place (tile_at rough_tiles q)) pts) = Ok tri /\ planar (delaunay (length pts) tri).
Proof.
  intros B P. assert (3 <= length pts) as L.
  { assert (forall b, (0 <= xmin b)%Z -> (0 <= ymin b)%Z -> tile_pixels rough_stack b pts -> length pts = length (nonzero (tile_mask rough_stack b))) as K.
    { intros b B1 B2 P'. f_equal. eapply tile_pixels_unique; [exact P'|]. now apply mask_pixels. }
    destruct q as [|[|[|[|]]]]; try lia; (apply K in P; [rewrite P; apply Nat.leb_le; vm_compute; reflexivity|cbn; lia|cbn; lia]). }
  split.
  - unfold px_triangles. destruct (Nat.ltb_spec (length pts) 3); [lia|eauto].
  - exists (strip (length pts)). split; [|now apply strip_planar]. unfold rough_env, e_triangles, px_triangles. rewrite map_length. destruct (Nat.ltb_spec (length pts) 3); [lia|reflexivity].
Qed.
Lemma rough_overlapping : overlapping rough_stack 11 (tile_at rough_tiles 1) (tile_at rough_tiles 2).
Proof.
  exists (list_prod [0; 1; 2; 3; 4; 5]%Z [0; 1]%Z). split; [|split; [discriminate|split; [cbn; lia|]]].
  - apply nodup_prod; repeat constructor; cbn; intuition lia.
  - intros [r c] I. cbn in I. repeat (destruct I as [[= <- <-]|I]; [split; [exists (4 # 5)%Q; split; reflexivity|unfold has_pixel; cbn; lia]|]). destruct I.
Qed.

Example C65_witness : exists ws fn, run (cli rough_unwrap rough_stack rough_env) wf_empty = (ws, Ok fn).
Proof.
  assert (NoDup (map fst (st_files rough_stack))) as H1 by (repeat constructor; cbn; intuition discriminate).
  assert (forall d, In d (st_dates rough_stack) -> underscore_free d) as H3.
  { intros d I; vm_compute in I; repeat (destruct I as [<-|I]; [reflexivity|]); destruct I. }
  assert (forall d1 d2, In d1 (st_dates rough_stack) -> In d2 (st_dates rough_stack) -> occurs ".tif" (stem "out" (d1, d2)) = false) as H4.
  { intros d1 d2 I1 I2; vm_compute in I1, I2; repeat (destruct I1 as [<-|I1]; [repeat (destruct I2 as [<-|I2]; [reflexivity|]); destruct I2|]); destruct I1. }
  assert (sched_ok rough_env) as H7 by (intros l; apply Permutation_sym, Permutation_rev).
  assert (fresh rough_env wf_empty) as H9 by (intros n _; reflexivity).
  destruct (C65_workflow cert_smcf px_triangles (fun _ l => rev l) (@rev nat) 4 (Settings Constant Constant 2 0 0) [] [] (fun _ => []) (fun _ => [])
    cert_smcf_sound px_planar (fun _ l => Permutation_sym (Permutation_rev l)) (fun l => Permutation_sym (Permutation_rev l)) ltac:(cbn; lia) cert_smcf_complete ltac:(cbn; lia)
    rough_stack (hop3_graph 4) rough_env wf_empty 7 2 (TilerSettings 4 4 100 (3 # 2)) rough_tiles
    H1 eq_refl rough_coh ltac:(lia) ltac:(lia) ltac:(lia) H3 H4 pick_rows_ok eq_refl H7 (proj1 components_witness) H9 rough_readable rough_tiling)
    as (ws & fn & R); auto.
  - exists (repeat 1%Z 6). split; [reflexivity|]. split; [reflexivity|]. split; [|vm_compute; discriminate]. intros x I. apply repeat_spec in I. lia.
  - intros q pts Bq P. destruct (rough_triangles q pts Bq P) as [(tri & T) T2]. exists tri. split; [exact T|]. split; [|exact T2].
    eexists. split; [reflexivity|]. apply repeat_length.
  - intros q k p f _ Bq Bk Ef Bp. pose proof rough_small as K. rewrite forallb_forall in K. specialize (K (tile_at rough_tiles q) ltac:(apply nth_In; exact Bq)).
    unfold rough_unwrap in K. rewrite Ef in K. unfold small_phases in K. rewrite forallb_forall in K. specialize (K k ltac:(apply in_seq; cbn in Bk; lia)).
    rewrite forallb_forall in K. specialize (K p ltac:(apply in_seq; lia)). now apply Qle_bool_iff.
  - reflexivity.
  - cbn; lia.
  - left. split; [reflexivity|]. split; [apply brute_mip_sound|]. split; [apply brute_mip_complete|apply components_witness].
  - right. exists 1, 2. split; [cbn; lia|]. apply rough_overlapping.
  - eauto.
Qed.

Print Assumptions C65_tile.
Print Assumptions C65_workflow.
