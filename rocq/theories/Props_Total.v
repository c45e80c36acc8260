(** C60: on a smooth history the workflow runs to its end. *)
From Verif Require Import Base BaseLemmas PoolProofs GraphModel GraphSpec GraphProofs Hop3Proofs McfModel McfSpec DualProofs ResidueProofs PhaseProofs EmcfModel StripProofs
  TileModel TileSpec Props_Tile NamesModel NamesProofs OverlapModel OverlapSpec BulkModel BulkSpec BulkProofs LaplacianProofs MergeModel MergeSpec AdjustProofs MergeBatchProofs
  WorkflowModel WorkflowSpec WorkflowProofs WorkflowMain DescribeProofs Props_Merge Props_Workflow SlcModel SlcSpec SlcProofs Props_Slc UnwrapTileModel
  UnwrapTileProofs PipelineSpec PipelineProofs Props_Pipeline ExactSpec ExactTileProofs ExactMergeProofs ExactBulkProofs ExactRunProofs ExactWitness Props_Exact
  TotalProofs TotalRunProofs TotalMergeProofs.
From Coq Require Import List Permutation FinFun Sorting.Sorted ZifyBool Lqa.
Import ListNotations.
Set Default Goal Selector "!".
Local Open Scope nat_scope.
Opaque twopi.

Lemma pick_total ct n a b : ct <> OtherCost -> exists c, pick_cost ct n a b = Ok c.
Proof. destruct ct; cbn; eauto. congruence. Qed.

Section Total.
  Context (smcf : list arc -> list Z -> option (list Z))
          (triangles : list (Z * Z) -> res (list (nat * nat * nat)))
          (tsched : nat -> list nat -> list nat) (ssched : list nat -> list nat) (cpu : Z)
          (set : settings) (tdist tcent : list Z) (sdist scent : list (Z * Z) -> list Z).
  (* the network solver, the triangulation and the worker pools *)
  Hypothesis Hsm : smcf_sound smcf.
  Hypothesis Htri : forall pts tri, triangles pts = Ok tri -> planar (delaunay (length pts) tri).
  Hypothesis Ht : forall b l, Permutation (tsched b l) l.
  Hypothesis Hs : forall l, Permutation (ssched l) l.
  (* the settings *)
  Hypothesis Hl : 0 < links_per_batch set.
  Hypothesis Hct : t_cost_type set <> OtherCost.
  Hypothesis Hcs : s_cost_type set <> OtherCost.
  Hypothesis Hw : (1 <= space_workers (s_worker_count set) cpu)%Z.
  Notation unwrap := (unwrap_one_tile smcf triangles tsched ssched cpu set tdist tcent sdist scent).

  (** One tile that can be triangulated. The network solver is not relied on: it
      is never called. *)
  Theorem C60_tile st Phi gt b : hop3 (Z.of_nat (length (st_files st))) = Ok gt -> NoDup (map fst (st_files st)) ->
    (0 <= xmin b)%Z -> (0 <= ymin b)%Z -> readable st -> history st Phi -> smooth triangles st Phi b ->
    (forall pts, tile_pixels st b pts -> exists tri, triangles pts = Ok tri) ->
    exists f, unwrap st gt b = Ok f.
  Proof using Htri Ht Hs Hl Hct Hcs Hw.
    intros G Nf Bx By Hrd Hh Hsm' Hok. apply hop3_is in G as [N4 Egt].
    assert (planar gt) as Pgt by (rewrite Egt; apply hop3_planar; auto).
    assert (length (st_files st) = g_npoints gt) as Ld by (rewrite Egt; reflexivity).
    assert (forall i j, In (i, j) (g_links gt) -> i < j < length (st_dates st) /\ j - i <= 3) as Lk.
    { intros a c I. rewrite Egt in I. cbn [g_links hop3_graph] in I. apply hop3_link_list_In in I; auto. rewrite dates_length. exact I. }
    destruct (C50_reads 0%Q st b Nf Hrd) as (wrap & Ew).
    destruct (tile_read set Hl st gt b Nf Ld (conj Bx By) wrap Ew) as (Hp & Es & rows & Ec & _). set (pts := nonzero (tile_mask st b)) in *.
    destruct (Hok pts Hp) as (tri & Et). pose proof (Htri _ _ Et) as Pg.
    unfold unwrap_one_tile. rewrite (planar_solver gt Pgt). cbn [bind].
    change (map (map (above (st_threshold st))) (read_temporal_coherence st b)) with (tile_mask st b). fold pts. rewrite Et. cbn [bind].
    rewrite (planar_solver _ Pg). cbn [bind]. rewrite Ew. cbn [bind]. rewrite Es. cbn [nth]. change (g_npoints (delaunay (length pts) tri)) with (length pts).
    rewrite Nat.eqb_refl. cbn [negb].
    destruct (pick_total (t_cost_type set) (length (g_links gt)) tdist tcent Hct) as (tc & Etc).
    destruct (pick_total (s_cost_type set) (length (g_links (delaunay (length pts) tri))) (sdist pts) (scent pts) Hcs) as (sc & Esc).
    destruct (solved smcf triangles tsched ssched cpu set tdist tcent sdist scent Htri Ht Hs Hl st gt b Phi Pgt Lk Nf Ld (conj Bx By) Hh Hsm'
      wrap tri (dual_solver (delaunay (length pts) tri)) (dual_solver gt) rows tc sc Ew Ec Et (planar_solver gt Pgt) (planar_solver _ Pg) Etc Esc Hw) as (U & EU & _).
    fold pts in EU. rewrite EU. cbn [bind]. eauto.
  Qed.

  (** The whole workflow. Every tile can be triangulated, in the coordinates of the
      tile and in those of the image; the true phases are below 2^14 cycles; there
      are two tiles that share enough valid pixels unless there is one tile only;
      the incomplete factorisation succeeds on every matrix that is not empty, and
      either on the empty one or no tile is covered by the others. *)
  Theorem C60_workflow st Phi e s h w s' t :
    NoDup (map fst (st_files st)) -> (4 <= length (st_files st)) -> coh_shape st h w -> (0 < h)%Z -> (0 < w)%Z -> (h * w <= 2 ^ 32)%Z ->
    (forall d, In d (st_dates st) -> underscore_free d) ->
    (forall d1 d2, In d1 (st_dates st) -> In d2 (st_dates st) -> occurs ".tif" (stem (e_out e) (d1, d2)) = false) ->
    picks_in_range (e_pick e) -> tiler_post_init s' = Ok (e_tiler e) -> sched_ok e ->
    (forall n l, length (e_components e n l) = n) -> fresh e s ->
    readable st -> history st Phi ->
    get_tiles (e_pick e) (e_root e) (e_use_tiles e) (e_tiler e) (stack_mask st) = Ok t ->
    (forall q, q < ntiles t -> smooth triangles st Phi (tile_at t q)) ->
    (forall q pts, q < ntiles t -> tile_pixels st (tile_at t q) pts ->
       (exists tri, triangles pts = Ok tri) /\
       exists tri, e_triangles e (map (place (tile_at t q)) pts) = Ok tri /\ planar (delaunay (length pts) tri)) ->
    (forall i j x, i < j < length (st_dates st) -> j - i <= 3 -> valid_pixel st x ->
       (Qabs (true_ifg Phi (nth i (st_dates st) ""%string) (nth j (st_dates st) ""%string) x) <= twopi * inject_Z (2 ^ 14 - 1))%Q) ->
    e_method e = "dirichlet"%string -> (0 < e_parallel_tiles e)%Z -> (11 <= e_min_overlap e)%Z ->
    bulk_solver_ok (e_components e) (e_mip e) (e_lsq e) (e_bulk_method e)
      (forall u v, u < ntiles t -> v < ntiles t -> linked st (e_min_overlap e) t u v) ->
    e_bulk_method e = "integer"%string /\ mip_complete (e_mip e) \/ e_bulk_method e = "L2"%string ->
    ntiles t = 1 \/ (exists u v, u < v < ntiles t /\ overlapping st (e_min_overlap e) (tile_at t u) (tile_at t v)) ->
    (forall a, a <> [] -> e_ilu e a = true) ->
    e_ilu e [] = true \/
      (forall u, u < ntiles t -> exists x, valid_pixel st x /\ has_pixel (tile_at t u) (fst x) (snd x) /\
         forall v, v < ntiles t -> v <> u -> ~ has_pixel (tile_at t v) (fst x) (snd x)) ->
    exists ws fn, run (cli unwrap st e) s = (ws, Ok fn).
  Proof using Hsm Htri Ht Hs Hl Hct Hcs Hw.
    intros Nf N4 Csh Ph Pw Hhw Hus Htif Hpick Htil Hsch Hcc Hfr Hrd Hh G Hsmo Hok Hrange Hmeth Hpar Hmin Hbs Hsolv Hov Hilu Hown.
    assert (exists gt, hop3 (Z.of_nat (length (st_files st))) = Ok gt) as (gt & Rg).
    { rewrite hop3_ok by auto. eauto. }
    pose proof Rg as R0. apply hop3_is in R0 as [_ Egt]. set (e' := stack_env st gt unwrap e) in *.
    assert (exists ws fn, run (main e') s = (ws, Ok fn)) as (ws & fn & R).
    2: { exists ws, fn. unfold cli. rewrite Rg. exact R. }
    assert (planar gt) as Pgt by (rewrite Egt; apply hop3_planar; auto).
    assert (length (st_files st) = g_npoints gt) as Ld by (rewrite Egt; reflexivity).
    assert (forall a b, In (a, b) (g_links gt) <-> a < b < length (st_dates st) /\ b - a <= 3) as Lk.
    { intros a b. rewrite Egt, dates_length. cbn [g_links hop3_graph]. now apply hop3_link_list_In. }
    assert (names_ok e') as Hn.
    { split; [|split; [|split]]; [|apply (pl_nodup gt Pgt)|exact Hus|exact Htif].
      cbn. unfold st_dates, dates_of. eapply Permutation_NoDup; [symmetry; apply sort_str_perm|exact Nf]. }
    assert (length (stack_mask st) = Z.to_nat h) as Lm by (unfold stack_mask; rewrite map_length; destruct Csh; lia).
    assert (forall i, i < length (stack_mask st) -> length (nth i (stack_mask st) []) = Z.to_nat w) as Lrow.
    { intros a Ba. unfold stack_mask in *. rewrite map_length in Ba. rewrite (nth_indep _ [] (map (above (st_threshold st)) [])) by (now rewrite map_length).
      rewrite map_nth, map_length. destruct Csh as [_ C]. specialize (C (nth a (st_coh st) []) (nth_In _ _ Ba)). lia. }
    assert (shape t = (h, w) /\ (forall b, In b (tiles t) -> box_in_image (h, w) b)) as [Sh Hbox].
    { assert (length (nth 0 (stack_mask st) []) = Z.to_nat w) as L0 by (apply Lrow; lia).
      pose proof G as G'. apply (C30_get_tiles _ _ _ _ s') in G' as (E1 & _ & E2 & _); auto; rewrite ?Lm, ?L0, ?Z2Nat.id in * by lia; try lia; try nia.
      - split; [exact E1|]. now apply Forall_forall.
      - intros a Ba. apply Lrow. lia. }
    assert (forall q, q < ntiles t -> (0 <= xmin (tile_at t q))%Z /\ (0 <= ymin (tile_at t q))%Z) as Hpos.
    { intros q Bq. specialize (Hbox (tile_at t q) (nth_In _ _ Bq)). unfold box_in_image in Hbox. lia. }
    (* the tile files *)
    assert (exists files, map_res (unwrap st gt) (tiles t) = Ok files) as (files & Efl).
    { apply map_res_total. intros b I. apply (In_nth _ _ (BBox 0 0 0 0)) in I as (q & Bq & <-). destruct (Hpos q Bq) as [B1 B2].
      apply (C60_tile st Phi gt (tile_at t q)); auto. intros pts P. apply (Hok q pts Bq P). }
    apply map_res_nth in Efl as [L Hfiles0].
    assert (length files = ntiles t) as Ln by (unfold ntiles; lia).
    assert (forall q, q < ntiles t -> e_unwrap e' (tile_at t q) = Ok (nth q files dfile)) as Hfiles.
    { intros q Bq. apply Hfiles0 with (d' := dfile). exact Bq. }
    assert (forall q, q < ntiles t -> tf_tile (nth q files dfile) = tile_at t q /\ tile_bands (length (g_links gt)) (nth q files dfile) /\ StronglySorted before (tf_points (nth q files dfile)) /\
       (forall x, In x (file_coords (nth q files dfile)) <-> valid_pixel st x /\ has_pixel (tile_at t q) (fst x) (snd x))) as HF.
    { intros q Bq. destruct (Hpos q Bq) as [B1 B2].
      destruct (C58_tile smcf triangles tsched ssched cpu set tdist tcent sdist scent Hsm Htri Ht Hs Hl st gt (tile_at t q) (nth q files dfile)) as (T1 & T2 & T3 & T4 & _); auto. exact (Hfiles q Bq). }
    assert (exists fn, output_files e' = Ok fn) as (fn & Ho).
    { apply map_res_total. intros [a c] I. change (In (a, c) (g_links gt)) in I. apply Lk in I as [I _]. cbn [fst snd]. change (e_dates e') with (st_dates st).
      destruct (nth_error (st_dates st) a) eqn:E1; [|apply nth_error_None in E1; lia]. destruct (nth_error (st_dates st) c) eqn:E2; [|apply nth_error_None in E2; lia]. eauto. }
    destruct (outputs_pairs e' fn Ho) as [Efn _].
    assert (length fn = length (g_links gt)) as Lfn by (rewrite Efn, !map_length; reflexivity).
    assert (forall fl, In fl files -> exists q, q < ntiles t /\ fl = nth q files dfile) as Hfl.
    { intros fl J. apply (In_nth _ _ dfile) in J as (q & Bq & <-). exists q. split; [lia|reflexivity]. }
    assert (forall fl, In fl files -> NoDup (tf_points fl)) as Hnd.
    { intros fl J. destruct (Hfl fl J) as (q & Bq & ->). apply before_nodup, (HF q Bq). }
    assert (forall fl, In fl files -> in_grid h w (file_coords fl)) as Hgr.
    { intros fl J. destruct (Hfl fl J) as (q & Bq & ->). intros a c X. apply (HF q Bq) in X as [(z & X & _) _]. apply (image_in _ h w) in X; auto. }
    assert (forall fl x, In fl files -> In x (file_coords fl) -> in_shape (h, w) x = true) as Ins.
    { intros fl [a c] J X. specialize (Hgr fl J a c X). unfold in_shape. cbn in *. lia. }
    assert (forall fl, In fl files -> tile_bands (length (g_links gt)) fl) as Hbd.
    { intros fl J. destruct (Hfl fl J) as (q & Bq & ->). apply (HF q Bq). }
    (* points and triangles of a file *)
    assert (forall q, q < ntiles t -> tile_pixels st (tile_at t q) (tf_points (nth q files dfile)) /\
      file_coords (nth q files dfile) = map (place (tile_at t q)) (tf_points (nth q files dfile))) as Hpx.
    { intros q Bq. destruct (HF q Bq) as (T1 & _ & T3 & T4). assert (file_coords (nth q files dfile) = map (place (tile_at t q)) (tf_points (nth q files dfile))) as Ef.
      { unfold file_coords. rewrite T1. reflexivity. }
      split; [|exact Ef]. split; [exact T3|]. intros p.
      assert (has_pixel (tile_at t q) (fst (place (tile_at t q) p)) (snd (place (tile_at t q) p)) <->
        (0 <= fst p < xmax (tile_at t q) - xmin (tile_at t q))%Z /\ (0 <= snd p < ymax (tile_at t q) - ymin (tile_at t q))%Z) as Eh.
      { unfold has_pixel, place. cbn [fst snd]. lia. }
      rewrite <- Eh, <- T4, Ef. split; [apply in_map|]. intros I. apply in_map_iff in I as (p' & E & I). 
      assert (p' = p) as <-; [|exact I]. unfold place in E. injection E as E1 E2. destruct p, p'. cbn in *. f_equal; lia. }
    exists (fst (run (main e') s)), fn.
    assert (exists ws, run (main e') s = (ws, Ok fn)) as (ws & R); [|rewrite R; reflexivity].
    apply (main_total e' s t files fn); auto.
    { intros N1 k Bk. rewrite Sh. apply (single_total_band _ _ _ (length (g_links gt))); [apply (HF 0); lia|lia|].
      intros x. apply Ins, nth_In. lia. }
    intros N1. destruct Hov as [?|(u0 & v0 & Buv & Ouv)]; [contradiction|].
    (* the cycles of a tile *)
    set (D := fun k x => true_ifg Phi (nth (fst (nth k (g_links gt) (0, 0))) (st_dates st) ""%string) (nth (snd (nth k (g_links gt) (0, 0))) (st_dates st) ""%string) x).
    set (M := fun k q => match file_coords (nth q files dfile) with [] => 0%Z | x0 :: _ => Qfloor ((MergeSpec.phase_of (nth q files dfile) k 0 - D k x0) / twopi) end).
    assert (forall k' q, k' < length (g_links gt) -> q < ntiles t ->
       (forall p x, nth_error (file_coords (nth q files dfile)) p = Some x -> (MergeSpec.phase_of (nth q files dfile) k' p == D k' x + twopi * inject_Z (M k' q))%Q) /\
       (forall x, nth_error (file_coords (nth q files dfile)) 0 = Some x -> (- half <= MergeSpec.phase_of (nth q files dfile) k' 0 <= half)%Q)) as HM.
    { intros k' q Bk' Bq. destruct (nth k' (g_links gt) (0, 0)) as [i' j'] eqn:Ek'. destruct (Hpos q Bq) as [P1 P2].
      assert (nth_error (g_links gt) k' = Some (i', j')) as Ek2 by (rewrite <- Ek'; now apply nth_error_nth').
      destruct (C59_tile smcf triangles tsched ssched cpu set tdist tcent sdist scent Htri Ht Hs Hl
        st Phi gt (tile_at t q) (nth q files dfile) k' i' j' Rg Nf P1 P2 Hh (Hsmo q Bq) (Hfiles q Bq) Ek2) as (m & H1 & H2).
      split; [|exact H2]. intros p x Ex. unfold M, D. rewrite Ek'. cbn [fst snd].
      assert (exists x0 l, file_coords (nth q files dfile) = x0 :: l) as (x0 & l & E0) by (apply nth_error_In in Ex; destruct (file_coords (nth q files dfile)); [destruct Ex|eauto]).
      rewrite E0. rewrite (H1 p x Ex). pose proof (H1 0 x0 ltac:(now rewrite E0)) as Hx0. pose proof twopi_pos as Tp.
      assert (Qfloor ((MergeSpec.phase_of (nth q files dfile) k' 0 - true_ifg Phi (nth i' (st_dates st) ""%string) (nth j' (st_dates st) ""%string) x0) / twopi) = m) as ->; [|reflexivity].
      rewrite <- (Qfloor_Z m). apply Qfloor_comp. rewrite Hx0. field. intros X. rewrite X in Tp. now apply Qlt_irrefl in Tp. }
    assert (forall k q, k < length (g_links gt) -> q < ntiles t -> (Z.abs (M k q) <= 2 ^ 14 - 1)%Z) as Mb.
    { intros k q Bk Bq. destruct (file_coords (nth q files dfile)) as [|x0 l] eqn:E0; [unfold M; rewrite E0; lia|].
      destruct (HM k q Bk Bq) as [H1 H2]. apply (cycles_bound (MergeSpec.phase_of (nth q files dfile) k 0) (D k x0)); [apply H1; now rewrite E0|apply (H2 x0); now rewrite E0|].
      unfold D. destruct (nth k (g_links gt) (0, 0)) as [i' j'] eqn:Ek'.
      assert (In (i', j') (g_links gt)) as I by (rewrite <- Ek'; now apply nth_In). apply Lk in I as [I1 I2]. apply Hrange; auto. apply (HF q Bq). rewrite E0. now left. }
    assert (forall q x p, found files x q p -> q < ntiles t /\ nth_error (file_coords (nth q files dfile)) p = Some x) as Fnd.
    { intros q x p (fl & E1 & E2). rewrite (nth_error_nth _ _ _ E1). split; [rewrite <- Ln; apply nth_error_Some; congruence|exact E2]. }
    assert (forall k j p x, k < length (g_links gt) -> found files x j p -> (MergeSpec.phase_of (nth j files dfile) k p == D k x + twopi * inject_Z (M k j))%Q) as Hright.
    { intros k' q p x Bk' Fx. apply Fnd in Fx as [Bq Ex]. now apply (HM k' q Bk' Bq). }
    assert (forall fl, In fl files -> exists tri, e_triangles e' (file_coords fl) = Ok tri /\ planar (delaunay (length (file_coords fl)) tri)) as Htr.
    { intros fl J. destruct (Hfl fl J) as (q & Bq & ->). destruct (Hpx q Bq) as [P E]. destruct (Hok q _ Bq P) as [_ (tri & T1 & T2)].
      exists tri. rewrite E, map_length. auto. }
    assert (forall fl, In fl files -> tf_points fl <> []) as Hne.
    { intros fl J. destruct (Hfl fl J) as (q & Bq & ->). destruct (Hpx q Bq) as [P E]. destruct (Hok q _ Bq P) as [(tri & T1) _]. intros X. 
      pose proof (Htri _ _ T1) as Pl. rewrite X in Pl. destruct (planar_lap_n _ Pl) as [_ Z0]. unfold lap_n in Z0. cbn in Z0. lia. }
    destruct (overlaps_total (e_components e') (e_min_overlap e') files t h w Ln (fun q Bq => proj1 (HF q Bq)) Hnd Hgr Hhw (length (g_links gt)) Hbd D M Hright) as (f & Ecp); auto.
    { intros k a b Bk Ba Bb. pose proof (Mb k a Bk Ba). pose proof (Mb k b Bk Bb). lia. }
    assert (forall a b, a < b -> b < ntiles t -> overlapping st (e_min_overlap e) (tile_at t a) (tile_at t b) -> In (a, b) (of_overlaps f)) as Hrecd.
    { intros a b Lab Bb (l & Ndl & Nel & Cl & Vl).
      assert (incl l (common_pixels (nth a files dfile) (nth b files dfile))) as Inc.
      { intros x Ix. apply in_common. destruct (Vl x Ix) as (V1 & V2 & V3). split; [apply (HF a ltac:(lia))|apply (HF b Bb)]; auto. }
      pose proof (NoDup_incl_length Ndl Inc) as Le.
      apply (computed_pair (e_components e') (e_min_overlap e') files t f h w Ecp Hcc Ln); auto.
      - intros q Bq. apply HF, Bq.
      - intros q x Bq X. apply (HF q Bq), X.
      - intros X. rewrite X in Le. destruct l; [contradiction|cbn in Le; lia].
      - change (e_min_overlap e') with (e_min_overlap e). lia. }
    assert (forall u v, u < ntiles t -> linked st (e_min_overlap e) t u v -> v < ntiles t /\ reach (of_overlaps f) u v) as Hreach.
    { intros u v Bu Lk0. induction Lk0 as [|v v' Lk0 IH Bv Bv' O]; [split; [exact Bu|constructor]|].
      split; [exact Bv'|]. destruct (Nat.eq_dec v v') as [<-|Nv]; [apply IH|].
      apply (reach_step _ _ v); [apply IH|]. destruct (Nat.lt_ge_cases v v') as [C|C]; [left; now apply Hrecd|right; apply Hrecd; auto; [lia|]].
      destruct O as (l & O1 & O2 & O3 & O4). exists l. repeat (split; [assumption|]). intros x Ix. destruct (O4 x Ix) as (V1 & V2 & V3). auto. }
    assert (of_overlaps f <> []) as Nov.
    { intros X. assert (In (u0, v0) (of_overlaps f)) as I by (apply Hrecd; [lia|lia|exact Ouv]). rewrite X in I. destruct I. }
    assert (bulk_solver_ok (e_components e') (e_mip e') (e_lsq e') (e_bulk_method e') (forall u v, u < ntiles t -> v < ntiles t -> reach (of_overlaps f) u v)) as Hbs'.
    { destruct Hbs as [Hb1 Hb2]. split; [exact Hb1|]. intros E2. destruct (Hb2 E2) as [Hb3 Hb4]. split; [exact Hb3|]. intros u v Bu Bv. now apply Hreach, Hb4. }
    destruct (bulk_total (e_components e') (e_min_overlap e') files t h w Hcc Ln (fun q Bq => proj1 (HF q Bq)) Hnd Hgr Hhw (length (g_links gt)) Hbd D M Hright
      ltac:(intros k a b Bk Ba Bb; pose proof (Mb k a Bk Ba); pose proof (Mb k b Bk Bb); lia)
      f (e_mip e') (e_lsq e') (e_bulk_method e') (e_valid e') Ecp Nov) as (bulk & rr & Egb).
    { destruct Hsolv as [[S1 S2]|S1]; [left|now right]. split; [exact S1|]. split; [exact S2|]. apply (proj1 Hbs), S1. }
    assert (sound_files f files) as Hsf.
    { split; [intros X; rewrite X in Ln; cbn in Ln; lia|]. split.
      - intros fl J. split; [exact (proj2 (proj2 (Hbd fl J)))|apply Hnd, J].
      - apply (computed_recorded (e_components e') (e_min_overlap e') files t f h w Ecp Hcc Ln); auto.
        intros q Bq. apply (HF q Bq). }
    assert (exists omap, overlap_map f = Ok omap) as (omap & Eom).
    { eexists. apply (overlap_map_ok f (map (fun fl => Tile fl [] [] [] 0) files)). apply Hsf. rewrite map_map. apply map_id. }
    destruct (max_degree_total files (h, w) Ins Ph Pw) as (m & Em).
    exists f, omap, m, bulk, rr. split; [exact Ecp|]. split; [exact Egb|]. split; [exact Eom|]. split; [now rewrite Sh|].
    assert (0 < length (g_links gt)) as Pos.
    { assert (In (0, 1) (g_links gt)) as I by (apply Lk; rewrite dates_length; lia). destruct (g_links gt); [destruct I|cbn; lia]. }
    split; [intros X; rewrite X in Lfn; cbn in Lfn; lia|]. split; [exact Hsf|]. intros k Bk. rewrite Sh.
    assert (k < length (g_links gt)) as Bkl by lia.
    destruct (bulk_right (e_components e') (e_min_overlap e') files t f h w Ecp Hcc Ln (fun q Bq => proj1 (HF q Bq)) Hnd Hgr Hhw (length (g_links gt)) Hbd D M Hright
      _ _ _ _ _ _ k Bkl Egb Hbs') as (_ & _ & Lb1 & Lb2).
    { intros a b Ba Bb. pose proof (Mb k a Bkl Ba). pose proof (Mb k b Bkl Bb). lia. }
    apply (alone_total e' f omap m bulk (h, w) files (length (g_links gt)) k Hsf Eom Hbd Bkl); auto.
    - rewrite Lb1, Lb2. auto.
    - destruct Hown as [H0|H0]; [now left|right]. intros q Bq. rewrite Ln in *. destruct (H0 q Bq) as (x & V & P & U). exists x. split; [apply (HF q Bq); auto|].
      intros j Bj Nj X. apply (HF j Bj) in X as [_ X]. exact (U j Bj Nj X).
  Qed.
End Total.

(** * Cases *)

(** A stack of eighteen by two pixels cut into four tiles; the phase of the n-th
    date is n/2 times row plus column. *)
Definition ex_image (t : nat) : list (list Q) :=
  map (fun r => map (fun c => inject_Z (Z.of_nat (t * (r + c))) * (1 # 2) - twopi * inject_Z (Z.of_nat (t * r)))%Q [0; 1]) (seq 0 18).
Definition ex_stack : slc_stack Q :=
  SlcStack [("20200101", None); ("20200113", Some "a"); ("20200125", Some "b"); ("20200206", Some "c")]%string
    (map (fun r => [Some (4 # 5)%Q; Some (4 # 5)%Q]) (seq 0 18)) (1 # 2)
    (fun f => if String.eqb f "a" then Some (ex_image 1) else if String.eqb f "b" then Some (ex_image 2) else if String.eqb f "c" then Some (ex_image 3) else None).
Definition ex_env : env :=
  Env "tmp" "out" [] [] [] (fun _ => Err ValueError) (@rev nat) true (TilerSettings 4 4 100 1%Q) 2 11 "dirichlet" "integer" 1 pick_rows (fun _ => 2%Z)
      labels_of brute_mip exact_lsq (fun _ b => map (fun _ => 0%Q) b) (fun _ => true) px_triangles.
Definition ex_tiles : tileset := TileSet (18, 2)%Z [BBox 0 0 8 2; BBox 0 0 12 2; BBox 3 0 18 2; BBox 8 0 18 2].

Example ex_tiling : get_tiles pick_rows (fun _ => 2%Z) true (TilerSettings 4 4 100 1) (stack_mask ex_stack) = Ok ex_tiles.
Proof. vm_compute. reflexivity. Qed.

Lemma ex_image_at t x v : image_at (ex_image t) x = Some v -> cong2pi v (inject_Z (Z.of_nat t * (fst x + snd x)) * (1 # 2)).
Proof.
  unfold image_at. destruct (_ && _) eqn:B; [|discriminate]. unfold pixel_at, ex_image. rewrite nth_error_map.
  destruct (nth_error (seq 0 18) (Z.to_nat (fst x))) as [r|] eqn:Er; [|discriminate]. cbn [option_map].
  assert (Z.to_nat (fst x) < 18) as Br by (rewrite <- (seq_length 18 0); apply nth_error_Some; congruence).
  rewrite (nth_error_nth' _ 0) in Er by (now rewrite seq_length). rewrite seq_nth in Er by auto. injection Er as <-.
  rewrite nth_error_map. destruct (nth_error [0; 1] (Z.to_nat (snd x))) as [c|] eqn:Ec; [|discriminate]. cbn [option_map]. intros [= <-].
  assert (c = Z.to_nat (snd x)) as -> by (destruct (Z.to_nat (snd x)) as [|[|[|k]]]; cbn in Ec; congruence).
  exists (- Z.of_nat (t * (0 + Z.to_nat (fst x))))%Z. rewrite inject_Z_opp.
  replace (Z.of_nat t * (fst x + snd x))%Z with (Z.of_nat (t * (0 + Z.to_nat (fst x) + Z.to_nat (snd x)))) by lia. rewrite !Nat.add_0_l. ring.
Qed.
Example ex_history : history ex_stack px_phase.
Proof.
  intros d x v. unfold slc_phase, px_phase, px_time. cbn [ex_stack st_files dict_get fst snd].
  destruct (String.eqb_spec d "20200101") as [->|N0]; [cbn; intros [= <-]; exists 0%Z; destruct x; cbn; reflexivity|].
  destruct (String.eqb_spec d "20200113") as [->|N1]; [cbn; apply (ex_image_at 1)|].
  destruct (String.eqb_spec d "20200125") as [->|N2]; [cbn; apply (ex_image_at 2)|].
  destruct (String.eqb_spec d "20200206") as [->|N3]; [cbn; apply (ex_image_at 3)|].
  repeat (rewrite (proj2 (String.eqb_neq _ _)) by congruence). discriminate.
Qed.

Lemma ex_smooth q : q < 4 -> smooth px_triangles ex_stack px_phase (tile_at ex_tiles q).
Proof.
  intros B. destruct q as [|[|[|[|]]]]; try lia; (eapply smooth_check; [cbn; lia|cbn; lia|reflexivity|vm_compute; reflexivity]).
Qed.
Lemma ex_readable : readable ex_stack.
Proof.
  intros d f. cbn [ex_stack st_files dict_get fst snd].
  repeat (destruct (String.eqb _ _); [intros E; first [discriminate E|injection E as <-; eexists; split; [reflexivity|vm_compute; reflexivity]]|]); discriminate.
Qed.
Lemma ex_coh : coh_shape ex_stack 18 2.
Proof. split; [reflexivity|]. intros row I. vm_compute in I. repeat (destruct I as [<-|I]; [reflexivity|]). destruct I. Qed.
Lemma ex_triangles q pts : q < 4 -> tile_pixels ex_stack (tile_at ex_tiles q) pts ->
  (exists tri, px_triangles pts = Ok tri) /\
  exists tri, e_triangles ex_env (map (place (tile_at ex_tiles q)) pts) = Ok tri /\ planar (delaunay (length pts) tri).
Proof.
  intros B P. assert (3 <= length pts) as L.
  { assert (forall b, (0 <= xmin b)%Z -> (0 <= ymin b)%Z -> tile_pixels ex_stack b pts -> length pts = length (nonzero (tile_mask ex_stack b))) as K.
    { intros b B1 B2 P'. f_equal. eapply tile_pixels_unique; [exact P'|]. now apply mask_pixels. }
    destruct q as [|[|[|[|]]]]; try lia; (apply K in P; [rewrite P; apply Nat.leb_le; vm_compute; reflexivity|cbn; lia|cbn; lia]). }
  split.
  - unfold px_triangles. destruct (Nat.ltb_spec (length pts) 3); [lia|eauto].
  - exists (strip (length pts)). split; [|now apply strip_planar]. unfold ex_env, e_triangles, px_triangles. rewrite map_length. destruct (Nat.ltb_spec (length pts) 3); [lia|reflexivity].
Qed.
Lemma ex_bound x i j : i < j < length (st_dates ex_stack) -> valid_pixel ex_stack x ->
  (Qabs (true_ifg px_phase (nth i (st_dates ex_stack) ""%string) (nth j (st_dates ex_stack) ""%string) x) <= twopi * inject_Z (2 ^ 14 - 1))%Q.
Proof.
  intros B (z & J & _). apply (image_in _ 18 2) in J; [|apply ex_coh]. unfold in_image in J. unfold true_ifg, px_phase.
  assert (forall d, (0 <= px_time d <= 3)%Z) as T by (intros d; unfold px_time; repeat (destruct (String.eqb _ _); [lia|]); lia).
  set (a := (px_time (nth j (st_dates ex_stack) ""%string) * (fst x + snd x))%Z). set (b := (px_time (nth i (st_dates ex_stack) ""%string) * (fst x + snd x))%Z).
  assert (0 <= a <= 54)%Z as Ba by (pose proof (T (nth j (st_dates ex_stack) ""%string)); unfold a; nia).
  assert (0 <= b <= 54)%Z as Bb by (pose proof (T (nth i (st_dates ex_stack) ""%string)); unfold b; nia).
  assert (forall n, (0 <= n <= 54)%Z -> (0 <= inject_Z n <= 54)%Q) as K.
  { intros n Bn. change 0%Q with (inject_Z 0). change 54%Q with (inject_Z 54). rewrite <- !Zle_Qle. lia. }
  apply K in Ba, Bb. change (inject_Z (2 ^ 14 - 1)) with (16383)%Q. assert (6 < twopi)%Q by reflexivity. apply Qabs_Qle_condition. split; lra.
Qed.
Lemma ex_overlapping u : u < 3 -> overlapping ex_stack 11 (tile_at ex_tiles u) (tile_at ex_tiles (S u)).
Proof.
  intros B.
  assert (forall a b1 b2, (0 <= a)%Z -> (a + 8 <= 18)%Z -> (forall r c, (a <= r < a + 8)%Z -> (0 <= c < 2)%Z -> has_pixel b1 r c /\ has_pixel b2 r c) -> overlapping ex_stack 11 b1 b2) as K.
  { intros a b1 b2 A1 A2 Hb. exists (list_prod (map (fun i => a + Z.of_nat i)%Z (seq 0 8)) [0; 1]%Z). split; [|split; [discriminate|split; [cbn; lia|]]].
    - apply nodup_prod; [|repeat constructor; cbn; intuition lia]. apply FinFun.Injective_map_NoDup; [intros x y; lia|apply seq_NoDup].
    - intros [r c] I. apply in_prod_iff in I as [I1 I2]. apply in_map_iff in I1 as (i & <- & I1). apply in_seq in I1. 
      split; [|cbn [fst snd]; cbn in I2; apply Hb; lia]. exists (4 # 5)%Q. split; [|reflexivity]. unfold image_at. cbn [fst snd].
      cbn in I2. destruct I2 as [<-|[<-|[]]]; (replace (_ && _) with true by lia); unfold pixel_at, ex_stack, st_coh;
      rewrite nth_error_map, (nth_error_nth' _ 0) by (rewrite seq_length; lia); reflexivity. }
  destruct u as [|[|[|]]]; try lia; [apply (K 0%Z)|apply (K 3%Z)|apply (K 8%Z)]; try lia; intros r c R C; unfold has_pixel; cbn; lia.
Qed.

(** The hypotheses of the theorem and of C59 hold, and together they give the
    value of a pixel of the run. *)
Example C60_witness : exists ws fn r v (c : Z), run (cli px_unwrap ex_stack ex_env) wf_empty = (ws, Ok fn) /\
  apply_writes wf_empty ws "out/20200113_20200206.unw.tif"%string = Some (CRaster r) /\
  pixel r (17, 1)%Z = Some v /\ (v == 18 + twopi * inject_Z c)%Q.
Proof.
  assert (NoDup (map fst (st_files ex_stack))) as H1 by (repeat constructor; cbn; intuition discriminate).
  assert (forall d, In d (st_dates ex_stack) -> underscore_free d) as H3.
  { intros d I; vm_compute in I; repeat (destruct I as [<-|I]; [reflexivity|]); destruct I. }
  assert (forall d1 d2, In d1 (st_dates ex_stack) -> In d2 (st_dates ex_stack) -> occurs ".tif" (stem "out" (d1, d2)) = false) as H4.
  { intros d1 d2 I1 I2; vm_compute in I1, I2; repeat (destruct I1 as [<-|I1]; [repeat (destruct I2 as [<-|I2]; [reflexivity|]); destruct I2|]); destruct I1. }
  assert (sched_ok ex_env) as H7 by (intros l; apply Permutation_sym, Permutation_rev).
  assert (fresh ex_env wf_empty) as H9 by (intros n _; reflexivity).
  assert (bulk_solver_ok labels_of brute_mip exact_lsq "integer" (forall u v, u < 4 -> v < 4 -> linked ex_stack 11 ex_tiles u v)) as Hbs.
  { split; [intros _; split; [apply brute_mip_sound|apply components_witness]|intros X; discriminate X]. }
  destruct (C60_workflow (fun _ _ => None) px_triangles (fun _ l => rev l) (@rev nat) 4 (Settings Constant Constant 2 0 0) [] [] (fun _ => []) (fun _ => [])
    px_smcf px_planar (fun _ l => Permutation_sym (Permutation_rev l)) (fun l => Permutation_sym (Permutation_rev l)) ltac:(cbn; lia) ltac:(discriminate) ltac:(discriminate) ltac:(cbn; lia)
    ex_stack px_phase ex_env wf_empty 18 2 (TilerSettings 4 4 100 1%Q) ex_tiles
    H1 ltac:(cbn; lia) ex_coh ltac:(lia) ltac:(lia) ltac:(lia) H3 H4 pick_rows_ok eq_refl H7 (proj1 components_witness) H9 ex_readable ex_history ex_tiling ex_smooth ex_triangles)
    as (ws & fn & R); auto.
  - intros i j x B _. now apply ex_bound.
  - reflexivity.
  - cbn; lia.
  - left. split; [reflexivity|apply brute_mip_complete].
  - right. exists 0, 1. split; [cbn; lia|]. apply (ex_overlapping 0). lia.
  - destruct (C59_workflow (fun _ _ => None) px_triangles (fun _ l => rev l) (@rev nat) 4 (Settings Constant Constant 2 0 0) [] [] (fun _ => []) (fun _ => [])
      px_smcf px_planar (fun _ l => Permutation_sym (Permutation_rev l)) (fun l => Permutation_sym (Permutation_rev l)) ltac:(cbn; lia)
      ex_stack px_phase ex_env wf_empty ws fn 18 2 (TilerSettings 4 4 100 1%Q) ex_tiles
      H1 ex_coh ltac:(lia) ltac:(lia) ltac:(lia) H3 H4 pick_rows_ok eq_refl H7 (proj1 components_witness) H9 R ex_history ex_tiling ex_smooth Hbs 1 3)
      as (r & c & E & _ & P).
    + cbn; lia.
    + lia.
    + intros x V. eapply Qle_trans; [apply ex_bound; [cbn; lia|exact V]|]. vm_compute. discriminate.
    + reflexivity.
    + destruct (P 3 (17, 1)%Z) as (v & Ev & Evq).
      * cbn; lia.
      * exists (4 # 5)%Q. split; vm_compute; reflexivity.
      * unfold has_pixel. cbn. lia.
      * intros q Bq _.
        assert (forall u, u < 3 -> overlapping ex_stack 11 (tile_at ex_tiles (S u)) (tile_at ex_tiles u)) as O.
        { intros u Bu. destruct (ex_overlapping u Bu) as (l & O1 & O2 & O3 & O4). exists l. repeat (split; [assumption|]). intros x I. destruct (O4 x I) as (A & B & C). auto. }
        assert (linked ex_stack 11 ex_tiles 3 3) as L3 by constructor.
        assert (linked ex_stack 11 ex_tiles 3 2) as L2 by (apply (linked_step _ _ _ _ 3); [auto|cbn; lia|cbn; lia|apply (O 2); lia]).
        assert (linked ex_stack 11 ex_tiles 3 1) as L1 by (apply (linked_step _ _ _ _ 2); [auto|cbn; lia|cbn; lia|apply (O 1); lia]).
        assert (linked ex_stack 11 ex_tiles 3 0) as L0 by (apply (linked_step _ _ _ _ 1); [auto|cbn; lia|cbn; lia|apply (O 0); lia]).
        cbn in Bq. destruct q as [|[|[|[|]]]]; try lia; assumption.
      * exists ws, fn, r, v, (c 3). split; [exact R|]. split; [exact E|]. split; [exact Ev|]. rewrite Evq. apply Qplus_comp; reflexivity.
Qed.

Print Assumptions C60_tile.
Print Assumptions C60_workflow.
