(** C86 for whole runs of the program. *)
From Verif Require Import Base BaseLemmas PoolProofs GraphModel GraphSpec GraphProofs Hop3Proofs McfModel McfSpec PhaseProofs EmcfModel StripProofs
  TileModel TileSpec Props_Tile NamesModel NamesProofs OverlapModel OverlapSpec BulkModel BulkSpec MergeModel MergeSpec AdjustProofs MergeBatchProofs
  WorkflowModel WorkflowSpec WorkflowProofs WorkflowMerge WorkflowMain DescribeProofs Props_Merge Props_Workflow SlcModel SlcSpec SlcProofs Props_Slc UnwrapTileModel
  UnwrapTileProofs PipelineSpec PipelineProofs Props_Pipeline ExactSpec ExactRunProofs ShiftSpec TotalMergeProofs TotalRunProofs
  BulkProofs ShiftMergeProofs ExactWitness CertSolver Props_Any Props_InvariantTile ExactTileProofs
  PerturbSpec Props_Perturb ConjSpec Props_Conj ConjRunSpec.
From Coq Require Import List Permutation Sorting.Sorted ZifyBool Lqa.
Import ListNotations.
Set Default Goal Selector "!".
Local Open Scope nat_scope.
Opaque twopi.

Section Run.
  Context (smcf smcf' : list arc -> list Z -> option (list Z))
          (triangles : list (Z * Z) -> res (list (nat * nat * nat)))
          (tsched : nat -> list nat -> list nat) (ssched : list nat -> list nat) (cpu : Z)
          (set : settings) (tdist tcent : list Z) (sdist scent : list (Z * Z) -> list Z).
  Hypothesis Hsm : smcf_sound smcf.
  Hypothesis Hsm' : smcf_sound smcf'.
  Hypothesis Hm : mirrors smcf smcf'.
  Hypothesis Htri : forall pts tri, triangles pts = Ok tri -> planar (delaunay (length pts) tri).
  Hypothesis Ht : forall b l, Permutation (tsched b l) l.
  Hypothesis Hs : forall l, Permutation (ssched l) l.
  Hypothesis Hl : 0 < links_per_batch set.
  Notation unwrap := (unwrap_one_tile smcf triangles tsched ssched cpu set tdist tcent sdist scent).
  Notation unwrap' := (unwrap_one_tile smcf' triangles tsched ssched cpu set tdist tcent sdist scent).

  (** A run from empty folders on the first stack that ends, with no statistic at the
      bottom of its range. The program ends on the conjugate stack too, with the mirrored
      solvers and from any empty folders. It writes the same files. Every pixel is negated,
      and the same pixels are NaN. *)
  Theorem C86_run st st' gt e solve' s s2 ws fn h w s' :
    hop3 (Z.of_nat (length (st_files st))) = Ok gt ->
    NoDup (map fst (st_files st)) -> coh_shape st h w -> (0 < h)%Z -> (0 < w)%Z -> (h * w <= 2 ^ 32)%Z ->
    (forall d, In d (st_dates st) -> underscore_free d) ->
    (forall d1 d2, In d1 (st_dates st) -> In d2 (st_dates st) -> occurs ".tif" (stem (e_out e) (d1, d2)) = false) ->
    picks_in_range (e_pick e) -> tiler_post_init s' = Ok (e_tiler e) -> sched_ok e ->
    (forall n l, length (e_components e n l) = n) -> odd_solver (e_cg e) -> odd_solver (e_lsq e) -> mip_sound (e_mip e) -> turns (e_mip e) solve' ->
    (0 < e_parallel_tiles e)%Z ->
    readable st -> readable st' -> conjugate_stack st st' ->
    (forall t files f g row, get_tiles (e_pick e) (e_root e) (e_use_tiles e) (e_tiler e) (stack_mask st) = Ok t ->
       map_res (unwrap st gt) (tiles t) = Ok files -> compute_phasediff_deciles (e_components e) (e_min_overlap e) files t = Ok f ->
       In g (of_groups f) -> In row (og_stats g) -> ~ In (- 2 ^ 15)%Z row) ->
    run (cli unwrap st e) s = (ws, Ok fn) ->
    fresh e s -> fresh e s2 -> (forall n, In n fn -> s n = None /\ s2 n = None) ->
    exists ws2, run (cli unwrap' st' (with_mip e solve')) s2 = (ws2, Ok fn) /\
      forall i j, i < j < length (st_dates st) -> j - i <= 3 ->
        let n := unw_filename (e_out e) (nth i (st_dates st) ""%string) (nth j (st_dates st) ""%string) in
        exists r r2, apply_writes s ws n = Some (CRaster r) /\ apply_writes s2 ws2 n = Some (CRaster r2) /\
          forall x, in_shape (h, w) x = true -> neg_opt (pixel r x) (pixel r2 x).
  Proof using Hsm Hsm' Hm Htri Ht Hs Hl.
    intros Rg Nf Csh Ph Pw Hhw Hus Htif Hpick Htil Hsch Hcc Hcg Hlsq Hmip Hturn Hpar Rd Rd' Mv Sd R Hfr Hfr2 Hno.
    pose proof Mv as (Ef0 & Ec & Eth & _). assert (st_dates st' = st_dates st) as Ed by (unfold st_dates; now rewrite Ef0). pose proof (same_dates _ _ Ed Nf) as [Nf' Lf'].
    unfold cli in R. apply then_inv in R as (w0 & gt0 & ws' & R0 & R & ->). apply lift_inv in R0 as [-> R0]. change ([] ++ ws') with ws'. cbn [apply_writes fold_left] in R.
    assert (gt0 = gt) as -> by congruence. apply hop3_is in R0 as [N4 Egt].
    set (e1 := stack_env st gt unwrap e) in *. set (e2 := stack_env st' gt unwrap' (with_mip e solve')).
    assert (planar gt) as Pgt by (rewrite Egt; apply hop3_planar; auto).
    assert (length (st_files st) = g_npoints gt) as Ld by (rewrite Egt; reflexivity).
    assert (forall a b, In (a, b) (g_links gt) <-> a < b < length (st_dates st) /\ b - a <= 3) as Lk.
    { intros a b. rewrite Egt, dates_length. cbn [g_links hop3_graph]. now apply hop3_link_list_In. }
    assert (NoDup (st_dates st)) as Nd by (unfold st_dates, dates_of; eapply Permutation_NoDup; [symmetry; apply sort_str_perm|exact Nf]).
    assert (names_ok e1) as Hn by (split; [exact Nd|split; [apply (pl_nodup gt Pgt)|split; [exact Hus|exact Htif]]]).
    assert (stack_mask st' = stack_mask st) as Em by (unfold stack_mask; now rewrite Ec, Eth).
    assert (e_dates e2 = e_dates e1) as Ed' by exact Ed.
    assert (names_ok e2) as Hn2.
    { unfold names_ok. rewrite Ed'. exact Hn. }
    assert (length (stack_mask st) = Z.to_nat h) as Lm by (unfold stack_mask; rewrite map_length; destruct Csh; lia).
    assert (forall i, i < length (stack_mask st) -> length (nth i (stack_mask st) []) = Z.to_nat w) as Lrow.
    { intros a Ba. unfold stack_mask in *. rewrite map_length in Ba. rewrite (nth_indep _ [] (map (above (st_threshold st)) [])) by (now rewrite map_length).
      rewrite map_nth, map_length. destruct Csh as [_ C]. specialize (C (nth a (st_coh st) []) (nth_In _ _ Ba)). lia. }
    assert (forall t, get_tiles (e_pick e) (e_root e) (e_use_tiles e) (e_tiler e) (stack_mask st) = Ok t ->
      shape t = (h, w) /\ 1 <= ntiles t /\ (forall b, In b (tiles t) -> box_in_image (h, w) b)) as Hgt.
    { intros t G. assert (length (nth 0 (stack_mask st) []) = Z.to_nat w) as L0 by (apply Lrow; lia).
      pose proof G as G'. apply (C30_get_tiles _ _ _ _ s') in G' as (E1 & E0 & E2 & _); auto; rewrite ?Lm, ?L0, ?Z2Nat.id in * by lia; try lia; try nia.
      - split; [exact E1|]. split; [lia|]. now apply Forall_forall.
      - intros a Ba. apply Lrow. lia. }
    assert (coh_shape st' h w) as Csh' by (unfold coh_shape; now rewrite Ec).
    assert (forall sm stk, smcf_sound sm -> NoDup (map fst (st_files stk)) -> length (st_files stk) = length (st_files st) -> coh_shape stk h w -> stack_mask stk = stack_mask st ->
      forall ev, e_valid ev = stack_mask stk -> e_unwrap ev = unwrap_one_tile sm triangles tsched ssched cpu set tdist tcent sdist scent stk gt ->
      get_tiles (e_pick ev) (e_root ev) (e_use_tiles ev) (e_tiler ev) = get_tiles (e_pick e) (e_root e) (e_use_tiles e) (e_tiler e) -> unwrap_ok ev h w) as Huk.
    { intros sm stk Sm Nk Lkk Ck Emk ev Ev Eu Eg t b f G I E. rewrite Eg, Ev, Emk in G. rewrite Eu in E. destruct (Hgt t G) as (_ & _ & Hbox). specialize (Hbox b I). unfold box_in_image in Hbox.
      destruct (C58_tile sm triangles tsched ssched cpu set tdist tcent sdist scent Sm Htri Ht Hs Hl stk gt b f) as (T1 & T2 & T3 & T4 & _); auto; try lia.
      split; [exact T1|]. split; [exact (proj2 (proj2 T2))|]. split; [now apply before_nodup|].
      intros r c J. apply T4 in J as [(z & J & _) _]. apply (image_in _ h w) in J; auto. }
    pose proof (Huk smcf st Hsm Nf eq_refl Csh eq_refl e1 eq_refl eq_refl eq_refl) as Hu. pose proof (Huk smcf' st' Hsm' Nf' Lf' Csh' Em e2 eq_refl eq_refl eq_refl) as Hu2. clear Huk.
    assert (output_files e1 = Ok fn /\ e_method e = "dirichlet"%string) as [Ho Hmeth].
    { pose proof R as R'. apply main_done in R' as (w1 & w2 & w3 & w4 & w5 & t0 & R1 & R2 & R3 & R4 & R5 & _). split; [eapply outputs; eauto|].
      unfold merge_tiles in R5. destruct (String.eqb_spec (e_method e1) "dirichlet"%string) as [Q|Q]; [exact Q|discriminate R5]. }
    destruct (outputs_pairs e1 fn Ho) as [Efn Bfn]. rewrite map_map in Efn. change (e_ifgs e1) with (g_links gt) in Efn.
    assert (length fn = length (g_links gt)) as Lfn by (rewrite Efn, map_length; reflexivity).
    assert (0 < length (g_links gt)) as Pos.
    { assert (In (0, 1) (g_links gt)) as I by (apply Lk; rewrite dates_length; lia). destruct (g_links gt); [destruct I|cbn; lia]. }
    assert (output_files e2 = Ok fn) as Ho2.
    { rewrite <- Ho. unfold output_files. change (e_ifgs e2) with (e_ifgs e1). change (e_out e2) with (e_out e1). now rewrite Ed'. }
    assert (forall k, k < length fn -> s (nth k fn ""%string) = None /\ s2 (nth k fn ""%string) = None) as Hno' by (intros k B; apply Hno, nth_In, B).
    assert (forall k, k < length fn -> _) as D1 by (intros k Bk; exact (run_detail e1 s ws' fn h w k Hn Hsch Hfr Hu Hhw Hcc R Bk (proj1 (Hno' k Bk)))).
    destruct (D1 0 ltac:(lia)) as (t & files & _ & G & L & Hfiles & _).
    change (get_tiles (e_pick e) (e_root e) (e_use_tiles e) (e_tiler e) (stack_mask st) = Ok t) in G. destruct (Hgt t G) as (Sh & Nt & Hbox). clear Hgt.
    assert (forall b, In b (tiles t) -> (0 <= xmin b)%Z /\ (0 <= ymin b)%Z) as Hpos.
    { intros b I. specialize (Hbox b I). unfold box_in_image in Hbox. lia. }
    assert (map_res (unwrap st gt) (tiles t) = Ok files) as Efl.
    { destruct (proj2 (map_res_ok_iff (unwrap st gt) (tiles t))) as (files0 & E0).
      - intros b I. apply (In_nth _ _ (BBox 0 0 0 0)) in I as (q & Bq & <-). exists (nth q files dfile). apply Hfiles, Bq.
      - rewrite E0. f_equal. apply map_res_nth in E0 as [L0 V]. unfold ntiles in *. apply (nth_ext _ _ dfile dfile); [lia|]. intros q Bq.
        specialize (V q (BBox 0 0 0 0) dfile ltac:(lia)). specialize (Hfiles q ltac:(lia)). cbn [e_unwrap stack_env e1] in Hfiles.
        change (tile_at t q) with (nth q (tiles t) (BBox 0 0 0 0)) in Hfiles. congruence. }
    destruct (files_opposite smcf smcf' triangles tsched ssched cpu set tdist tcent sdist scent Hsm Hm Htri Ht Hs Hl st st' gt t h w files Rg Nf Csh Hhw Hpos Rd Rd' Mv Hsm' Efl) as (files' & Efl' & Cut & Cut' & Ly & Sf).
    pose proof Cut as (_ & _ & Hti & Hcut). pose proof Cut' as (L' & _ & Hti' & Hcut'). rewrite no_file_d in *.
    assert (forall q, q < ntiles t -> e_unwrap e2 (tile_at t q) = Ok (nth q files' dfile)) as Hfiles'.
    { intros q Bq. apply map_res_nth in Efl' as [_ V]. exact (V q (BBox 0 0 0 0) dfile Bq). }
    assert (forall q, file_coords (nth q files' dfile) = file_coords (nth q files dfile)) as Hco.
    { intros q. destruct Ly as [_ Y]. rewrite no_file_d in Y. destruct (Y q) as [Y1 Y2]. unfold file_coords. now rewrite Y1, Y2. }
    assert (map file_coords files' = map file_coords files) as Hmap.
    { apply (nth_ext _ _ (file_coords dfile) (file_coords dfile)); [rewrite !map_length; lia|]. intros q _. rewrite !map_nth. apply Hco. }
    assert (forall x fl, In fl files' -> In x (file_coords fl) -> in_shape (h, w) x = true) as Ins'.
    { intros [a c] fl J X. destruct (Hcut' fl J) as (_ & Gr & _). specialize (Gr a c X). unfold in_shape. cbn in *. lia. }
    assert (forall k t0 files0, k < length fn -> get_tiles (e_pick e) (e_root e) (e_use_tiles e) (e_tiler e) (stack_mask st) = Ok t0 -> length files0 = ntiles t0 ->
      (forall q, q < ntiles t0 -> e_unwrap e1 (tile_at t0 q) = Ok (nth q files0 dfile)) -> t0 = t /\ files0 = files) as U1.
    { intros k t0 files0 _ G0 L0 V0. assert (t0 = t) as -> by congruence. split; [reflexivity|]. apply (nth_ext _ _ dfile dfile); [lia|]. intros q Bq.
      specialize (V0 q ltac:(lia)). rewrite Hfiles in V0 by lia. now injection V0. }
    (* several tiles: what both runs share *)
    assert (ntiles t <> 1 -> exists f f' omap m bulk rr bulk' rr',
      compute_phasediff_deciles (e_components e) (e_min_overlap e) files t = Ok f /\
      compute_phasediff_deciles (e_components e) (e_min_overlap e) files' t = Ok f' /\
      get_bulk_offsets (e_mip e) (e_lsq e) (e_bulk_method e) f t (stack_mask st) = Ok (bulk, rr) /\
      get_bulk_offsets solve' (e_lsq e) (e_bulk_method e) f' t (stack_mask st) = Ok (bulk', rr') /\
      overlap_map f = Ok omap /\ overlap_map f' = Ok omap /\ get_max_degree (map file_coords files) (shape t) = Ok m /\
      forall k, k < length fn -> exists arr diff model arr' diff' model',
        apply_writes s ws' (nth k fn ""%string) = Some (CRaster arr) /\
        alone e1 f omap m bulk (shape t) files k = Ok (arr, diff, model) /\
        alone e2 f' omap m bulk' (shape t) files' k = Ok (arr', diff', model') /\
        forall x, in_shape (h, w) x = true -> neg_opt (pixel arr x) (pixel arr' x)) as Hmulti.
    { intros N1. destruct (D1 0 ltac:(lia)) as (t0 & files0 & r0 & G0 & L0 & V0 & _ & [[? _]|(_ & f & omap & m & bulk & rr & d0 & m0 & X1 & X2 & X3 & X4 & X5 & _)]);
        destruct (U1 0 t0 files0 ltac:(lia) G0 L0 V0) as [-> ->]; [contradiction|].
      destruct (C86_stats (e_components e) (e_min_overlap e) files files' t f h w _ Cut Cut' Ly Sf X1 (fun g row => Sd t files f g row G Efl X1)) as (f' & X1' & Op).
      destruct (C86_bulk (e_mip e) solve' (e_lsq e) (e_bulk_method e) f f' t (stack_mask st) bulk rr Hmip Hturn Hlsq Op X2) as (bulk' & rr' & X2' & Oo & _).
      assert (overlap_map f' = Ok omap) as X3' by (destruct Op as (_ & Oc & Oe); unfold overlap_map in *; now rewrite Oc, Oe).
      exists f, f', omap, m, bulk, rr, bulk', rr'. split; [exact X1|]. split; [exact X1'|]. split; [exact X2|]. split; [exact X2'|]. split; [exact X3|]. split; [exact X3'|]. split; [exact X5|]. intros k Bk.
      destruct (D1 k Bk) as (t1 & files1 & r1 & G1 & L1 & V1 & W1 & [[? _]|(_ & f1 & omap1 & m1 & bulk1 & rr1 & d1 & mm1 & Y1 & Y2 & Y3 & _ & Y5 & Y6)]);
        destruct (U1 k t1 files1 Bk G1 L1 V1) as [-> ->]; [contradiction|].
      rewrite X1 in Y1. injection Y1 as <-. rewrite X2 in Y2. injection Y2 as <- <-. rewrite X3 in Y3. injection Y3 as <-. rewrite X5 in Y5. injection Y5 as <-.
      destruct (C86_merge (e_components e) (e_min_overlap e) files files' t f f' h w _ (e_cg e) (e_ilu e) (e_triangles e) omap bulk bulk' m (shape t) [k] [(r1, d1, mm1)]
        Hcc Hcg Cut Cut' Ly Sf X1 X1' Op X3 Oo (proj2 (batch_one e1 f omap m bulk (shape t) files k [(r1, d1, mm1)]) (ex_intro _ _ (conj Y6 eq_refl))))
        as (_ & outs' & M' & _ & Lo & P).
      apply (batch_one e2) in M' as ([[arr' diff'] model'] & M' & ->).
      destruct (P 0 k r1 d1 mm1 eq_refl eq_refl) as (arr2 & diff2 & model2 & N2 & Px). cbn in N2. injection N2 as <- <- <-.
      exists r1, d1, mm1, arr', diff', model'. split; [exact W1|]. split; [exact Y6|]. split; [exact M'|]. intros x I. rewrite Sh in Px. apply (Px x I). }
    assert (exists ws2, run (main e2) s2 = (ws2, Ok fn)) as (ws2 & R2).
    { apply (main_total e2 s2 t files' fn); auto.
      - cbn. now rewrite Em.
      - intros N1 k Bk. rewrite Sh. apply (single_total_band _ _ _ (length (g_links gt))); [apply Hcut', nth_In; lia|lia|].
        intros x. apply Ins', nth_In. lia.
      - intros N1. destruct (Hmulti N1) as (f & f' & omap & m & bulk & rr & bulk' & rr' & X1 & X1' & X2 & X2' & X3 & X3' & X5 & K).
        exists f', omap, m, bulk', rr'. split; [exact X1'|]. split; [cbn; now rewrite Em|]. split; [exact X3'|]. split; [now rewrite Hmap|].
        split; [intros X; rewrite X in Lfn; cbn in Lfn; lia|]. split; [split; [|split]|].
        + intros X. rewrite X in L'. cbn in L'. lia.
        + intros fl J. destruct (Hcut' fl J) as (A & _ & B & _ & C). split; [exact C|exact A].
        + apply (computed_recorded (e_components e) (e_min_overlap e) files' t f' h w X1' Hcc L'); auto.
          * intros fl J. apply Hcut', J.
          * intros fl J. apply Hcut', J.
        + intros k Bk. destruct (K k Bk) as (? & ? & ? & arr' & diff' & model' & _ & _ & A & _). eauto. }
    exists ws2. split.
    { unfold cli. rewrite Lf', Rg. exact R2. }
    intros i j Bij Dij n.
    assert (In (i, j) (g_links gt)) as I by now apply Lk. apply In_nth_error in I as (k & Ek).
    assert (nth_error fn k = Some n) as En.
    { rewrite Efn, nth_error_map, Ek. reflexivity. }
    assert (k < length fn) as Bk by (apply nth_error_Some; congruence).
    assert (nth k fn ""%string = n) as Enk by now apply nth_error_nth.
    destruct (D1 k Bk) as (t1 & files1 & r1 & G1 & L1 & V1 & W1 & K1). destruct (U1 k t1 files1 Bk G1 L1 V1) as [-> ->].
    destruct (run_detail e2 s2 ws2 fn h w k Hn2 Hsch Hfr2 Hu2 Hhw Hcc R2 Bk (proj2 (Hno' k Bk))) as (t2 & files2 & r2 & G2 & L2 & V2 & W2 & K2).
    assert (t2 = t) as -> by (cbn in G2; rewrite Em in G2; congruence).
    assert (files2 = files') as ->.
    { apply (nth_ext _ _ dfile dfile); [lia|]. intros q Bq. specialize (V2 q ltac:(lia)). rewrite Hfiles' in V2 by lia. now injection V2. }
    exists r1, r2. rewrite <- Enk. split; [exact W1|]. split; [exact W2|]. intros x Ix.
    destruct (Nat.eq_dec (ntiles t) 1) as [N1|N1].
    - destruct K1 as [[_ K1]|[? _]]; [|contradiction]. destruct K2 as [[_ K2]|[? _]]; [|contradiction].
      assert (In (nth 0 files dfile) files) as J by (apply nth_In; lia). assert (In (nth 0 files' dfile) files') as J' by (apply nth_In; lia).
      destruct (Hcut _ J) as (A1 & _ & _ & _ & A2). destruct (Hcut' _ J') as (A1' & _ & _ & _ & A2'). rewrite <- Sh in Ix.
      destruct (C41_single _ _ _ _ x A2 A1 K1 Ix) as (_ & P1 & P2). destruct (C41_single _ _ _ _ x A2' A1' K2 Ix) as (_ & P1' & P2'). rewrite Hco in P1', P2'.
      destruct (in_dec (fun a b : Z * Z => ltac:(decide equality; apply Z.eq_dec)) x (file_coords (nth 0 files dfile))) as [Q|Q].
      + apply In_nth_error in Q as (p & Ep). destruct (P2 p Ep) as (v & -> & Ev). destruct (P2' p Ep) as (v' & -> & Ev'). cbn.
        rewrite Ev, Ev'. specialize (Sf k 0 p ltac:(lia)). rewrite no_file_d in Sf. apply Sf.
        assert (p < length (file_coords (nth 0 files dfile))) as Bp by (apply nth_error_Some; congruence). unfold file_coords in Bp. now rewrite map_length in Bp.
      + rewrite (P1 Q), (P1' Q). exact I.
    - destruct (Hmulti N1) as (f & f' & omap & m & bulk & rr & bulk' & rr' & X1 & X1' & X2 & X2' & X3 & X3' & X5 & K).
      destruct (K k Bk) as (arr & diff & model & arr' & diff' & model' & Z1 & _ & Z3 & Z4).
      rewrite W1 in Z1. injection Z1 as <-. destruct K2 as [[? _]|(_ & f2 & o2 & m2 & b2 & rr2 & d2 & mm2 & Y1 & Y2 & Y3 & _ & Y5 & Y6)]; [contradiction|].
      change (compute_phasediff_deciles (e_components e) (e_min_overlap e) files' t = Ok f2) in Y1. rewrite X1' in Y1. injection Y1 as <-.
      cbn in Y2. rewrite Em, X2' in Y2. injection Y2 as <- <-. rewrite X3' in Y3. injection Y3 as <-. rewrite Hmap, X5 in Y5. injection Y5 as <-.
      rewrite Z3 in Y6. injection Y6 as <- _ _. now apply Z4.
  Qed.

End Run.

(** * A case: the run of [C58_witness] and the conjugate stack *)
Definition conj_of (st : slc_stack Q) : slc_stack Q :=
  SlcStack (st_files st) (st_coh st) (st_threshold st) (fun f => option_map neg_image (st_slc st f)).
Lemma conj_of_conjugate st : conjugate_stack st (conj_of st).
Proof.
  split; [reflexivity|]. split; [reflexivity|]. split; [reflexivity|]. intros t x p p' _ _. unfold slc_phase. cbn [conj_of st_files st_slc].
  destruct (dict_get _ _) as [[f|]|]; [|intros [= <-] [= <-]; reflexivity|discriminate].
  destruct (st_slc st f) as [im|]; cbn [option_map]; [apply conj_at|discriminate].
Qed.
Lemma conj_of_readable st : readable st -> readable (conj_of st).
Proof.
  intros R d f E. destruct (R d f E) as (im & E1 & E2). exists (neg_image im). cbn [conj_of st_slc st_coh]. rewrite E1. split; [reflexivity|].
  unfold same_grid, neg_image in *. rewrite <- E2, map_map. apply map_ext. intros l. apply map_length.
Qed.
Lemma zeros_odd : odd_solver (fun _ b => map (fun _ => 0%Q) b).
Proof. intros a b b' H. induction H; cbn; constructor; [reflexivity|assumption]. Qed.
Lemma px_readable : readable px_stack.
Proof.
  intros d f. cbn [px_stack st_files dict_get fst snd].
  repeat (destruct (String.eqb _ _); [intros E; first [discriminate E|injection E as <-; eexists; split; [reflexivity|vm_compute; reflexivity]]|]); discriminate.
Qed.

Example C86_run_witness : exists ws2, run (cli px_unwrap (conj_of px_stack) (with_mip (px_env false) (fun _ => None))) wf_empty = (ws2, Ok px_outs) /\
  let n := "out/20200113_20200206.unw.tif"%string in
  exists r r2, apply_writes wf_empty px_ws n = Some (CRaster r) /\ apply_writes wf_empty ws2 n = Some (CRaster r2) /\
    neg_opt (pixel r (2, 1)%Z) (pixel r2 (2, 1)%Z) /\ exists v, pixel r (2, 1)%Z = Some v /\ ~ (v == 0)%Q.
Proof.
  destruct C58_witness as (H1 & H2 & H3 & H4 & H5 & H6 & H7 & H8 & H9 & R).
  destruct (C86_run (fun _ _ => None) (fun _ _ => None) px_triangles (fun _ l => rev l) (@rev nat) 4 (Settings Constant Constant 2 0 0) [] [] (fun _ => []) (fun _ => [])
    px_smcf px_smcf (fun _ _ => eq_refl) px_planar (fun _ l => Permutation_sym (Permutation_rev l)) (fun l => Permutation_sym (Permutation_rev l)) ltac:(cbn; lia)
    px_stack (conj_of px_stack) (hop3_graph 4) (px_env false) (fun _ => None) wf_empty wf_empty px_ws px_outs 10 2 (TilerSettings 4 4 100 1%Q)
    eq_refl H1 H2 ltac:(lia) ltac:(lia) ltac:(lia) H3 H4 H5 H6 H7 H8 zeros_odd) as (ws2 & R2 & K).
  - intros a b b' _. cbn. induction (nth 0 a []); cbn; constructor; [reflexivity|assumption].
  - intros p x. discriminate.
  - intros npts olaps off pins _ _. reflexivity.
  - cbn; lia.
  - exact px_readable.
  - apply conj_of_readable, px_readable.
  - apply conj_of_conjugate.
  - intros t files f g row G _ E Ig. vm_compute in G. injection G as <-. vm_compute in E. injection E as <-. destruct Ig.
  - exact R.
  - exact H9.
  - exact H9.
  - intros n _. split; reflexivity.
  - exists ws2. split; [exact R2|]. destruct (K 1 3 ltac:(cbn; lia) ltac:(lia)) as (r & r2 & W & W2 & P). exists r, r2. split; [exact W|]. split; [exact W2|].
    split; [now apply P|]. destruct C58_pixels as (r0 & v & E & _ & V & [k C]). change (apply_writes wf_empty px_ws "out/20200113_20200206.unw.tif"%string = Some (CRaster r)) in W.
    rewrite W in E. injection E as <-. exists v. split; [exact V|]. intros Z. Transparent twopi.
    rewrite Z in C. unfold twopi, Qeq, Qplus, Qmult, inject_Z in C. cbn [Qnum Qden] in C. rewrite ?Pos2Z.inj_mul in C. lia.
    Opaque twopi.
Qed.

Print Assumptions C86_run.
