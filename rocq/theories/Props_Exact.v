(** C59: a smooth history is recovered exactly. *)
From Verif Require Import Base BaseLemmas PoolProofs GraphModel GraphSpec GraphProofs Hop3Proofs McfModel McfSpec PhaseProofs EmcfModel StripProofs
  TileModel TileSpec Props_Tile NamesModel NamesProofs OverlapModel OverlapSpec BulkModel BulkSpec MergeModel MergeSpec AdjustProofs MergeBatchProofs
  WorkflowModel WorkflowSpec WorkflowProofs WorkflowMain DescribeProofs Props_Merge Props_Workflow SlcModel SlcSpec SlcProofs Props_Slc UnwrapTileModel
  UnwrapTileProofs PipelineSpec PipelineProofs Props_Pipeline ExactSpec ExactTileProofs ExactMergeProofs ExactBulkProofs ExactRunProofs ExactWitness.
From Coq Require Import List Permutation Sorting.Sorted ZifyBool Lqa.
Import ListNotations.
Set Default Goal Selector "!".
Local Open Scope nat_scope.
Opaque twopi.

Lemma cycles_bound (v d : Q) (m n : Z) : (v == d + twopi * inject_Z m)%Q -> (- half <= v <= half)%Q -> (Qabs d <= twopi * inject_Z n)%Q ->
  (Z.abs m <= n)%Z.
Proof.
  intros E [V1 V2] D. apply Qabs_Qle_condition in D as [D1 D2]. unfold half in *. pose proof twopi_pos as P.
  assert (twopi * inject_Z m <= twopi * (inject_Z n + (1 # 2)))%Q as U by lra.
  assert (twopi * (- inject_Z n - (1 # 2)) <= twopi * inject_Z m)%Q as L by lra.
  apply Qmult_le_l in U; [|exact P]. apply Qmult_le_l in L; [|exact P].
  assert (inject_Z m < inject_Z (n + 1))%Q as U' by (rewrite inject_Z_plus; change (inject_Z 1) with 1%Q; lra).
  assert (inject_Z (- n - 1) < inject_Z m)%Q as L' by (rewrite inject_Z_sub, inject_Z_opp; change (inject_Z 1) with 1%Q; lra).
  rewrite <- Zlt_Qlt in U', L'. lia.
Qed.

Section Exact.
  Context (smcf : list arc -> list Z -> option (list Z))
          (triangles : list (Z * Z) -> res (list (nat * nat * nat)))
          (tsched : nat -> list nat -> list nat) (ssched : list nat -> list nat) (cpu : Z)
          (set : settings) (tdist tcent : list Z) (sdist scent : list (Z * Z) -> list Z).
  (* the network solver, the triangulation and the worker pools *)
  Hypothesis Hsm : smcf_sound smcf.
  Hypothesis Htri : forall pts tri, triangles pts = Ok tri -> planar (delaunay (length pts) tri).
  Hypothesis Ht : forall b l, Permutation (tsched b l) l.
  Hypothesis Hs : forall l, Permutation (ssched l) l.
  Hypothesis Hl : 0 < links_per_batch set.
  Notation unwrap := (unwrap_one_tile smcf triangles tsched ssched cpu set tdist tcent sdist scent).

  (** One tile: the phases of an interferogram are the true ones plus the same
      number of cycles at every pixel of the tile. *)
  Theorem C59_tile st Phi gt b f k i j : hop3 (Z.of_nat (length (st_files st))) = Ok gt -> NoDup (map fst (st_files st)) ->
    (0 <= xmin b)%Z -> (0 <= ymin b)%Z -> history st Phi -> smooth triangles st Phi b -> unwrap st gt b = Ok f ->
    nth_error (g_links gt) k = Some (i, j) ->
    exists m : Z,
      (forall p x, nth_error (file_coords f) p = Some x ->
         (MergeSpec.phase_of f k p == true_ifg Phi (nth i (st_dates st) ""%string) (nth j (st_dates st) ""%string) x + twopi * inject_Z m)%Q) /\
      (* the first pixel is between minus half a cycle and half a cycle *)
      (forall x, nth_error (file_coords f) 0 = Some x -> (- half <= MergeSpec.phase_of f k 0 <= half)%Q).
  Proof using Htri Ht Hs Hl.
    intros G Nf Bx By Hh Hsm' U Ek. apply hop3_is in G as [N4 Egt].
    assert (planar gt) as Pgt by (rewrite Egt; apply hop3_planar; auto).
    assert (length (st_files st) = g_npoints gt) as Ld by (rewrite Egt; reflexivity).
    eapply tile_exact; eauto. intros a c I. rewrite Egt in I. cbn [g_links hop3_graph] in I. apply hop3_link_list_In in I; auto. rewrite dates_length. exact I.
  Qed.

  (** The whole workflow. [t] is the tiling; the bulk offset solver meets its
      contract; the true phase of the interferogram is below 2^29 cycles. Then the
      output is the true phase plus a number of cycles that is the same for tiles
      linked by overlaps. A pixel that is also in a tile not linked to [q] is
      excluded. *)
  Theorem C59_workflow st Phi e s ws fn h w s' t :
    NoDup (map fst (st_files st)) -> coh_shape st h w -> (0 < h)%Z -> (0 < w)%Z -> (h * w <= 2 ^ 32)%Z ->
    (forall d, In d (st_dates st) -> underscore_free d) ->
    (forall d1 d2, In d1 (st_dates st) -> In d2 (st_dates st) -> occurs ".tif" (stem (e_out e) (d1, d2)) = false) ->
    picks_in_range (e_pick e) -> tiler_post_init s' = Ok (e_tiler e) -> sched_ok e ->
    (forall n l, length (e_components e n l) = n) -> fresh e s ->
    run (cli unwrap st e) s = (ws, Ok fn) ->
    history st Phi ->
    get_tiles (e_pick e) (e_root e) (e_use_tiles e) (e_tiler e) (stack_mask st) = Ok t ->
    (forall q, q < ntiles t -> smooth triangles st Phi (tile_at t q)) ->
    bulk_solver_ok (e_components e) (e_mip e) (e_lsq e) (e_bulk_method e)
      (forall u v, u < ntiles t -> v < ntiles t -> linked st (e_min_overlap e) t u v) ->
    forall i j, i < j < length (st_dates st) -> j - i <= 3 ->
      let d1 := nth i (st_dates st) ""%string in let d2 := nth j (st_dates st) ""%string in
      let n := unw_filename (e_out e) d1 d2 in
      (forall x, valid_pixel st x -> (Qabs (true_ifg Phi d1 d2 x) <= twopi * inject_Z (2 ^ 29))%Q) ->
      s n = None ->
      exists r (c : nat -> Z), apply_writes s ws n = Some (CRaster r) /\
        (forall u v, u < ntiles t -> linked st (e_min_overlap e) t u v -> c u = c v) /\
        forall q x, q < ntiles t -> valid_pixel st x -> has_pixel (tile_at t q) (fst x) (snd x) ->
          (forall q', q' < ntiles t -> has_pixel (tile_at t q') (fst x) (snd x) -> linked st (e_min_overlap e) t q q') ->
          exists v, pixel r x = Some v /\ (v == true_ifg Phi d1 d2 x + twopi * inject_Z (c q))%Q.
  Proof using Hsm Htri Ht Hs Hl.
    intros Nf Csh Ph Pw Hhw Hus Htif Hpick Htil Hsch Hcc Hfr R Hh G Hsmo Hbs i j B Dij d1 d2 n Hrange Hs0.
    unfold cli in R. apply then_inv in R as (w0 & gt & ws' & R0 & R & ->). apply lift_inv in R0 as [-> R0]. change ([] ++ ws') with ws'. cbn [apply_writes fold_left] in R.
    pose proof R0 as Rg. apply hop3_is in R0 as [N4 Egt]. set (e' := stack_env st gt unwrap e) in *.
    assert (planar gt) as Pgt by (rewrite Egt; apply hop3_planar; auto).
    assert (length (st_files st) = g_npoints gt) as Ld by (rewrite Egt; reflexivity).
    assert (forall a b, In (a, b) (g_links gt) <-> a < b < length (st_dates st) /\ b - a <= 3) as Lk.
    { intros a b. rewrite Egt, dates_length. cbn [g_links hop3_graph]. now apply hop3_link_list_In. }
    assert (names_ok e') as Hn.
    { split; [|split; [|split]]; [|apply (pl_nodup gt Pgt)|exact Hus|exact Htif].
      cbn. unfold st_dates, dates_of. eapply Permutation_NoDup; [symmetry; apply sort_str_perm|exact Nf]. }
    assert (length (stack_mask st) = Z.to_nat h) as Lm by (unfold stack_mask; rewrite map_length; destruct Csh; lia).
    assert (forall i, i < length (stack_mask st) -> length (nth i (stack_mask st) []) = Z.to_nat w) as Lrow.
    { intros a Ba. unfold stack_mask in *. rewrite map_length in Ba. rewrite (nth_indep _ [] (map (above (st_threshold st)) [])) by (now rewrite map_length).
      rewrite map_nth, map_length. destruct Csh as [_ C]. specialize (C (nth a (st_coh st) []) (nth_In _ _ Ba)). lia. }
    assert (shape t = (h, w) /\ (forall b, In b (tiles t) -> box_in_image (h, w) b)) as [Sh Hbox].
    { assert (length (nth 0 (stack_mask st) []) = Z.to_nat w) as L0 by (apply Lrow; lia).
      pose proof G as G'. apply (C30_get_tiles _ _ _ _ s') in G' as (E1 & _ & E2 & _); auto; rewrite ?Lm, ?L0, ?Z2Nat.id in * by lia; try lia; try nia.
      - split; [exact E1|]. now apply Forall_forall.
      - intros a Ba. apply Lrow. lia. }
    assert (forall q, q < ntiles t -> (0 <= xmin (tile_at t q))%Z /\ (0 <= ymin (tile_at t q))%Z) as Hpos.
    { intros q Bq. specialize (Hbox (tile_at t q) (nth_In _ _ Bq)). unfold box_in_image in Hbox. lia. }
    assert (forall q f, q < ntiles t -> e_unwrap e' (tile_at t q) = Ok f -> 
       tf_tile f = tile_at t q /\ tile_bands (length (g_links gt)) f /\ StronglySorted before (tf_points f) /\
       (forall x, In x (file_coords f) <-> valid_pixel st x /\ has_pixel (tile_at t q) (fst x) (snd x))) as Htile.
    { intros q f Bq E. destruct (Hpos q Bq) as [B1 B2]. 
      destruct (C58_tile smcf triangles tsched ssched cpu set tdist tcent sdist scent Hsm Htri Ht Hs Hl st gt (tile_at t q) f) as (T1 & T2 & T3 & T4 & _); auto. }
    assert (unwrap_ok e' h w) as Hu.
    { intros t0 b f G0 I E. assert (t0 = t) as -> by (change (e_valid e') with (stack_mask st) in G0; cbn in G0; congruence).
      apply (In_nth _ _ (BBox 0 0 0 0)) in I as (q & Bq & <-).
      destruct (Htile q f Bq E) as (T1 & (_ & _ & T2) & T3 & T4). split; [exact T1|]. split; [exact T2|]. split; [now apply before_nodup|].
      intros r c J. apply T4 in J as [(z & J & _) _]. apply (image_in _ h w) in J; auto. }
    assert (output_files e' = Ok fn) as Ho.
    { pose proof R as R'. apply main_done in R' as (w1 & w2 & w3 & w4 & w5 & t0 & R1 & R2 & R3 & R4 & R5 & _). eapply outputs; eauto. }
    destruct (outputs_pairs e' fn Ho) as [Efn Bfn]. rewrite map_map in Efn.
    assert (In (i, j) (g_links gt)) as I by now apply Lk. apply In_nth_error in I as (k & Ek).
    assert (nth_error fn k = Some n) as En.
    { rewrite Efn, nth_error_map. change (e_ifgs e') with (g_links gt). rewrite Ek. reflexivity. }
    assert (k < length fn) as Bk by (apply nth_error_Some; congruence).
    assert (nth k fn ""%string = n) as Enk by now apply nth_error_nth.
    assert (k < length (g_links gt)) as Bkl by (apply nth_error_Some; congruence).
    destruct (run_detail e' s ws' fn h w k Hn Hsch Hfr Hu Hhw Hcc R Bk) as (t0 & files & r & G0 & L & Hfiles & Fr & Hr); [now rewrite Enk|].
    assert (t0 = t) as -> by (change (e_valid e') with (stack_mask st) in G0; cbn in G0; congruence). clear G0.
    rewrite Enk in Fr. rewrite Sh in Hr. exists r.
    assert (forall q, q < ntiles t -> tf_tile (nth q files dfile) = tile_at t q /\ tile_bands (length (g_links gt)) (nth q files dfile) /\ StronglySorted before (tf_points (nth q files dfile)) /\
       (forall x, In x (file_coords (nth q files dfile)) <-> valid_pixel st x /\ has_pixel (tile_at t q) (fst x) (snd x))) as HF by auto.
    (* the cycles of a tile *)
    set (D := fun k x => true_ifg Phi (nth (fst (nth k (g_links gt) (0, 0))) (st_dates st) ""%string) (nth (snd (nth k (g_links gt) (0, 0))) (st_dates st) ""%string) x).
    set (M := fun k q => match file_coords (nth q files dfile) with [] => 0%Z | x0 :: _ => Qfloor ((MergeSpec.phase_of (nth q files dfile) k 0 - D k x0) / twopi) end).
    assert (forall k' q, k' < length (g_links gt) -> q < ntiles t ->
       (forall p x, nth_error (file_coords (nth q files dfile)) p = Some x -> (MergeSpec.phase_of (nth q files dfile) k' p == D k' x + twopi * inject_Z (M k' q))%Q) /\
       (forall x, nth_error (file_coords (nth q files dfile)) 0 = Some x -> (- half <= MergeSpec.phase_of (nth q files dfile) k' 0 <= half)%Q)) as HM.
    { intros k' q Bk' Bq. destruct (nth k' (g_links gt) (0, 0)) as [i' j'] eqn:Ek'. destruct (Hpos q Bq) as [P1 P2].
      assert (nth_error (g_links gt) k' = Some (i', j')) as Ek2 by (rewrite <- Ek'; now apply nth_error_nth').
      destruct (C59_tile st Phi gt (tile_at t q) (nth q files dfile) k' i' j' Rg Nf P1 P2 Hh (Hsmo q Bq) (Hfiles q Bq) Ek2) as (m & H1 & H2).
      split; [|exact H2]. intros p x Ex. unfold M, D. rewrite Ek'. cbn [fst snd].
      assert (exists x0 l, file_coords (nth q files dfile) = x0 :: l) as (x0 & l & E0) by (apply nth_error_In in Ex; destruct (file_coords (nth q files dfile)); [destruct Ex|eauto]).
      rewrite E0. rewrite (H1 p x Ex). pose proof (H1 0 x0 ltac:(now rewrite E0)) as Hx0. pose proof twopi_pos as Tp.
      assert (Qfloor ((MergeSpec.phase_of (nth q files dfile) k' 0 - true_ifg Phi (nth i' (st_dates st) ""%string) (nth j' (st_dates st) ""%string) x0) / twopi) = m) as ->; [|reflexivity].
      rewrite <- (Qfloor_Z m). apply Qfloor_comp. rewrite Hx0. field. intros X. rewrite X in Tp. now apply Qlt_irrefl in Tp. }
    assert (forall q, q < ntiles t -> (Z.abs (M k q) <= 2 ^ 29)%Z) as Mb.
    { intros q Bq. destruct (file_coords (nth q files dfile)) as [|x0 l] eqn:E0; [unfold M; rewrite E0; lia|].
      destruct (HM k q Bkl Bq) as [H1 H2]. apply (cycles_bound (MergeSpec.phase_of (nth q files dfile) k 0) (D k x0)); [apply H1; now rewrite E0|apply (H2 x0); now rewrite E0|].
      unfold D. rewrite (nth_error_nth _ _ _ Ek). apply Hrange. apply (HF q Bq). rewrite E0. now left. }
    assert (forall q x p, found files x q p -> q < ntiles t /\ nth_error (file_coords (nth q files dfile)) p = Some x) as Fnd.
    { intros q x p (fl & E1 & E2). rewrite (nth_error_nth _ _ _ E1). split; [rewrite <- L; apply nth_error_Some; congruence|exact E2]. }
    assert (D k = true_ifg Phi d1 d2) as Dk by (unfold D; now rewrite (nth_error_nth _ _ _ Ek)).
    assert (forall x, valid_pixel st x -> in_shape (h, w) x = true) as Ins.
    { intros x (z & J & _). apply (image_in _ h w) in J; auto. unfold in_shape. cbn. lia. }
    assert (forall q x, q < ntiles t -> valid_pixel st x -> has_pixel (tile_at t q) (fst x) (snd x) -> exists p, nth_error (file_coords (nth q files dfile)) p = Some x) as Hin.
    { intros q x Bq V P. apply In_nth_error, (HF q Bq). auto. }
    destruct Hr as [[N1 Hr]|[N1 (f & omap & md & bulk & rr & diff & model & Ecp & Egb & Eom & Rec & _ & Eal)]].
    - exists (fun _ => M k 0). split; [exact Fr|]. split; [auto|]. intros q x Bq V P _. assert (q = 0) as -> by lia.
      destruct (Hin 0 x Bq V P) as (p & Ep). destruct (HF 0 Bq) as (_ & (_ & _ & T2) & T3 & _).
      destruct (C41_single _ _ _ _ x T2 (before_nodup _ T3) Hr (Ins x V)) as (_ & _ & K). destruct (K p Ep) as (v & Ev & Evq). exists v. split; [exact Ev|].
      rewrite Evq, <- Dk. now apply (HM k 0 Bkl Bq).
    - assert (forall fl, In fl files -> exists q, q < ntiles t /\ fl = nth q files dfile) as Hfl.
      { intros fl J. apply (In_nth _ _ dfile) in J as (q & Bq & <-). exists q. split; [lia|reflexivity]. }
      assert (forall fl, In fl files -> NoDup (tf_points fl)) as Hnd.
      { intros fl J. destruct (Hfl fl J) as (q & Bq & ->). apply before_nodup, (HF q Bq). }
      assert (forall fl, In fl files -> in_grid h w (file_coords fl)) as Hgr.
      { intros fl J. destruct (Hfl fl J) as (q & Bq & ->). intros a c X. apply (HF q Bq) in X as [(z & X & _) _]. apply (image_in _ h w) in X; auto. }
      assert (forall u v, u < ntiles t -> linked st (e_min_overlap e) t u v -> v < ntiles t /\ reach (of_overlaps f) u v) as Hreach.
      { intros u v Bu Lk0. induction Lk0 as [|v v' Lk0 IH Bv Bv' (l & Ndl & Nel & Cl & Vl)]; [split; [exact Bu|constructor]|].
        split; [exact Bv'|]. destruct (Nat.eq_dec v v') as [<-|Nv]; [apply IH|].
        apply (reach_step _ _ v); [apply IH|].
        assert (forall a b, a < ntiles t -> b < ntiles t -> a < b -> (forall x, In x l -> valid_pixel st x /\ has_pixel (tile_at t a) (fst x) (snd x) /\ has_pixel (tile_at t b) (fst x) (snd x)) ->
          In (a, b) (of_overlaps f)) as K.
        { intros a b Ba Bb Lab Vab.
          assert (incl l (common_pixels (nth a files dfile) (nth b files dfile))) as Inc.
          { intros x Ix. apply in_common. destruct (Vab x Ix) as (V1 & V2 & V3). split; [apply (HF a Ba)|apply (HF b Bb)]; auto. }
          pose proof (NoDup_incl_length Ndl Inc) as Le.
          apply (computed_pair (e_components e') (e_min_overlap e') files t f h w Ecp Hcc L); auto.
          - intros q Bq. apply HF, Bq.
          - intros q x Bq X. apply (HF q Bq), X.
          - intros X. rewrite X in Le. destruct l; [contradiction|cbn in Le; lia].
          - change (e_min_overlap e') with (e_min_overlap e). lia. }
        destruct (Nat.lt_ge_cases v v') as [C|C]; [left; apply K; auto|right; apply K; auto; [lia|]]. intros x Ix. destruct (Vl x Ix) as (V1 & V2 & V3). auto. }
      destruct (bulk_right (e_components e') (e_min_overlap e') files t f h w Ecp Hcc L (fun q Bq => proj1 (HF q Bq)) Hnd Hgr Hhw (length (g_links gt))
        ltac:(intros fl J; destruct (Hfl fl J) as (q & Bq & ->); apply HF, Bq) D M
        ltac:(intros k' q p x Bk' Fx; apply Fnd in Fx as [Bq Ex]; now apply (HM k' q Bk' Bq))
        _ _ _ _ _ _ k Bkl Egb) as (Hd & (c & Hc) & _).
      { destruct Hbs as [Hb1 Hb2]. split; [exact Hb1|]. intros E2. destruct (Hb2 E2) as [Hb3 Hb4]. split; [exact Hb3|]. intros u v Bu Bv. now apply Hreach, Hb4. }
      { intros a b Ba Bb. pose proof (Mb a Ba). pose proof (Mb b Bb). lia. }
      assert (forall u v, u < ntiles t -> linked st (e_min_overlap e) t u v -> c u = c v) as Cl.
      { intros u v Bu Luv. destruct (Hreach u v Bu Luv) as [Bv Rv]. apply inject_Z_injective. rewrite <- (Hc u Bu), <- (Hc v Bv).
        apply (reach_same (of_overlaps f) (fun q => inject_Z (M k q) - nth q (nth k bulk []) 0)%Q); [|exact Rv].
        intros a b Iab. specialize (Hd a b Iab). lra. }
      exists c. split; [exact Fr|]. split; [exact Cl|]. intros q x Bq V P Hlk.
      destruct (exact_pixel e' f omap md bulk (h, w) files k r diff model) with (D := D k) (M := M k) (x := x) (c := c q) as (v & w' & Ev & Evq & _); auto.
      + intros fl J. destruct (Hfl fl J) as (z & Bz & ->). split; [exact (proj2 (proj2 (proj1 (proj2 (HF z Bz)))))|apply Hnd, J].
      + intros z p y Fz. apply Fnd in Fz as [Bz Ez]. now apply (HM k z Bkl Bz).
      + destruct (Hin q x Bq V P) as (p & Ep). exists q, p, (nth q files dfile). split; [apply nth_error_nth'; lia|exact Ep].
      + intros z p Fz. apply Fnd in Fz as [Bz Ez]. rewrite (Hc z Bz). rewrite (Cl q z Bq); [reflexivity|]. apply Hlk; [exact Bz|].
        apply (HF z Bz), (nth_error_In _ _ Ez).
      + exists v. split; [exact Ev|]. rewrite Evq, Dk. reflexivity.
  Qed.
End Exact.

(** * Cases *)

(** The stack of the example of C58 and the history it was made from. *)
Definition px_time (d : string) : Z :=
  if String.eqb d "20200113" then 1 else if String.eqb d "20200125" then 2 else if String.eqb d "20200206" then 3 else 0.
Definition px_phase (d : string) (x : Z * Z) : Q := (inject_Z (px_time d * (fst x + snd x)) * (1 # 2))%Q.

Lemma px_image_at t x v : image_at (px_image t) x = Some v -> cong2pi v (inject_Z (Z.of_nat t * (fst x + snd x)) * (1 # 2)).
Proof.
  unfold image_at. destruct (_ && _) eqn:B; [|discriminate]. unfold pixel_at, px_image. rewrite nth_error_map.
  destruct (nth_error (seq 0 10) (Z.to_nat (fst x))) as [r|] eqn:Er; [|discriminate]. cbn [option_map].
  assert (Z.to_nat (fst x) < 10) as Br by (rewrite <- (seq_length 10 0); apply nth_error_Some; congruence).
  rewrite (nth_error_nth' _ 0) in Er by (now rewrite seq_length). rewrite seq_nth in Er by auto. injection Er as <-.
  rewrite nth_error_map. destruct (nth_error [0; 1] (Z.to_nat (snd x))) as [c|] eqn:Ec; [|discriminate]. cbn [option_map]. intros [= <-].
  assert (c = Z.to_nat (snd x)) as -> by (destruct (Z.to_nat (snd x)) as [|[|[|k]]]; cbn in Ec; congruence).
  exists (- Z.of_nat (t * (0 + Z.to_nat (fst x))))%Z. rewrite inject_Z_opp.
  replace (Z.of_nat t * (fst x + snd x))%Z with (Z.of_nat (t * (0 + Z.to_nat (fst x) + Z.to_nat (snd x)))) by lia. rewrite !Nat.add_0_l. ring.
Qed.

Example px_history : history px_stack px_phase.
Proof.
  intros d x v. unfold slc_phase, px_phase, px_time. cbn [px_stack st_files dict_get fst snd].
  destruct (String.eqb_spec d "20200101") as [->|N0]; [cbn; intros [= <-]; exists 0%Z; destruct x; cbn; reflexivity|].
  destruct (String.eqb_spec d "20200113") as [->|N1]; [cbn; apply (px_image_at 1)|].
  destruct (String.eqb_spec d "20200125") as [->|N2]; [cbn; apply (px_image_at 2)|].
  destruct (String.eqb_spec d "20200206") as [->|N3]; [cbn; apply (px_image_at 3)|].
  repeat (rewrite (proj2 (String.eqb_neq _ _)) by congruence). discriminate.
Qed.

Example px_smooth : smooth px_triangles px_stack px_phase (BBox 0 0 10 2).
Proof. eapply smooth_check; [cbn; lia|cbn; lia|reflexivity|vm_compute; reflexivity]. Qed.

(** The run of C58 with solvers that meet their contracts. *)
Definition px_env1 : env :=
  Env "tmp" "out" [] [] [] (fun _ => Err ValueError) (@rev nat) false (TilerSettings 4 4 100 1%Q) 2 11 "dirichlet" "L2" 1 pick_rows (fun _ => 2%Z)
      labels_of exact_mip exact_lsq (fun _ b => map (fun _ => 0%Q) b) (fun _ => true) wf_triangles.
Definition px_ws1 : list write := fst (run (cli px_unwrap px_stack px_env1) wf_empty).
Example px_run1 : run (cli px_unwrap px_stack px_env1) wf_empty = (px_ws1, Ok px_outs).
Proof.
  assert (snd (run (cli px_unwrap px_stack px_env1) wf_empty) = Ok px_outs) as H by (vm_compute; reflexivity).
  rewrite <- H. apply surjective_pairing.
Qed.
Example C59_solvers linked : bulk_solver_ok labels_of exact_mip exact_lsq "integer" linked.
Proof. split; [intros _; split; [apply exact_mip_sound|apply components_witness]|intros X; discriminate X]. Qed.

(** The hypotheses hold of that run, and the theorem gives the phase of one pixel
    up to the cycles of the tile. *)
Example C59_witness : exists r v (c : Z), apply_writes wf_empty px_ws1 "out/20200113_20200206.unw.tif"%string = Some (CRaster r) /\
  pixel r (8, 1)%Z = Some v /\ (v == 9 + twopi * inject_Z c)%Q.
Proof.
  destruct C58_witness as (H1 & H2 & H3 & H4 & H5 & H6 & H7 & H8 & H9 & _).
  destruct (C59_workflow (fun _ _ => None) px_triangles (fun _ l => rev l) (@rev nat) 4 (Settings Constant Constant 2 0 0) [] [] (fun _ => []) (fun _ => [])
    px_smcf px_planar (fun _ l => Permutation_sym (Permutation_rev l)) (fun l => Permutation_sym (Permutation_rev l)) ltac:(cbn; lia)
    px_stack px_phase px_env1 wf_empty px_ws1 px_outs 10 2 _ (TileSet (10, 2)%Z [BBox 0 0 10 2])
    H1 H2 ltac:(lia) ltac:(lia) ltac:(lia) H3 H4 H5 H6 H7 (proj1 components_witness) H9 px_run1 px_history eq_refl) with (i := 1) (j := 3) as (r & c & E & _ & P).
  - intros q Bq. cbn in Bq. assert (q = 0) as -> by lia. apply px_smooth.
  - split; [intros X; discriminate X|]. intros _. split; [apply exact_lsq_ok|].
    intros u v Bu Bv. cbn in Bu, Bv. assert (u = 0) as -> by lia. assert (v = 0) as -> by lia. constructor.
  - cbn; lia.
  - lia.
  - intros x (z & J & _). apply (image_in _ 10 2) in J; [|apply px_coh]. unfold true_ifg, px_phase.
    replace (nth 1 (st_dates px_stack) ""%string) with "20200113"%string by reflexivity. replace (nth 3 (st_dates px_stack) ""%string) with "20200206"%string by reflexivity.
    replace (px_time "20200113") with 1%Z by reflexivity. replace (px_time "20200206") with 3%Z by reflexivity. unfold in_image in J.
    rewrite !inject_Z_mult. change (inject_Z 1) with 1%Q. change (inject_Z 3) with 3%Q.
    assert (0 <= inject_Z (fst x + snd x))%Q as B1 by (change 0%Q with (inject_Z 0); rewrite <- Zle_Qle; lia).
    assert (inject_Z (fst x + snd x) <= inject_Z 11)%Q as B2 by (rewrite <- Zle_Qle; lia). change (inject_Z 11) with 11%Q in B2.
    change (inject_Z (2 ^ 29)) with (536870912)%Q. assert (6 < twopi)%Q by reflexivity. apply Qabs_Qle_condition. split; lra.
  - reflexivity.
  - destruct (P 0 (8, 1)%Z) as (v & Ev & Evq).
    + cbn; lia.
    + exists (4 # 5)%Q. split; vm_compute; reflexivity.
    + unfold has_pixel. cbn. lia.
    + intros q Bq _. cbn in Bq. assert (q = 0) as -> by lia. constructor.
    + exists r, v, (c 0). split; [exact E|]. split; [exact Ev|]. rewrite Evq. apply Qplus_comp; reflexivity.
Qed.

Print Assumptions C59_tile.
Print Assumptions C59_workflow.
