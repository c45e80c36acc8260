(** C83: with rounding, too, the workflow runs to its end on a smooth stack. *)
From Verif Require Import Base BaseLemmas PoolProofs GraphModel GraphSpec GraphProofs Hop3Proofs McfModel McfSpec PhaseProofs EmcfModel StripProofs
  TileModel TileSpec OverlapModel OverlapSpec BulkModel BulkSpec BulkProofs MergeModel MergeSpec AdjustProofs DescribeProofs Props_Merge
  SlcModel SlcSpec SlcProofs UnwrapTileModel UnwrapTileProofs PipelineSpec PipelineProofs Props_Pipeline ExactSpec ExactTileProofs ExactWitness Props_Exact
  FloatModel FloatMcfModel FloatMcfSpec FloatMcfRound FloatPhaseProofs FloatResidueProofs FloatCubeModel Props_FloatMcf Props_FloatCube Props_FloatSmooth
  FloatMergeModel FloatMergeSpec FloatMergeRun Props_FloatMerge FloatTileModel FloatTileSpec FloatTileProofs FloatRunModel FloatRunProofs Props_FloatRun DualProofs ResidueProofs Props_Slc TotalProofs TotalMergeProofs TotalRunProofs LaplacianProofs Props_Total Props_Mcf.
From Coq Require Import String.
From Coq Require Import List Sorting.Sorted ZifyBool Lqa.
Import ListNotations.
Set Default Goal Selector "!".
Local Open Scope Q_scope.
Opaque twopi.
Local Notation num := Props_FloatMcf.num.

Section Total.
  (* the formats: of the unwrapping, of the merge, of offsets and comparisons *)
  Context (F : formats) (fl fd fc : Q -> Q) (u w v M P B K : Q) (L N : nat).
  Hypothesis HF : tile_formats F u w M.
  Hypothesis Hfl : rounding fl u.
  Hypothesis Hfd : rounding fd v.
  Hypothesis Hfc : rounding fc v.
  Hypothesis Hvu : v <= u.
  Hypothesis HK : 1 <= K.
  Hypothesis Hsz : run_sizes u w M P B K L N.
  (* no closure check of flood_fill can fail *)
  Hypothesis Hclose : (num L + 1) * hop_err u w M 4 B <= 1 # 4000.
  (* the solvers, the triangulation and the worker pools; the network solver is arbitrary *)
  Context (smcf : list arc -> list Z -> option (list Z))
          (triangles : list (Z * Z) -> res (list (nat * nat * nat)))
          (tsched : nat -> list nat -> list nat) (ssched : list nat -> list nat) (cpu : Z)
          (set : settings) (tdist tcent : list Z) (sdist scent : list (Z * Z) -> list Z)
          (comps : nat -> list (nat * nat) -> list nat) (minp : Z) (mip_solve : mip -> option (list Z)) (lsq : list (list Q) -> list Q -> list Q)
          (solve : list (Z * Z) -> list bool -> list Q -> res (list Q)).
  Hypothesis Htri : forall pts tri, triangles pts = Ok tri -> planar (delaunay (length pts) tri).
  Hypothesis Ht : forall b l, Permutation (tsched b l) l.
  Hypothesis Hs : forall l, Permutation (ssched l) l.
  Hypothesis Hl : (0 < links_per_batch set)%nat.
  Hypothesis Hct : t_cost_type set <> OtherCost.
  Hypothesis Hcs : s_cost_type set <> OtherCost.
  Hypothesis Hw : (1 <= space_workers (s_worker_count set) cpu)%Z.
  Hypothesis Hmip : mip_sound mip_solve.
  Hypothesis Hmc : mip_complete mip_solve.
  Hypothesis Hcomp : components_ok comps.
  Hypothesis Hsolve : amplifies K solve.
  Hypothesis Hans : answers solve.
  Hypothesis Hminp : (11 <= minp)%Z.
  (* the stack and the tiles *)
  Context (st : slc_stack Q) (t : tileset) (gt : graph) (Phi : string -> Z * Z -> Q) (h : Z) (wd : Z).
  Hypothesis Hgt : hop3 (Z.of_nat (length (st_files st))) = Ok gt.
  Hypothesis Hst : NoDup (map fst (st_files st)).
  Hypothesis Hcoh : coh_shape st h wd.
  Hypothesis Hshape : shape t = (h, wd).
  Hypothesis Hfit : (h * wd <= 2 ^ 32)%Z.
  Hypothesis Hbox : forall q, (q < ntiles t)%nat -> box_in_image (h, wd) (tile_at t q).
  Hypothesis Hcov : covered_at_most N t.
  Hypothesis Hlinked : forall q q' x, (q < ntiles t)%nat -> (q' < ntiles t)%nat -> valid_pixel st x ->
    has_pixel (tile_at t q) (fst x) (snd x) -> has_pixel (tile_at t q') (fst x) (snd x) -> linked st minp t q q'.
  (* the history *)
  Hypothesis Hhist : history st Phi.
  Hypothesis HM : samples_within M st.
  Hypothesis HP : forall i j x, is_ifg_of st i j -> valid_pixel st x -> Qabs (ifg_at st Phi i j x) <= P.
  Hypothesis Htiles : forall q, (q < ntiles t)%nat ->
    smooth_by (margin u M) triangles st Phi (tile_at t q) /\ varies_by B st Phi (tile_at t q) /\ depth_by L triangles st (tile_at t q).

  Notation unwrap := (unwrap_one_tile_fl F smcf triangles tsched ssched cpu set tdist tcent sdist scent st gt).


  (** One tile that can be triangulated. *)
  Theorem C83_tile b : (0 <= xmin b)%Z -> (0 <= ymin b)%Z -> readable st ->
    smooth_by (margin u M) triangles st Phi b -> varies_by B st Phi b -> depth_by L triangles st b ->
    (forall pts, tile_pixels st b pts -> exists tri, triangles pts = Ok tri) ->
    exists f, unwrap b = Ok f.
  Proof using HF Hclose Hsz Htri Ht Hs Hl Hct Hcs Hw Hgt Hst Hhist HM.
    intros Bx By Hrd S1 S2 S3 Hok. pose proof Hgt as G. apply hop3_is in G as [N4 Egt].
    assert (planar gt) as Pgt by (rewrite Egt; apply hop3_planar; auto).
    assert (length (st_files st) = g_npoints gt) as Ld by (rewrite Egt; reflexivity).
    assert (forall i j, In (i, j) (g_links gt) -> is_ifg_of st i j) as Lk.
    { intros a c I. rewrite Egt in I. unfold is_ifg_of. rewrite dates_length. cbn [g_links hop3_graph] in I. now apply hop3_link_list_In in I. }
    destruct (C50_reads 0%Q st b Hst Hrd) as (wrap & Ew).
    destruct (tile_read set Hl st gt b Hst Ld (conj Bx By) wrap Ew) as (Hp & Es & rows & Ec & _). set (pts := nonzero (tile_mask st b)) in *.
    destruct (Hok pts Hp) as (tri & Et). pose proof (Htri _ _ Et) as Pg.
    unfold unwrap_one_tile_fl. rewrite (planar_solver gt Pgt). cbn [bind].
    change (map (map (above (st_threshold st))) (read_temporal_coherence st b)) with (tile_mask st b). fold pts. rewrite Et. cbn [bind].
    rewrite (planar_solver _ Pg). cbn [bind]. rewrite Ew. cbn [bind]. rewrite Es. cbn [nth]. change (g_npoints (delaunay (length pts) tri)) with (length pts).
    rewrite Nat.eqb_refl. cbn [negb].
    destruct (pick_total (t_cost_type set) (length (g_links gt)) tdist tcent Hct) as (tc & Etc).
    destruct (pick_total (s_cost_type set) (length (g_links (delaunay (length pts) tri))) (sdist pts) (scent pts) Hcs) as (sc & Esc).
    destruct (solved_fl F u w M B L HF smcf triangles tsched ssched cpu set tdist tcent sdist scent Htri Ht Hs Hl st gt b Phi Pgt (hop3_triangles _ _ Hgt) Lk Hst Ld (conj Bx By) Hhist HM
      S1 S2 S3 (rs_hop _ _ _ _ _ _ _ _ Hsz)
      wrap tri (dual_solver (delaunay (length pts) tri)) (dual_solver gt) rows tc sc Ew Ec Et (planar_solver gt Pgt) (planar_solver _ Pg) Etc Esc Hw) as (U & [_ EU] & _).
    fold pts in EU. rewrite (EU Hclose). cbn [bind]. eauto.
  Qed.

  (** The whole run. Every tile can be triangulated, and there are two tiles that share
      enough valid pixels unless there is one tile only. *)
  Theorem C83_run k : (k < length (g_links gt))%nat -> (0 < h)%Z -> (0 < wd)%Z -> readable st ->
    (forall q pts, (q < ntiles t)%nat -> tile_pixels st (tile_at t q) pts -> exists tri, triangles pts = Ok tri) ->
    ntiles t = 1%nat \/ (exists a b, (a < b < ntiles t)%nat /\ overlapping st minp (tile_at t a) (tile_at t b)) ->
    exists r, band_fl fl fd fc unwrap comps minp mip_solve lsq solve t (stack_mask st) k = Ok r.
  Proof using All.
    intros Bk Ph Pw Hrd Hok Hov. unfold band_fl.
    assert (exists files, map_res unwrap (tiles t) = Ok files) as (files & Ef).
    { apply map_res_total. intros b I. apply (In_nth _ _ (BBox 0 0 0 0)) in I as (q & Bq & <-). pose proof (Hbox q Bq) as Hb. unfold box_in_image in Hb.
      destruct (Htiles q Bq) as (S1 & S2 & S3). apply (C83_tile (tile_at t q)); auto; [lia|lia|]. intros pts P0. now apply (Hok q). }
    rewrite Ef. cbn [bind].
    apply map_res_nth in Ef as [Lf Kf]. destruct Hsz as [Z1 Z2 Z3 Z4 Z5 Z6 Z7 Z8 Z9 Z10].
    pose proof Hgt as Hgt'. apply hop3_is in Hgt' as [N4 Egt].
    assert (planar gt) as Pgt by (rewrite Egt; apply hop3_planar; auto).
    assert (length (st_files st) = g_npoints gt) as Ld by (rewrite Egt; reflexivity).
    assert (forall a b, In (a, b) (g_links gt) -> is_ifg_of st a b) as Lk.
    { intros a b I. rewrite Egt in I. unfold is_ifg_of. rewrite dates_length. cbn [g_links hop3_graph] in I. now apply hop3_link_list_In in I. }
    pose proof HF as [F1 F2 _ _ _ _ _]. pose proof (rd_nonneg _ _ Hfl) as U0. pose proof (rd_nonneg _ _ (fo_e _ _ _ F1)) as W0.
    set (bands := length (g_links gt)). set (e := tile_err u w M B L). set (R := reach_of P B). set (C := B + 5).
    assert (forall q, (q < ntiles t)%nat -> unwrap (tile_at t q) = Ok (nth q files dfile)) as Hu.
    { intros q Bq. unfold tile_at. now apply Kf. }
    assert (forall q, (q < ntiles t)%nat -> tf_tile (nth q files dfile) = tile_at t q /\ tile_bands bands (nth q files dfile) /\ StronglySorted before (tf_points (nth q files dfile)) /\
      (forall x, In x (file_coords (nth q files dfile)) <-> valid_pixel st x /\ has_pixel (tile_at t q) (fst x) (snd x)) /\
      forall k i j, nth_error (g_links gt) k = Some (i, j) -> exists m : Z,
        forall p x, nth_error (file_coords (nth q files dfile)) p = Some x ->
          within e (MergeSpec.phase_of (nth q files dfile) k p) (ifg_at st Phi i j x + twopi * inject_Z m) /\ Qabs (ifg_at st Phi i j x + twopi * inject_Z m) <= C) as HT.
    { intros q Bq. destruct (Htiles q Bq) as (S1 & S2 & S3). pose proof (Hbox q Bq) as Hb.
      apply (tile_fl F u w M B L HF smcf triangles tsched ssched cpu set tdist tcent sdist scent Htri Ht Hs Hl st gt (tile_at t q) Phi Pgt (hop3_triangles _ _ Hgt) Lk Hst Ld);
        auto. unfold box_in_image in Hb. lia. }
    set (ij := fun k => nth k (g_links gt) (0, 0)%nat). set (D := fun k x => ifg_at st Phi (fst (ij k)) (snd (ij k)) x).
    assert (forall k, (k < bands)%nat -> nth_error (g_links gt) k = Some (fst (ij k), snd (ij k))) as Hij.
    { intros k' Bk'. rewrite <- surjective_pairing. unfold ij. now apply nth_error_nth'. }
    destruct (choose (fun k (m : nat -> Z) => forall q, (q < ntiles t)%nat ->
        (forall p x, nth_error (file_coords (nth q files dfile)) p = Some x ->
           within e (MergeSpec.phase_of (nth q files dfile) k p) (D k x + twopi * inject_Z (m q)) /\ Qabs (D k x + twopi * inject_Z (m q)) <= C) /\
        Qabs (twopi * inject_Z (m q)) <= P + C) (fun _ => 0%Z) bands) as (m & Hm).
    { intros k' Bk'. apply (choose (fun q m =>
        (forall p x, nth_error (file_coords (nth q files dfile)) p = Some x ->
           within e (MergeSpec.phase_of (nth q files dfile) k' p) (D k' x + twopi * inject_Z m) /\ Qabs (D k' x + twopi * inject_Z m) <= C) /\
        Qabs (twopi * inject_Z m) <= P + C) 0%Z). intros q Bq. destruct (HT q Bq) as (_ & _ & _ & Hc & Hk). destruct (Hk _ _ _ (Hij k' Bk')) as (m & Hm).
      destruct (file_coords (nth q files dfile)) as [|x0 l] eqn:E0.
      - exists 0%Z. split; [intros p x E; destruct p; discriminate E|]. change (inject_Z 0) with 0. rewrite Qmult_0_r. change (Qabs 0) with 0. unfold C. lra.
      - exists m. split; [exact Hm|]. destruct (Hm 0%nat x0 eq_refl) as [_ H2]. apply abs_le in H2.
        assert (valid_pixel st x0) as V0 by (apply Hc; now left). pose proof (HP _ _ x0 (Lk _ _ (nth_error_In _ _ (Hij k' Bk'))) V0) as H1. apply abs_le in H1. apply abs_le. lra. }
    assert (forall x, valid_pixel st x -> in_shape (shape t) x = true) as Ins.
    { intros x (z & J & _). rewrite Hshape. apply (image_in _ h wd) in J; auto. unfold in_shape, in_image in *. cbn [fst snd] in *. lia. }
    assert (0 <= e) as E0 by (apply tile_err_nonneg; lra).
    assert (length files = ntiles t) as Lft by exact Lf.
    assert (overlap_at_most N files) as HN.
    { apply (covered_files N t files Lft Hcov). intros q x Bq I. now apply (HT q Bq) in I. }
    assert (forall q, (q < ntiles t)%nat -> let f := nth q files dfile in tf_tile f = tile_at t q /\ tile_bands bands f /\ StronglySorted before (tf_points f) /\
      forall x, In x (file_coords f) <-> valid_pixel st x /\ has_pixel (tile_at t q) (fst x) (snd x)) as HFq.
    { intros q Bq. destruct (HT q Bq) as (T1 & T2 & T3 & T4 & _). auto. }
    assert (forall k' q p x, (k' < bands)%nat -> (q < ntiles t)%nat -> nth_error (file_coords (nth q files dfile)) p = Some x ->
      within e (MergeSpec.phase_of (nth q files dfile) k' p) (D k' x + twopi * inject_Z (m k' q)) /\ Qabs (D k' x + twopi * inject_Z (m k' q)) <= C) as HMm.
    { intros k' q p x Bk' Bq E. now apply (Hm k' Bk' q Bq). }
    assert (fst (shape t) * snd (shape t) <= 2 ^ 32)%Z as Hfit' by (rewrite Hshape; exact Hfit).
    assert (0 <= C) as C0 by (unfold C; lra). assert (C + 1 <= R) as RC by (unfold R, C, reach_of; lra). assert (2 * P + C <= R) as RP by (unfold R, C, reach_of; lra).
    assert (forall k' q, (k' < bands)%nat -> (q < ntiles t)%nat -> Qabs (twopi * inject_Z (m k' q)) <= P + C) as HMP by (intros k' q Bk' Bq; now apply (Hm k' Bk' q Bq)).
    assert (forall k' x, (k' < bands)%nat -> valid_pixel st x -> Qabs (D k' x) <= P) as HPD.
    { intros k' x Bk' V. apply HP; [|exact V]. apply (Lk _ _ (nth_error_In _ _ (Hij k' Bk'))). }
    destruct (Nat.eq_dec (ntiles t) 1) as [N1|N1].
    - unfold merged_fl. rewrite N1. cbn [Nat.eqb]. unfold single_band_fl. fold dfile.
      destruct (HFq 0%nat ltac:(lia)) as (_ & (T1 & T2 & T3) & _ & T5). rewrite T1, T2. fold bands in Bk. destruct (Nat.ltb_spec k bands); [|lia]. cbn [andb negb].
      rewrite (proj2 (forallb_forall _ _)); [cbn [negb]; eauto|]. intros x Ix. apply T5 in Ix as [V _]. now apply Ins.
    - destruct Hov as [?|Hov]; [contradiction|].
      eapply run_total with (C := C) (P := P) (R := R) (v := v) (K := K) (N := N) (u := u) (e := e) (M := m) (D := D); eauto.
      + rewrite Hshape. exact Ph.
      + rewrite Hshape. exact Pw.
      + intros q Bq X. destruct (HFq q Bq) as (T1 & _ & T3 & T4).
        assert (tile_pixels st (tile_at t q) []) as Px.
        { split; [constructor|]. intros p. split; [intros []|]. intros (V & B1 & B2).
          assert (In (place (tile_at t q) p) (file_coords (nth q files dfile))) as I.
          { apply T4. split; [exact V|]. unfold has_pixel, place. cbn [fst snd]. lia. }
          unfold file_coords in I. rewrite X in I. exact I. }
        destruct (Hok q [] Bq Px) as (tri & Et). pose proof (Htri _ _ Et) as Pl. destruct (planar_lap_n _ Pl) as [_ Z0]. unfold lap_n in Z0. cbn in Z0. lia.
  Qed.
End Total.

(** ** Single precision *)
(** As C71_single, with at most 11 sides from the first point of a tile to any other. *)
Theorem C83_single smcf triangles tsched ssched cpu set tdist tcent sdist scent comps minp mip_solve lsq solve st t gt Phi h wd k :
  (forall pts tri, triangles pts = Ok tri -> planar (delaunay (length pts) tri)) ->
  (forall b l, Permutation (tsched b l) l) -> (forall l, Permutation (ssched l) l) -> (0 < links_per_batch set)%nat ->
  t_cost_type set <> OtherCost -> s_cost_type set <> OtherCost -> (1 <= space_workers (s_worker_count set) cpu)%Z ->
  mip_sound mip_solve -> mip_complete mip_solve -> components_ok comps -> amplifies 1 solve -> answers solve -> (11 <= minp)%Z ->
  hop3 (Z.of_nat (length (st_files st))) = Ok gt -> NoDup (map fst (st_files st)) -> coh_shape st h wd -> shape t = (h, wd) -> (h * wd <= 2 ^ 32)%Z ->
  (forall q, (q < ntiles t)%nat -> box_in_image (h, wd) (tile_at t q)) -> covered_at_most 4 t ->
  (forall q q' x, (q < ntiles t)%nat -> (q' < ntiles t)%nat -> valid_pixel st x ->
     has_pixel (tile_at t q) (fst x) (snd x) -> has_pixel (tile_at t q') (fst x) (snd x) -> linked st minp t q q') ->
  history st Phi -> samples_within 4 st ->
  (forall i j x, is_ifg_of st i j -> valid_pixel st x -> Qabs (ifg_at st Phi i j x) <= 2000) ->
  (forall q, (q < ntiles t)%nat ->
     smooth_by (1 # 30000) triangles st Phi (tile_at t q) /\ varies_by 1000 st Phi (tile_at t q) /\ depth_by 11 triangles st (tile_at t q)) ->
  (k < length (g_links gt))%nat -> (0 < h)%Z -> (0 < wd)%Z -> readable st ->
  (forall q pts, (q < ntiles t)%nat -> tile_pixels st (tile_at t q) pts -> exists tri, triangles pts = Ok tri) ->
  ntiles t = 1%nat \/ (exists a b, (a < b < ntiles t)%nat /\ overlapping st minp (tile_at t a) (tile_at t b)) ->
  exists r, band_fl rnd32 rnd64 rnd64 (unwrap_one_tile_fl single smcf triangles tsched ssched cpu set tdist tcent sdist scent st gt)
    comps minp mip_solve lsq solve t (stack_mask st) k = Ok r.
Proof.
  intros Htri Ht Hs Hl Hct Hcs Hw Hmip Hmc Hcomp Hsol Hans Hmin Hgt Hst Hcoh Hsh Hfit Hbox Hcov Hlk Hh HM HP Ht1 Bk Ph Pw Hrd Hok Hov.
  apply (C83_run single rnd32 rnd64 rnd64 u32 u64 u64 4 2000 1000 1 11 4 single_tiles (fo_s _ _ _ C69_formats) (fo_e _ _ _ C69_formats) (fo_e _ _ _ C69_formats)
    ltac:(vm_compute; discriminate) ltac:(lra) (single_sizes 11 ltac:(lia)) ltac:(vm_compute; discriminate) smcf triangles tsched ssched cpu set tdist tcent sdist scent
    comps minp mip_solve lsq solve Htri Ht Hs Hl Hct Hcs Hw Hmip Hmc Hcomp Hsol Hans Hmin st t gt Phi h wd Hgt Hst Hcoh Hsh Hfit Hbox Hcov Hlk Hh HM HP); auto.
  intros q Bq. destruct (Ht1 q Bq) as (S1 & S2 & S3). split; [|auto]. intros pts tri a b d E1 E2 E3 x y Ix Iy i' j' I.
  specialize (S1 pts tri a b d E1 E2 E3 x y Ix Iy i' j' I). assert (margin u32 4 <= 1 # 30000) by (vm_compute; discriminate). lra.
Qed.

(** * The stack of C71_witness *)
Lemma strip_half n : (3 <= n)%nat -> depth_le (g_links (delaunay n (strip n))) n ((n + 1) / 2).
Proof.
  intros Hn v Hv. exists ((v + 1) / 2)%nat. split; [apply Nat.div_le_mono; lia|].
  enough (forall m v, (v < m)%nat -> (v < n)%nat -> hops (g_links (delaunay n (strip n))) ((v + 1) / 2) v) as K by (apply (K (S v)); lia).
  induction m as [|m IH]; intros [|[|w]] Bm Bn; try lia; [constructor| |].
  - apply hops_S with 0%nat; [constructor|]. left. apply strip_links; lia.
  - replace ((S (S w) + 1) / 2)%nat with (S ((w + 1) / 2)) by (replace (S (S w) + 1)%nat with (w + 1 + 1 * 2)%nat by lia; rewrite Nat.div_add by lia; lia).
    apply hops_S with w; [apply IH; lia|]. left. apply strip_links; lia.
Qed.
Lemma fr_depth q : (q < 2)%nat -> depth_by 11 px_triangles fr_stack (tile_at fr_tiles q).
Proof.
  intros Bq pts tri P E. unfold px_triangles in E. destruct (Nat.ltb_spec (length pts) 3); [discriminate|]. injection E as <-.
  assert (forall b, (0 <= xmin b)%Z -> (0 <= ymin b)%Z -> tile_pixels fr_stack b pts -> length pts = length (nonzero (tile_mask fr_stack b))) as K.
  { intros b B1 B2 P'. f_equal. eapply tile_pixels_unique; [exact P'|]. now apply mask_pixels. }
  assert (length pts <= 20)%nat as L.
  { destruct q as [|[|]]; try lia; (apply K in P; [rewrite P; apply Nat.leb_le; vm_compute; reflexivity|cbn; lia|cbn; lia]). }
  intros v Hv. destruct (strip_half (length pts) ltac:(lia) v Hv) as (n & Bn & Hn). exists n. split; [|exact Hn].
  apply Nat.le_trans with (1 := Bn). apply Nat.le_trans with ((20 + 1) / 2)%nat; [apply Nat.div_le_mono; lia|cbn; lia].
Qed.
Example C83_witness : exists gt, hop3 4 = Ok gt /\ forall k, (k < 6)%nat -> exists r,
  band_fl rnd32 rnd64 rnd64 (fr_unwrap gt) labels_of 11 brute_mip exact_lsq fm_solve fr_tiles (stack_mask fr_stack) k = Ok r.
Proof.
  destruct (hop3 4) as [gt|] eqn:Egt; [|discriminate]. exists gt. split; [reflexivity|]. intros k Bk.
  apply (C83_single (fun _ _ => None) px_triangles (fun _ l => rev l) (@rev nat) 4 (Settings Constant Constant 2 0 0) [] [] (fun _ => []) (fun _ => [])
    labels_of 11 brute_mip exact_lsq fm_solve fr_stack fr_tiles gt fr_phase 10 2 k); auto.
  - apply px_planar.
  - intros _ l. apply Permutation_sym, Permutation_rev.
  - intros l. apply Permutation_sym, Permutation_rev.
  - cbn; lia.
  - discriminate.
  - discriminate.
  - cbn. lia.
  - apply brute_mip_sound.
  - apply brute_mip_complete.
  - apply components_witness.
  - apply fm_amplifies.
  - apply fm_answers.
  - lia.
  - repeat constructor; cbn; intuition discriminate.
  - apply fr_coh.
  - lia.
  - intros q Bq. cbn in Bq. destruct q as [|[|]]; try lia; unfold box_in_image; cbn; lia.
  - intros x l Hl Hq. apply Nat.le_trans with (length (seq 0 2)); [|cbn; lia]. apply NoDup_incl_length; [exact Hl|]. intros q I. apply in_seq. apply Hq in I as [I _]. cbn in I. lia.
  - intros q q' x Bq Bq' _ _ _. now apply fr_linked.
  - apply fr_history.
  - apply fr_samples.
  - intros i j x I V. pose proof (fr_bound x i j I V). lra.
  - intros q Bq. cbn in Bq. destruct (fr_tile q Bq) as (S1 & S2 & _). split; [exact S1|]. split; [exact S2|now apply fr_depth].
  - apply (hop3_is 4) in Egt as [_ ->]. exact Bk.
  - lia.
  - lia.
  - intros d f. cbn [fr_stack px_stack st_files dict_get fst snd].
    repeat (destruct (String.eqb _ _); [intros E; first [discriminate E|injection E as <-; eexists; split; [reflexivity|vm_compute; reflexivity]]|]); discriminate.
  - intros q pts Bq P. assert (3 <= length pts)%nat as L.
    { assert (forall b, (0 <= xmin b)%Z -> (0 <= ymin b)%Z -> tile_pixels fr_stack b pts -> length pts = length (nonzero (tile_mask fr_stack b))) as K.
      { intros b B1 B2 P'. f_equal. eapply tile_pixels_unique; [exact P'|]. now apply mask_pixels. }
      cbn in Bq. destruct q as [|[|]]; try lia; (apply K in P; [rewrite P; apply Nat.leb_le; vm_compute; reflexivity|cbn; lia|cbn; lia]). }
    unfold px_triangles. destruct (Nat.ltb_spec (length pts) 3); [lia|eauto].
  - right. exists 0%nat, 1%nat. split; [cbn; lia|]. apply fr_overlapping. intros r c Br Bc. unfold has_pixel. cbn. lia.
Qed.

Print Assumptions C83_tile.
Print Assumptions C83_run.
Print Assumptions C83_single.
