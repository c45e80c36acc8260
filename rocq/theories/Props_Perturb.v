(** C84: small changes of the phases pass through the workflow unchanged. *)
From Verif Require Import Base BaseLemmas PoolProofs GraphModel GraphSpec GraphProofs Hop3Proofs StripProofs McfModel McfSpec DualProofs ResidueProofs PhaseProofs
  EmcfModel EmcfSpec EmcfProofs Props_Mcf Props_Emcf InvariantSpec InvariantProofs Props_Invariant
  TileModel TileSpec SlcModel SlcSpec SlcProofs Props_Slc OverlapModel OverlapSpec OverlapProofs MergeModel MergeSpec BulkProofs AdjustProofs MergeBatchProofs DescribeProofs
  UnwrapTileModel UnwrapTileProofs PipelineSpec
  ExactSpec ExactTileProofs ExactWitness WorkflowModel Props_Workflow Props_Pipeline PipelineProofs ExactRunProofs CertSolver Props_Exact Props_Any Props_InvariantTile
  ShiftSpec ShiftProofs ShiftMergeProofs Props_Shift PerturbSpec PerturbProofs FieldProofs.
From Coq Require Import List Permutation Sorting.Sorted ZifyBool Lqa.
Import ListNotations.
Set Default Goal Selector "!".
Local Open Scope nat_scope.
Opaque twopi.

(** One interferogram: [d v] is added at point [v], up to whole cycles away from the
    first point, and no wrapped difference along a link jumps. Then the flows are the
    same and the unwrapped phase changes by exactly [d v]. *)
Theorem C84_one : forall smcf g s p p' (d : nat -> Q) cost revcost, planar g -> make_solver g = Ok s ->
  length p = g_npoints g -> length p' = g_npoints g ->
  (forall a b, In (a, b) (g_links g) -> no_jump (nth a p 0) (nth b p 0) (nth a p' 0) (nth b p' 0) (d b - d a))%Q ->
  (nth 0 p' 0 == nth 0 p 0 + d 0%nat)%Q ->
  same_outcome (fun r r' => snd r = snd r' /\ raised d (fst r) (fst r'))
    (unwrap_one smcf s p cost revcost) (unwrap_one smcf s p' cost revcost).
Proof.
  intros smcf g s p p' d cost revcost Hp Hs HL HL' H H0. apply solver_of in Hs; auto. subst s. now apply one_up.
Qed.

(** A stack: [eps t v] is added to date [t] at point [v], and no double difference along
    a link jumps. Then every unwrapped interferogram changes by exactly what is added to
    it, counted from the first point. *)
Theorem C84_cube : forall smcf gs gt e tsched ssched cpu c c' i i' eps, planar gs -> planar gt ->
  make_solver gs = Ok (em_space e) -> make_solver gt = Ok (em_time e) ->
  (forall b l, Permutation (tsched b l) l) -> (forall l, Permutation (ssched l) l) -> 0 < links_per_batch (em_set e) ->
  classify e c = Ok i -> classify e c' = Ok i' -> covers (cu_data c) (em_links e) -> covers (cu_data c') (em_links e) ->
  perturbed (em_ifgs e) (em_links e) i i' (cu_data c) (cu_data c') eps ->
  same_outcome (fun U U' => length U = length (em_ifgs e) /\ length U' = length (em_ifgs e) /\
      forall n, n < length (em_ifgs e) ->
        raised (fun v => drift (em_ifgs e) eps n v - drift (em_ifgs e) eps n 0%nat)%Q (nth n U []) (nth n U' []))
    (unwrap_cube smcf tsched ssched cpu e c) (unwrap_cube smcf tsched ssched cpu e c').
Proof.
  intros smcf gs gt e tsched ssched cpu c c' i i' eps Pgs Pgt Es Et Ht Hs Hl K K' C C' H.
  apply solver_of in Es; auto. apply solver_of in Et; auto.
  exact (cube_up smcf gs gt Pgs Pgt e Es Et tsched ssched cpu Ht Hs Hl i i' _ _ eps (covers_ok _ _ C) (covers_ok _ _ C') H c c' eq_refl eq_refl K K').
Qed.

Lemma same_dates (st st' : slc_stack Q) : st_dates st' = st_dates st -> NoDup (map fst (st_files st)) ->
  NoDup (map fst (st_files st')) /\ length (st_files st') = length (st_files st).
Proof.
  intros E N. split; [|now rewrite <- !dates_length, E].
  eapply Permutation_NoDup; [apply sort_str_perm|]. change (NoDup (st_dates st')). rewrite E.
  eapply Permutation_NoDup; [apply Permutation_sym, sort_str_perm|exact N].
Qed.

Section Tile.
  Context (smcf : list arc -> list Z -> option (list Z))
          (triangles : list (Z * Z) -> res (list (nat * nat * nat)))
          (tsched : nat -> list nat -> list nat) (ssched : list nat -> list nat) (cpu : Z)
          (set : settings) (tdist tcent : list Z) (sdist scent : list (Z * Z) -> list Z).
  Hypothesis Hsm : smcf_sound smcf.
  Hypothesis Htri : forall pts tri, triangles pts = Ok tri -> planar (delaunay (length pts) tri).
  Hypothesis Ht : forall b l, Permutation (tsched b l) l.
  Hypothesis Hs : forall l, Permutation (ssched l) l.
  Hypothesis Hl : 0 < links_per_batch set.
  Notation unwrap := (unwrap_one_tile smcf triangles tsched ssched cpu set tdist tcent sdist scent).
  Notation date st t := (nth t (st_dates st) ""%string).

  (** A tile of a stack on disk, where nothing jumps on the sides of the triangles. The
      file has the same pixels, and its phases change by what is added plus a number of
      cycles, which is zero if nothing jumps at the first pixel. *)
  Lemma tile_moved st st' gt b eps :
    hop3 (Z.of_nat (length (st_files st))) = Ok gt -> NoDup (map fst (st_files st)) ->
    (0 <= xmin b)%Z -> (0 <= ymin b)%Z -> readable st -> readable st' -> moved_stack st st' eps ->
    let phase n x a := ifg_value st (date st (fst (nth n (g_links gt) (0, 0)))) (date st (snd (nth n (g_links gt) (0, 0)))) x a in
    (forall pts tri n, tile_pixels st b pts -> triangles pts = Ok tri -> n < length (g_links gt) ->
       let at_pixel u := place b (nth u pts (0, 0)%Z) in let d u := drift (g_links gt) eps n (at_pixel u) in
       forall u v a c, In (u, v) (g_links (delaunay (length pts) tri)) -> phase n (at_pixel u) a -> phase n (at_pixel v) c -> stays (c - a) (d v - d u)) ->
    same_outcome (fun f f' => tf_points f' = tf_points f /\ tf_tile f' = tf_tile f /\
        (exists tri, tile_pixels st b (tf_points f) /\ triangles (tf_points f) = Ok tri) /\ tf_tile f = b /\
        forall n, n < length (g_links gt) -> exists k : Z,
          (forall p x, nth_error (file_coords f) p = Some x ->
             (MergeSpec.phase_of f' n p == MergeSpec.phase_of f n p + drift (g_links gt) eps n x + twopi * inject_Z k)%Q) /\
          forall x, nth_error (file_coords f) 0 = Some x ->
             (- twopi <= drift (g_links gt) eps n x + twopi * inject_Z k <= twopi)%Q /\
             ((forall a, phase n x a -> stays a (drift (g_links gt) eps n x)) -> k = 0%Z))
      (unwrap st gt b) (unwrap st' gt b).
  Proof using Htri Hl Hsm Ht Hs.
    intros G Nf Bx By Hrd Hrd' (Ed & Ec & Eth & Hph) phase Hst. pose proof (same_dates _ _ Ed Nf) as [Nf' Lf'].
    assert (forall f, unwrap st gt b = Ok f -> tile_bands (length (g_links gt)) f) as Tb.
    { intros f E. apply hop3_is in G as [N4 Egt]. eapply (C58_tile smcf triangles tsched ssched cpu set tdist tcent sdist scent) in E as (_ & T & _); eauto.
      - rewrite Egt. apply hop3_planar; auto.
      - rewrite Egt. reflexivity. }
    apply hop3_is in G as [N4 Egt].
    assert (planar gt) as Pgt by (rewrite Egt; apply hop3_planar; auto).
    assert (length (st_files st) = g_npoints gt) as Ld by (rewrite Egt; reflexivity).
    assert (tile_mask st' b = tile_mask st b) as Em by (unfold tile_mask; now rewrite Ec, Eth).
    destruct (C50_reads 0%Q st b Nf Hrd) as (wrap & Ew).
    destruct (C50_reads 0%Q st' b Nf' Hrd') as (wrap' & Ew').
    destruct (tile_read set Hl st gt b Nf Ld (conj Bx By) wrap Ew) as (Hp & Es & rows & Ecu & Lr & Hd).
    destruct (tile_read set Hl st' gt b Nf' ltac:(congruence) (conj Bx By) wrap' Ew') as (_ & Es' & rows' & Ecu' & Lr' & Hd').
    rewrite Em in *. rewrite Ed in *. set (pts := nonzero (tile_mask st b)) in *.
    unfold unwrap_one_tile in *. rewrite (planar_solver gt Pgt) in *. cbn [bind] in *.
    change (map (map (above (st_threshold st))) (read_temporal_coherence st b)) with (tile_mask st b) in *.
    change (map (map (above (st_threshold st'))) (read_temporal_coherence st' b)) with (tile_mask st' b). rewrite Em. fold pts. fold pts in Tb.
    destruct (triangles pts) as [tri|er] eqn:Et; cbn [bind] in *; [|reflexivity].
    pose proof (Htri _ _ Et) as Pg. rewrite (planar_solver _ Pg) in *. cbn [bind] in *. rewrite Ew in *. rewrite Ew'. cbn [bind] in *. rewrite Es in *. rewrite Es'. cbn [nth] in *.
    change (g_npoints (delaunay (length pts) tri)) with (length pts) in *. rewrite Nat.eqb_refl in *. cbn [negb] in *. rewrite Ecu in *. rewrite Ecu'.
    set (e := Emcf (dual_solver (delaunay (length pts) tri)) (dual_solver gt) set tdist tcent (sdist pts) (scent pts)) in *.
    assert (em_links e = g_links (delaunay (length pts) tri)) as EL by reflexivity.
    assert (em_ifgs e = g_links gt) as EI by reflexivity.
    assert (forall u v, In (u, v) (em_links e) -> u < length pts /\ v < length pts) as Bl.
    { intros u v I. rewrite EL in I. apply (pl_lt _ Pg) in I. change (g_npoints (delaunay (length pts) tri)) with (length pts) in I. lia. }
    assert (forall i j, In (i, j) (g_links gt) -> i < length rows /\ j < length rows) as Bt.
    { intros i j I. apply (pl_lt _ Pgt) in I. rewrite dates_length in Lr. lia. }
    assert (forall t p, t < length rows -> p < length pts ->
      slc_phase st (date st t) (place b (nth p pts (0, 0)%Z)) = Some (nth p (nth t rows []) 0%Q) /\
      slc_phase st' (date st t) (place b (nth p pts (0, 0)%Z)) = Some (nth p (nth t rows' []) 0%Q)) as R.
    { intros t p Kt Kp. assert (nth_error pts p = Some (nth p pts (0, 0)%Z)) as E by now apply nth_error_nth'.
      split; [apply (Hd t Kt)|apply (Hd' t ltac:(lia))]; auto. }
    set (ep := fun t v => eps t (place b (nth v pts (0, 0)%Z))).
    assert (forall t p, t < length rows -> p < length pts ->
      cong2pi (nth p (nth t rows' []) 0%Q) (nth p (nth t rows []) 0 + ep t p)%Q) as Hc.
    { intros t p Kt Kp. destruct (R t p Kt Kp) as [R1 R2]. eapply Hph; [lia| |exact R1|exact R2].
      apply Hp. apply nth_In. exact Kp. }
    assert (forall n, n < length (g_links gt) -> fst (nth n (g_links gt) (0, 0)) < length rows /\ snd (nth n (g_links gt) (0, 0)) < length rows) as Bn.
    { intros n Kn. pose proof (nth_In _ (0, 0) Kn) as I. destruct (nth n (g_links gt) (0, 0)) as [i j]. exact (Bt i j I). }
    set (ph := fun (rr : list (list Q)) n v => Qminus (nth v (nth (snd (nth n (g_links gt) (0, 0))) rr []) 0%Q) (nth v (nth (fst (nth n (g_links gt) (0, 0))) rr []) 0%Q)).
    assert (forall n v, n < length (g_links gt) -> v < length pts ->
      ifg_value st (date st (fst (nth n (g_links gt) (0, 0)))) (date st (snd (nth n (g_links gt) (0, 0)))) (place b (nth v pts (0, 0)%Z)) (ph rows n v)) as Iv.
    { intros n v Kn Kv. destruct (Bn n Kn) as [K1 K2]. exists (nth v (nth (fst (nth n (g_links gt) (0, 0))) rows []) 0%Q), (nth v (nth (snd (nth n (g_links gt) (0, 0))) rows []) 0%Q).
      split; [now apply R|]. split; [now apply R|]. apply cong2pi_refl. }
    assert (forall n v, n < length (g_links gt) -> v < length pts -> cong2pi (ph rows' n v) (ph rows n v + drift (g_links gt) ep n v)%Q) as Pc.
    { intros n v Kn Kv. destruct (Bn n Kn) as [K1 K2]. unfold ph, drift. destruct (Hc _ v K1 Kv) as [k1 E1]. destruct (Hc _ v K2 Kv) as [k2 E2]. exists (k2 - k1)%Z.
      rewrite E1, E2. unfold Z.sub. rewrite inject_Z_plus, inject_Z_opp. ring. }
    assert (covers rows (em_links e) /\ covers rows' (em_links e)) as [C C'].
    { split; intros row u v I J; apply (In_nth _ _ []) in I as (t & Kt & <-); [rewrite (proj1 (Hd t Kt))|rewrite (proj1 (Hd' t Kt))]; now apply Bl. }
    assert (perturbed (em_ifgs e) (em_links e) false false rows rows' ep) as Pt.
    { intros n u v Kn J. rewrite EI in *. cbv zeta. unfold ifg_phase. destruct (Bl u v J) as [Ku Kv].
      fold (ph rows n u) (ph rows n v) (ph rows' n u) (ph rows' n v). split.
      - destruct (Pc n u Kn Ku) as [k1 E1]. destruct (Pc n v Kn Kv) as [k2 E2]. exists (k2 - k1)%Z. rewrite E1, E2. unfold Z.sub. rewrite inject_Z_plus, inject_Z_opp. ring.
      - exact (Hst pts tri n Hp Et Kn u v _ _ J (Iv n u Kn Ku) (Iv n v Kn Kv)). }
    assert (forall rr, length rr = length (st_dates st) -> classify e (Cube 2 0 rr) = Ok false) as Hcl.
    { intros rr Lrr. unfold classify, em_nepochs. cbn. rewrite dates_length in Lrr. rewrite Lrr, Ld, Nat.eqb_refl. reflexivity. }
    pose proof (cube_up smcf (delaunay (length pts) tri) gt Pg Pgt e eq_refl eq_refl tsched ssched cpu Ht Hs Hl false false rows rows' ep
      (covers_ok _ _ C) (covers_ok _ _ C') Pt (Cube 2 0 rows) (Cube 2 0 rows') eq_refl eq_refl (Hcl rows Lr) (Hcl rows' Lr')) as K.
    destruct (unwrap_cube _ _ _ _ e (Cube 2 0 rows)) as [U|x], (unwrap_cube _ _ _ _ e (Cube 2 0 rows')) as [U'|x']; cbn [same_outcome bind] in *; auto.
    destruct (Tb _ eq_refl) as (_ & _ & T3). clear Tb. cbn [tf_points tf_tile tf_uw tf_offset cu_data] in *. destruct K as (LU & LU' & K).
    split; [reflexivity|]. split; [reflexivity|]. split; [exists tri; split; [exact Hp|exact Et]|]. split; [reflexivity|].
    intros n Kn. destruct (Nat.eq_dec (length pts) 0) as [Z0|Z0].
    { exists 0%Z. assert (pts = []) as -> by (now apply length_zero_iff_nil). split; [intros [|p] x Ex; discriminate Ex|intros x Ex; discriminate Ex]. }
    assert (0 < length pts) as P0 by lia. clear Z0.
    set (o := phase_diff (nth 0 (nth (fst (nth n (g_links gt) (0, 0))) rows []) 0%Q) (nth 0 (nth (snd (nth n (g_links gt) (0, 0))) rows []) 0%Q) 0).
    set (o' := phase_diff (nth 0 (nth (fst (nth n (g_links gt) (0, 0))) rows' []) 0%Q) (nth 0 (nth (snd (nth n (g_links gt) (0, 0))) rows' []) 0%Q) 0).
    assert (exists k, o' == o + drift (g_links gt) ep n 0%nat + twopi * inject_Z k)%Q as (k & Ek).
    { destruct (pd_cong (nth 0 (nth (fst (nth n (g_links gt) (0, 0))) rows []) 0%Q) (nth 0 (nth (snd (nth n (g_links gt) (0, 0))) rows []) 0%Q) 0) as [k1 E1].
      destruct (pd_cong (nth 0 (nth (fst (nth n (g_links gt) (0, 0))) rows' []) 0%Q) (nth 0 (nth (snd (nth n (g_links gt) (0, 0))) rows' []) 0%Q) 0) as [k2 E2].
      destruct (Pc n 0 Kn P0) as [k3 E3]. unfold ph in E3. fold o in E1. fold o' in E2. exists (k2 + k3 - k1)%Z.
      rewrite E1, E2, E3. unfold Z.sub. rewrite !inject_Z_plus, inject_Z_opp. ring. }
    assert (forall p x, nth_error (map (fun q => (fst q + xmin b, snd q + ymin b)%Z) pts) p = Some x ->
      p < length pts /\ x = place b (nth p pts (0, 0)%Z) /\ drift (g_links gt) eps n x = drift (g_links gt) ep n p) as Dx.
    { intros p x Ex. rewrite nth_error_map in Ex. destruct (nth_error pts p) as [y|] eqn:Ey; [|discriminate]. cbn [option_map] in Ex. injection Ex as Ex.
      assert (p < length pts) as Bp by (apply nth_error_Some; congruence).
      assert (nth p pts (0, 0)%Z = y) as Ny by now apply nth_error_nth. split; [exact Bp|]. rewrite Ny. split; [unfold place; now rewrite Ex|].
      unfold drift, ep; rewrite Ny; unfold place; now rewrite Ex. }
    exists k. split.
    - intros p x Ex. unfold file_coords in Ex. cbn [tf_points tf_tile] in Ex. destruct (Dx p x Ex) as (Bp & _ & ->).
      unfold MergeSpec.phase_of, at_. cbn [tf_uw tf_offset]. rewrite !(map_nth' _ _ n (0, 0)) by auto. unfold at2. rewrite EI in *.
      destruct (K n Kn) as [_ Kv]. rewrite (Kv p) by (rewrite (T3 (nth n U [])); [exact Bp|apply nth_In; lia]). fold o o'. rewrite Ek. ring.
    - intros x Ex. unfold file_coords in Ex. cbn [tf_points tf_tile] in Ex. destruct (Dx 0 x Ex) as (_ & Xx & ->). split.
      + pose proof (pd_near (nth 0 (nth (fst (nth n (g_links gt) (0, 0))) rows []) 0%Q) (nth 0 (nth (snd (nth n (g_links gt) (0, 0))) rows []) 0%Q) 0) as B1.
        pose proof (pd_near (nth 0 (nth (fst (nth n (g_links gt) (0, 0))) rows' []) 0%Q) (nth 0 (nth (snd (nth n (g_links gt) (0, 0))) rows' []) 0%Q) 0) as B2.
        fold o in B1. fold o' in B2. unfold half in *. clearbody o o'. lra.
      + intros S1. specialize (S1 (ph rows n 0)). rewrite Xx in S1. specialize (S1 (Iv n 0 Kn P0)).
        assert (o' == o + drift (g_links gt) ep n 0%nat)%Q as Eo by (apply pd_raised; split; [exact (Pc n 0 Kn P0)|exact S1]).
        assert (twopi * inject_Z k == 0)%Q as Z0 by (rewrite Eo in Ek; clearbody o o'; lra). pose proof twopi_nz as Tz.
        apply Qmult_integral in Z0 as [Z0|Z0]; [contradiction|]. apply inject_Z_injective. exact Z0.
  Qed.

  (** A tile of a stack on disk: the file has the same pixels, and its phases change by
      exactly what is added. *)
  Theorem C84_tile st st' gt b eps :
    hop3 (Z.of_nat (length (st_files st))) = Ok gt -> NoDup (map fst (st_files st)) ->
    (0 <= xmin b)%Z -> (0 <= ymin b)%Z -> readable st -> readable st' ->
    moved_stack st st' eps -> steady triangles st (g_links gt) eps b ->
    same_outcome (fun f f' => tf_points f' = tf_points f /\ tf_tile f' = tf_tile f /\
        forall n p x, n < length (g_links gt) -> nth_error (file_coords f) p = Some x ->
          (MergeSpec.phase_of f' n p == MergeSpec.phase_of f n p + drift (g_links gt) eps n x)%Q)
      (unwrap st gt b) (unwrap st' gt b).
  Proof using Htri Hl Hsm Ht Hs.
    intros G Nf Bx By Hrd Hrd' Mv Hst.
    pose proof (tile_moved st st' gt b eps G Nf Bx By Hrd Hrd' Mv (fun pts tri n P T B => proj2 (Hst pts tri n P T B))) as K.
    destruct (unwrap st gt b) as [f|], (unwrap st' gt b) as [f'|]; cbn [same_outcome] in *; auto.
    destruct K as (K1 & K2 & (tri & Kp & Kt) & Kb & K). split; [exact K1|]. split; [exact K2|]. intros n p x Kn Ex.
    destruct (K n Kn) as (k & A & B). rewrite (A p x Ex). 
    destruct (nth_error (file_coords f) 0) as [x0|] eqn:E0.
    - destruct (B x0 eq_refl) as [_ B0]. rewrite B0; [change (inject_Z 0) with 0%Q; ring|].
      unfold file_coords in E0. rewrite nth_error_map in E0. destruct (nth_error (tf_points f) 0) as [y|] eqn:Ey; [|discriminate]. cbn [option_map] in E0. injection E0 as <-.
      apply (nth_error_nth _ _ (0, 0)%Z) in Ey. pose proof (proj1 (Hst _ _ n Kp Kt Kn)) as S. cbv beta zeta in S. rewrite Ey in S. unfold place in S. rewrite Kb. exact S.
    - apply nth_error_None in E0. assert (p < length (file_coords f)) by (apply nth_error_Some; congruence). lia.
  Qed.

  (** The files of all tiles of a stack. *)
  Lemma files_cut stk gt (t : tileset) h w fs : planar gt -> (h * w <= 2 ^ 32)%Z -> (forall b, In b (tiles t) -> (0 <= xmin b)%Z /\ (0 <= ymin b)%Z) ->
    NoDup (map fst (st_files stk)) -> length (st_files stk) = g_npoints gt -> coh_shape stk h w -> length fs = length (tiles t) ->
    (forall k, k < length (tiles t) -> unwrap stk gt (tile_at t k) = Ok (nth k fs no_file)) -> cut_files t h w (length (g_links gt)) fs.
  Proof using Htri Hl Hsm Ht Hs.
    intros Pgt Hhw Hpos Nk Lk Ck Lf Vk. split; [exact Lf|]. split; [exact Hhw|].
      assert (forall k, k < length (tiles t) -> let f := nth k fs no_file in tf_tile f = tile_at t k /\ NoDup (tf_points f) /\ in_grid h w (file_coords f) /\ tile_bands (length (g_links gt)) f) as Q.
      { intros k Bk f. destruct (Hpos (tile_at t k)) as [P1 P2]; [now apply nth_In|].
        destruct (C58_tile smcf triangles tsched ssched cpu set tdist tcent sdist scent Hsm Htri Ht Hs Hl stk gt _ _ Pgt Nk Lk P1 P2 (Vk k Bk)) as (T1 & T2 & T3 & T4 & _).
        split; [exact T1|]. split; [now apply before_nodup|]. split; [|exact T2].
        intros r c J. apply T4 in J as [(q & J & _) _]. apply (image_in _ h w) in J; auto. }
      split; [intros n Bn; now apply Q|]. intros fl I. apply (In_nth _ _ no_file) in I as (k & Bk & <-). rewrite Lf in Bk. apply Q in Bk. tauto.
  Qed.

  (** All tiles: the files have the same pixels and differ by one field. *)
  Lemma files_moved st st' gt (t : tileset) h w eps files :
    hop3 (Z.of_nat (length (st_files st))) = Ok gt -> NoDup (map fst (st_files st)) -> coh_shape st h w -> (h * w <= 2 ^ 32)%Z ->
    (forall b, In b (tiles t) -> (0 <= xmin b)%Z /\ (0 <= ymin b)%Z) -> readable st -> readable st' ->
    moved_stack st st' eps -> (forall b, In b (tiles t) -> steady triangles st (g_links gt) eps b) ->
    map_res (unwrap st gt) (tiles t) = Ok files ->
    exists files', map_res (unwrap st' gt) (tiles t) = Ok files' /\
      cut_files t h w (length (g_links gt)) files /\ cut_files t h w (length (g_links gt)) files' /\
      same_layout files files' /\ same_field (length (g_links gt)) (drift (g_links gt) eps) files files'.
  Proof using Htri Hl Hsm Ht Hs.
    intros G Nf Csh Hhw Hpos Hrd Hrd' Mv Sd E. pose proof Mv as (Ed & Ec & Eth & _). pose proof (same_dates _ _ Ed Nf) as [Nf' Lf'].
    pose proof G as G2. apply hop3_is in G2 as [N4 Egt].
    assert (planar gt) as Pgt by (rewrite Egt; apply hop3_planar; auto).
    assert (length (st_files st) = g_npoints gt) as Ld by (rewrite Egt; reflexivity).
    assert (forall b, In b (tiles t) -> same_outcome (fun f f' => tf_points f' = tf_points f /\ tf_tile f' = tf_tile f /\
        forall n p x, n < length (g_links gt) -> nth_error (file_coords f) p = Some x ->
          (MergeSpec.phase_of f' n p == MergeSpec.phase_of f n p + drift (g_links gt) eps n x)%Q) (unwrap st gt b) (unwrap st' gt b)) as K.
    { intros b I. destruct (Hpos b I). apply C84_tile; auto. }
    assert (exists files', map_res (unwrap st' gt) (tiles t) = Ok files') as (files' & E').
    { apply map_res_ok_iff. intros b I. specialize (K b I).
      destruct (proj1 (map_res_ok_iff (unwrap st gt) (tiles t)) (ex_intro _ files E) b I) as (f & Efb). rewrite Efb in K.
      destruct (unwrap st' gt b) as [f'|]; [eauto|contradiction]. }
    exists files'. split; [exact E'|]. pose proof E as E2. pose proof E' as E2'. apply map_res_nth in E2 as [L V]. apply map_res_nth in E2' as [L' V'].
    assert (forall k, k < length (tiles t) -> unwrap st gt (tile_at t k) = Ok (nth k files no_file)) as W by (intros k Bk; exact (V k _ no_file Bk)).
    assert (forall k, k < length (tiles t) -> unwrap st' gt (tile_at t k) = Ok (nth k files' no_file)) as W' by (intros k Bk; exact (V' k _ no_file Bk)).
    split; [apply (files_cut st); auto; lia|]. split; [apply (files_cut st'); [exact Pgt|exact Hhw|exact Hpos|exact Nf'|congruence|unfold coh_shape; now rewrite Ec|lia|exact W']|].
    assert (forall k, k < length (tiles t) -> let f := nth k files no_file in let f' := nth k files' no_file in tf_points f' = tf_points f /\ tf_tile f' = tf_tile f /\
        forall n p x, n < length (g_links gt) -> nth_error (file_coords f) p = Some x ->
          (MergeSpec.phase_of f' n p == MergeSpec.phase_of f n p + drift (g_links gt) eps n x)%Q) as Z.
    { intros k Bk. specialize (K (tile_at t k) (nth_In _ _ Bk)). rewrite (W k Bk), (W' k Bk) in K. exact K. }
    split; [split; [lia|]|].
    - intros k. destruct (Nat.lt_ge_cases k (length (tiles t))) as [B|B]; [destruct (Z k B) as (Z1 & Z2 & _); auto|].
      rewrite !nth_overflow by lia. auto.
    - intros n k p x Bn Ex. destruct (Nat.lt_ge_cases k (length (tiles t))) as [B|B]; [now apply (Z k B)|].
      rewrite (nth_overflow files) in Ex by lia. destruct p; discriminate.
  Qed.
End Tile.

(** The merge: tile files whose phases differ by one field [fd] of the image give the
    same overlap statistics, hence the same bulk offsets. The merged phase and the
    smooth model change by exactly [fd]; the residual is unchanged. *)
Theorem C84_merge comps min_points files files' t f H W bands fd cg ilu triangles omap :
  (forall n e, length (comps n e) = n) -> respects cg ->
  cut_files t H W bands files -> cut_files t H W bands files' -> same_layout files files' -> same_field bands fd files files' ->
  compute_phasediff_deciles comps min_points files t = Ok f -> overlap_map f = Ok omap ->
  compute_phasediff_deciles comps min_points files' t = Ok f /\
  forall md bulk sh idx outs, merge_batch cg ilu triangles f omap md bulk sh files idx = Ok outs ->
  exists outs', merge_batch cg ilu triangles f omap md bulk sh files' idx = Ok outs' /\
    length outs = length idx /\ length outs' = length idx /\
    forall n b arr diff model, nth_error idx n = Some b -> nth_error outs n = Some (arr, diff, model) ->
    exists arr' diff' model', nth_error outs' n = Some (arr', diff', model') /\
      forall x, in_shape sh x = true ->
        plus_opt (fd b x) (pixel model x) (pixel model' x) /\ same_value (pixel diff x) (pixel diff' x) /\ plus_opt (fd b x) (pixel arr x) (pixel arr' x).
Proof.
  intros Hl Hcg Hcut Hcut' Ly Mf Hc Hom.
  assert (compute_phasediff_deciles comps min_points files' t = Ok f) as Hc' by (rewrite (recorded_field comps min_points files files' t H W bands fd); auto).
  split; [exact Hc'|]. pose proof Hcut as (Hn & Hfit & Ht & Hf). pose proof Hcut' as (Hn' & _ & Ht' & Hf'). rewrite no_file_d in *.
  assert (recorded_files f files) as Rf by (eapply (computed_recorded comps min_points files t f H W); eauto; intros fl I; apply Hf, I).
  assert (recorded_files f files') as Rf' by (eapply (computed_recorded comps min_points files' t f H W); eauto; intros fl I; apply Hf', I).
  intros md bulk sh idx outs Hm. eapply (batch_field cg ilu triangles f omap md files files' bulk bands fd sh idx); eauto.
  - intros fl I. destruct (Hf fl I) as (A & _ & B). auto.
  - intros fl I. destruct (Hf' fl I) as (A & _ & B). auto.
Qed.

(** From the stack to the merged rasters: if nothing jumps in any tile, the merged
    phase of every interferogram changes by exactly what is added to it. *)
Theorem C84_stack smcf triangles tsched ssched cpu set tdist tcent sdist scent st st' gt t h w eps comps min_points f files cg ilu omap :
  smcf_sound smcf -> (forall pts tri, triangles pts = Ok tri -> planar (delaunay (length pts) tri)) ->
  (forall b l, Permutation (tsched b l) l) -> (forall l, Permutation (ssched l) l) -> 0 < links_per_batch set ->
  (forall n e, length (comps n e) = n) -> respects cg ->
  hop3 (Z.of_nat (length (st_files st))) = Ok gt -> NoDup (map fst (st_files st)) -> coh_shape st h w -> (h * w <= 2 ^ 32)%Z ->
  (forall b, In b (tiles t) -> (0 <= xmin b)%Z /\ (0 <= ymin b)%Z) -> readable st -> readable st' ->
  moved_stack st st' eps -> (forall b, In b (tiles t) -> steady triangles st (g_links gt) eps b) ->
  let unwrap := unwrap_one_tile smcf triangles tsched ssched cpu set tdist tcent sdist scent in
  map_res (unwrap st gt) (tiles t) = Ok files -> compute_phasediff_deciles comps min_points files t = Ok f -> overlap_map f = Ok omap ->
  exists files', map_res (unwrap st' gt) (tiles t) = Ok files' /\ compute_phasediff_deciles comps min_points files' t = Ok f /\
    forall md bulk sh idx outs, merge_batch cg ilu triangles f omap md bulk sh files idx = Ok outs ->
    exists outs', merge_batch cg ilu triangles f omap md bulk sh files' idx = Ok outs' /\
      length outs = length idx /\ length outs' = length idx /\
      forall n k arr diff model, nth_error idx n = Some k -> nth_error outs n = Some (arr, diff, model) ->
      exists arr' diff' model', nth_error outs' n = Some (arr', diff', model') /\
        forall x, in_shape sh x = true -> let d := drift (g_links gt) eps k x in
          plus_opt d (pixel model x) (pixel model' x) /\ same_value (pixel diff x) (pixel diff' x) /\ plus_opt d (pixel arr x) (pixel arr' x).
Proof.
  intros Hsm Htri Ht Hs Hl Hcc Hcg G Nf Csh Hhw Hpos Hrd Hrd' Mv Sd unwrap E Hc Hom.
  destruct (files_moved smcf triangles tsched ssched cpu set tdist tcent sdist scent Hsm Htri Ht Hs Hl st st' gt t h w eps files G Nf Csh Hhw Hpos Hrd Hrd' Mv Sd E)
    as (files' & E' & C & C' & Ly & Sf).
  exists files'. split; [exact E'|].
  exact (C84_merge comps min_points files files' t f h w (length (g_links gt)) _ cg ilu triangles omap Hcc Hcg C C' Ly Sf Hc Hom).
Qed.

(** * Cases *)
Definition stays_b (x d : Q) : bool :=
  let w := (x - twopi * inject_Z (rint (x / twopi)))%Q in
  let inside y := (Qle_bool (- half + (1 # 1000)) y && Qle_bool y (half - (1 # 1000)))%Q in inside w && inside (w + d)%Q.
Lemma stays_check x d : stays_b x d = true -> stays x d.
Proof.
  unfold stays_b. cbv zeta. intros E. apply andb_prop in E as [E1 E2]. apply andb_prop in E1 as [A B]. apply andb_prop in E2 as [A' B'].
  apply Qle_bool_iff in A, B, A', B'. exists (x - twopi * inject_Z (rint (x / twopi)))%Q. split.
  - exists (- rint (x / twopi))%Z. rewrite inject_Z_opp. ring.
  - split; lra.
Qed.

(** The four points of [C73_one_witness], which have a residue; a cycle more at one point. *)
Definition d22 (v : nat) : Q := nth v [1 # 10; - (1 # 5); 1 # 10; 0]%Q 0%Q.
Definition p22'' : list Q := [0 + (1 # 10); 2 - (1 # 5) + twopi; -2 + (1 # 10); 4]%Q.
Example C84_one_witness :
  (forall a b, In (a, b) (g_links g22) -> no_jump (nth a p22 0) (nth b p22 0) (nth a p22'' 0) (nth b p22'' 0) (d22 b - d22 a))%Q /\
  (nth 0 p22'' 0 == nth 0 p22 0 + d22 0%nat)%Q /\
  exists r, unwrap_one (fixed_flow [0; 0; 0; 0; 0; 1; 0; 0]%Z) s22 p22 [3; 1; 3; 3]%Z None = Ok r /\ snd r = [0; 1; 0; 0]%Z.
Proof.
  split; [|split].
  - Transparent twopi.
    assert (forallb (fun ab => stays_b (nth (snd ab) p22 0 - nth (fst ab) p22 0)%Q (d22 (snd ab) - d22 (fst ab))%Q) (g_links g22) = true) as K by (vm_compute; reflexivity).
    Opaque twopi.
    rewrite forallb_forall in K. intros a b I. split; [|apply stays_check; exact (K _ I)].
    assert (forall v, v < 4 -> cong2pi (nth v p22'' 0%Q) (nth v p22 0 + d22 v)%Q) as C.
    { intros v Bv. destruct v as [|[|[|[|v]]]]; [apply cong2pi_eq; reflexivity| |apply cong2pi_eq; reflexivity|apply cong2pi_eq; reflexivity|lia].
      exists 1%Z. cbn [nth p22'' p22 d22]. unfold d22. cbn [nth]. change (inject_Z 1) with 1%Q. ring. }
    assert (a < 4 /\ b < 4) as [Ba Bb] by (cbn in I; repeat (destruct I as [[= <- <-]|I]; [lia|]); destruct I).
    destruct (C a Ba) as [k1 E1]. destruct (C b Bb) as [k2 E2]. exists (k2 - k1)%Z. rewrite E1, E2. unfold Z.sub. rewrite inject_Z_plus, inject_Z_opp. ring.
  - reflexivity.
  - apply C73_one_witness.
Qed.

(** Four dates of four points, with a residue in time. *)
Definition eps4 (t v : nat) : Q := inject_Z (Z.of_nat ((t * (v + 2)) mod 5) - 2) * (1 # 20).
Definition slc4e : list (list Q) :=
  map (fun t => map (fun v => nth v (nth t slc4r []) 0 + eps4 t v + twopi * inject_Z (Z.of_nat (t * v) - 1))%Q (seq 0 4)) (seq 0 4).
Example C84_cube_witness : let e := em4 1 0 2 in
  classify e (Cube 2 0 slc4r) = Ok false /\ classify e (Cube 2 0 slc4e) = Ok false /\
  covers slc4r (em_links e) /\ covers slc4e (em_links e) /\
  perturbed (em_ifgs e) (em_links e) false false slc4r slc4e eps4 /\
  ~ (drift (em_ifgs e) eps4 0%nat 1%nat == drift (em_ifgs e) eps4 0%nat 0%nat)%Q /\
  exists U, unwrap_cube tflow (fun _ l => rev l) (@rev nat) 8 e (Cube 2 0 slc4r) = Ok U.
Proof.
  cbv zeta. split; [reflexivity|]. split; [reflexivity|].
  assert (forall data, Forall (fun r => length r = 4) data -> covers data (em_links (em4 1 0 2))) as C.
  { intros data H row a b Hr Hl. rewrite Forall_forall in H. rewrite (H row Hr).
    cbn in Hl. repeat (destruct Hl as [[= <- <-]|Hl]; [lia|]). destruct Hl. }
  split; [apply C; repeat constructor|]. split; [apply C; repeat constructor|]. split.
  - change (em_ifgs (em4 1 0 2)) with (g_links gt4). change (em_links (em4 1 0 2)) with (g_links g22).
    Transparent twopi.
    assert (forallb (fun n => forallb (fun ab => stays_b
      (ifg_phase false (g_links gt4) slc4r n (snd ab) - ifg_phase false (g_links gt4) slc4r n (fst ab))
      (drift (g_links gt4) eps4 n (snd ab) - drift (g_links gt4) eps4 n (fst ab)))%Q (g_links g22)) (seq 0 6) = true) as K by (vm_compute; reflexivity).
    Opaque twopi.
    intros n a b Hn Hl. cbv zeta. change (length (g_links gt4)) with 6 in Hn. rewrite forallb_forall in K. specialize (K n ltac:(apply in_seq; lia)). rewrite forallb_forall in K.
    specialize (K (a, b) Hl). cbn [fst snd] in K. apply stays_check in K. split; [|exact K].
    assert (a < 4 /\ b < 4) as [Ba Bb] by (cbn in Hl; repeat (destruct Hl as [[= <- <-]|Hl]; [lia|]); destruct Hl).
    assert (forall t v, t < 4 -> v < 4 -> nth v (nth t slc4e []) 0%Q = (nth v (nth t slc4r []) 0 + eps4 t v + twopi * inject_Z (Z.of_nat (t * v) - 1))%Q) as V.
    { intros t v Bt Bv. unfold slc4e. rewrite (map_nth' _ _ _ 0) by (rewrite seq_length; lia). rewrite seq_nth by lia.
      rewrite (map_nth' _ _ _ 0) by (rewrite seq_length; lia). rewrite seq_nth by lia. reflexivity. }
    unfold ifg_phase, drift. assert (fst (nth n (g_links gt4) (0, 0)) < 4 /\ snd (nth n (g_links gt4) (0, 0)) < 4) as [Bi Bj].
    { do 6 (destruct n as [|n]; [cbn; lia|]). lia. }
    set (i := fst (nth n (g_links gt4) (0, 0))) in *. set (j := snd (nth n (g_links gt4) (0, 0))) in *. clearbody i j. rewrite !V by auto.
    exists ((Z.of_nat (j * b) - 1) - (Z.of_nat (i * b) - 1) - ((Z.of_nat (j * a) - 1) - (Z.of_nat (i * a) - 1)))%Z.
    unfold Z.sub. rewrite ?inject_Z_plus, ?inject_Z_opp, ?inject_Z_plus, ?inject_Z_opp, ?inject_Z_plus, ?inject_Z_opp. ring.
  - split; [intros H; apply Qeq_bool_iff in H; vm_compute in H; discriminate|].
    Transparent twopi.
    assert (is_ok (unwrap_cube tflow (fun _ l => rev l) (@rev nat) 8 (em4 1 0 2) (Cube 2 0 slc4r)) = true) as K by (vm_compute; reflexivity).
    Opaque twopi.
    destruct (unwrap_cube _ _ _ _ _ _) as [U|]; [eauto|discriminate].
Qed.

(** The stack of [C65_witness], whose phases have residues, with something added to all
    dates but the first and whole cycles in every other row. Two tiles. *)
Definition eps_r (t : nat) (x : Z * Z) : Q :=
  if t =? 0 then 0%Q else (inject_Z ((Z.of_nat t * (fst x + 2 * snd x)) mod 3 - 1) * (1 # 50))%Q.
Definition bumped_image (t : nat) : list (list Q) :=
  map (fun r => map (fun c => nth c (nth r (rough_image t) []) 0 + eps_r t (Z.of_nat r, Z.of_nat c) + twopi * inject_Z (Z.of_nat (r mod 2)))%Q [0; 1]) (seq 0 7).
Definition bumped_stack : slc_stack Q :=
  SlcStack (st_files rough_stack) (st_coh rough_stack) (st_threshold rough_stack)
    (fun f => if String.eqb f "a" then Some (bumped_image 1) else if String.eqb f "b" then Some (bumped_image 2) else if String.eqb f "c" then Some (bumped_image 3) else None).
Definition two_tiles : tileset := TileSet (7, 2)%Z [BBox 0 0 6 2; BBox 0 0 7 2].

Lemma bumped_readable : readable bumped_stack.
Proof.
  intros d f. cbn [bumped_stack rough_stack st_files dict_get fst snd].
  repeat (destruct (String.eqb _ _); [intros E; first [discriminate E|injection E as <-; eexists; split; [reflexivity|vm_compute; reflexivity]]|]); discriminate.
Qed.

Lemma some_inj {A} (a b : A) : Some a = Some b -> a = b.
Proof. congruence. Qed.
Lemma bumped_at t y p p' : image_at (rough_image t) y = Some p -> image_at (bumped_image t) y = Some p' -> cong2pi p' (p + eps_r t y)%Q.
Proof.
  destruct y as [r c]. unfold image_at. cbn [fst snd]. destruct ((0 <=? r) && (0 <=? c))%Z eqn:E; [|discriminate]. unfold pixel_at.
  assert (r = Z.of_nat (Z.to_nat r) /\ c = Z.of_nat (Z.to_nat c)) as [Er Ec] by lia.
  rewrite Er, Ec, !Nat2Z.id. generalize (Z.to_nat r), (Z.to_nat c). clear. intros r c. intros P P'.
  destruct (nth_error (rough_image t) r) as [row|] eqn:R; [|discriminate]. destruct (nth_error (bumped_image t) r) as [row'|] eqn:R'; [|discriminate].
  assert (r < length (rough_image t)) as Br by (apply nth_error_Some; congruence). unfold rough_image in Br. rewrite map_length, seq_length in Br.
  unfold bumped_image in R'. rewrite nth_error_map, (nth_error_nth' _ 0) in R' by (now rewrite seq_length). rewrite seq_nth in R' by auto. cbn [option_map Nat.add] in R'. apply some_inj in R'. rewrite <- R' in P'.
  apply (nth_error_nth _ _ []) in R. rewrite R in P'. apply (nth_error_nth _ _ 0%Q) in P.
  exists (Z.of_nat (r mod 2)). destruct c as [|[|c]]; cbn [nth_error map] in P'; [| |destruct c; discriminate]; apply some_inj in P'; rewrite <- P', P; reflexivity.
Qed.

Lemma bumped_moved : moved_stack rough_stack bumped_stack eps_r.
Proof.
  split; [reflexivity|]. split; [reflexivity|]. split; [reflexivity|].
  intros t x p p' Bt _. change (length (st_dates rough_stack)) with 4 in Bt.
  destruct t as [|[|[|[|]]]]; try lia; [|apply (bumped_at 1)|apply (bumped_at 2)|apply (bumped_at 3)].
  intros [= <-] [= <-]. apply cong2pi_eq. reflexivity.
Qed.

Lemma stays_cong x x' d : cong2pi x' x -> stays x d -> stays x' d.
Proof. intros C (w & Cw & B). exists w. split; [|exact B]. eapply cong2pi_trans; [exact Cw|now apply cong2pi_sym]. Qed.

Definition steady_b (st : slc_stack Q) (ph : string -> Z * Z -> Q) (ifgs : list (nat * nat)) (eps : nat -> Z * Z -> Q) (b : bbox) : bool :=
  let pts := nonzero (tile_mask st b) in
  forallb (fun n =>
    let at_pixel u := place b (nth u pts (0, 0)%Z) in
    let i := nth n ifgs (0, 0) in
    let phase u := (ph (nth (snd i) (st_dates st) ""%string) (at_pixel u) - ph (nth (fst i) (st_dates st) ""%string) (at_pixel u))%Q in
    let d u := drift ifgs eps n (at_pixel u) in
    stays_b (phase 0) (d 0) &&
    forallb (fun uv => stays_b (phase (snd uv) - phase (fst uv))%Q (d (snd uv) - d (fst uv))%Q) (g_links (delaunay (length pts) (strip (length pts)))))
    (seq 0 (length ifgs)).

Lemma rough_steady b : In b (tiles two_tiles) -> steady px_triangles rough_stack (g_links (hop3_graph 4)) eps_r b.
Proof.
  Transparent twopi.
  assert (forallb (steady_b rough_stack phase_or (g_links (hop3_graph 4)) eps_r) (tiles two_tiles) = true) as K by (vm_compute; reflexivity).
  Opaque twopi.
  intros I. rewrite forallb_forall in K. specialize (K b I). unfold steady_b in K. cbv zeta in K.
  intros pts tri n P T Bn. 
  assert (pts = nonzero (tile_mask rough_stack b)) as ->.
  { eapply tile_pixels_unique; [exact P|]. destruct I as [<-|[<-|[]]]; apply mask_pixels; cbn; lia. }
  set (pts := nonzero (tile_mask rough_stack b)) in *. clearbody pts.
  assert (tri = strip (length pts)) as -> by (unfold px_triangles in T; destruct (_ <? 3); congruence).
  rewrite forallb_forall in K. specialize (K n ltac:(apply in_seq; lia)). apply andb_prop in K as [K0 K]. rewrite forallb_forall in K.
  assert (forall d1 d2 x v, ifg_value rough_stack d1 d2 x v -> cong2pi v (phase_or d2 x - phase_or d1 x)%Q) as V.
  { intros d1 d2 x v (p & q & E1 & E2 & C). unfold phase_or. rewrite E1, E2. exact C. }
  cbv zeta. split.
  - intros a A. apply stays_check in K0. eapply stays_cong; [|exact K0]. now apply V.
  - intros u v a c J A C. specialize (K (u, v) J). cbn [fst snd] in K. apply stays_check in K. eapply stays_cong; [|exact K]. apply cong2pi_sub; now apply V.
Qed.

Example C84_stack_witness : let st := rough_stack in let gt := hop3_graph 4 in
  hop3 (Z.of_nat (length (st_files st))) = Ok gt /\ NoDup (map fst (st_files st)) /\ coh_shape st 7 2 /\
  readable st /\ readable bumped_stack /\ moved_stack st bumped_stack eps_r /\
  (forall b, In b (tiles two_tiles) -> (0 <= xmin b)%Z /\ (0 <= ymin b)%Z) /\
  (forall b, In b (tiles two_tiles) -> steady px_triangles st (g_links gt) eps_r b) /\
  ~ (drift (g_links gt) eps_r 3%nat (1, 0)%Z == 0)%Q /\
  exists files, map_res (rough_unwrap st gt) (tiles two_tiles) = Ok files.
Proof.
  cbv zeta. assert (NoDup (map fst (st_files rough_stack))) as Nf by (repeat constructor; cbn; intuition discriminate).
  split; [reflexivity|]. split; [exact Nf|]. split; [exact rough_coh|]. split; [exact rough_readable|]. split; [exact bumped_readable|]. split; [exact bumped_moved|].
  split; [intros b [<-|[<-|[]]]; cbn; lia|]. split; [exact rough_steady|]. split.
  - intros E. apply Qeq_bool_iff in E. vm_compute in E. discriminate.
  - apply map_res_ok_iff. intros b I.
    assert (exists q, q < 4 /\ b = tile_at rough_tiles q) as (q & Bq & ->) by (destruct I as [<-|[<-|[]]]; [exists 1|exists 2]; (split; [lia|reflexivity])).
    apply (C65_tile cert_smcf px_triangles (fun _ l => rev l) (@rev nat) 4 (Settings Constant Constant 2 0 0) [] [] (fun _ => []) (fun _ => [])
      cert_smcf_sound px_planar (fun _ l => Permutation_sym (Permutation_rev l)) (fun l => Permutation_sym (Permutation_rev l)) ltac:(cbn; lia) cert_smcf_complete ltac:(cbn; lia)
      rough_stack (hop3_graph 4) (tile_at rough_tiles q) eq_refl Nf).
    + destruct q as [|[|[|[|]]]]; cbn; lia.
    + destruct q as [|[|[|[|]]]]; cbn; lia.
    + exact rough_readable.
    + exists (repeat 1%Z 6). split; [reflexivity|]. split; [reflexivity|]. split; [|vm_compute; discriminate]. intros x J. apply repeat_spec in J. lia.
    + intros pts P. destruct (rough_triangles q pts Bq P) as [(tri & T) _]. exists tri. split; [exact T|].
      eexists. split; [reflexivity|]. apply repeat_length.
Qed.

(** The two tiles of [C76_witness] with a field added to both. *)
Definition fd (b : nat) (x : Z * Z) : Q := inject_Z (snd x * snd x) * (1 # 11).
Definition fd_file (b : bbox) (l : list Z) : tile_file :=
  TileFile (map (fun c => (0, Z.of_nat c)%Z) (seq 0 13)) b
    [map (fun cn => twopi * inject_Z (snd cn) + (1 # 7) + fd 0 (0%Z, Z.of_nat (fst cn) + ymin b)%Z)%Q (combine (seq 0 13) l)] [1 # 3]%Q.
Definition fd_files : list tile_file :=
  [fd_file (BBox 0 0 1 13) (repeat 0%Z 13); fd_file (BBox 0 1 1 14) (map (Z.add 2) ([0; 5] ++ repeat 0 11)%Z)].
Lemma fd_cut : cut_files sh_t 1 14 1 fd_files.
Proof.
  split; [reflexivity|]. split; [cbn; lia|]. split; [intros [|[|n]] B; [reflexivity|reflexivity|cbn in B; lia]|].
  intros fl I. assert (exists b l, fl = fd_file b l /\ length l = 13%nat /\ (xmin b = 0 /\ (ymin b = 0 \/ ymin b = 1))%Z) as (b & l & -> & L & Bx & By).
  { destruct I as [<-|[<-|[]]]; eexists; eexists; (split; [reflexivity|]); (split; [reflexivity|]); cbn; lia. }
  split; [|split].
  - unfold fd_file. cbn [tf_points]. apply FinFun.Injective_map_NoDup; [|apply seq_NoDup]. intros a c Q. injection Q. lia.
  - intros r c J. unfold file_coords, fd_file in J. cbn [tf_points tf_tile] in J. rewrite map_map in J. apply in_map_iff in J as (n & Q & J). apply in_seq in J.
    cbn in Q. injection Q as <- <-. lia.
  - unfold fd_file, tile_bands. cbn [tf_uw tf_offset tf_points]. split; [reflexivity|]. split; [reflexivity|]. intros r [<-|[]]. rewrite !map_length, combine_length, seq_length. lia.
Qed.
Lemma fd_layout : same_layout sh_files fd_files.
Proof. split; [reflexivity|]. intros [|[|[|i]]]; split; reflexivity. Qed.
Lemma fd_field : same_field 1 fd sh_files fd_files.
Proof.
  Transparent twopi.
  intros b i p x Bb E. destruct b; [|lia]. destruct i as [|[|i]]; [| |destruct i; destruct p; discriminate];
    do 13 (destruct p as [|p]; [apply some_inj in E; subst x; vm_compute; reflexivity|]); destruct p; discriminate.
  Opaque twopi.
Qed.

(** The merged raster moves by the field at every pixel. *)
Example C84_merge_witness : exists outs outs' arr diff model arr' diff' model',
  sh_merge sh_f [[0; 2]]%Q sh_files = Ok outs /\ sh_merge sh_f [[0; 2]]%Q fd_files = Ok outs' /\
  nth_error outs 0 = Some (arr, diff, model) /\ nth_error outs' 0 = Some (arr', diff', model') /\
  forall c, (0 <= c < 14)%Z -> plus_opt (fd 0 (0, c)%Z) (pixel model (0, c)%Z) (pixel model' (0, c)%Z) /\
    same_value (pixel diff (0, c)%Z) (pixel diff' (0, c)%Z) /\ plus_opt (fd 0 (0, c)%Z) (pixel arr (0, c)%Z) (pixel arr' (0, c)%Z).
Proof.
  destruct (C84_merge labels_of 11 sh_files fd_files sh_t sh_f 1 14 1 fd sh_cg (fun _ => true) wf_triangles [[1]; [0]]%nat (proj1 components_witness) sh_respects
    (sh_cut _ (or_introl eq_refl)) fd_cut fd_layout fd_field sh_recorded1 eq_refl) as [_ K].
  pose proof sh_merged1 as M. destruct (sh_merge sh_f [[0; 2]]%Q sh_files) as [outs|] eqn:E; [|discriminate].
  destruct (K 2 [[0; 2]]%Q (1, 14)%Z [0]%nat outs E) as (outs' & E' & L & L' & P).
  destruct outs as [|[[arr diff] model] o]; [discriminate|]. destruct (P 0 0 arr diff model eq_refl eq_refl) as (arr' & diff' & model' & Ea & Px).
  exists ((arr, diff, model) :: o), outs', arr, diff, model, arr', diff', model'. split; [reflexivity|]. split; [exact E'|]. split; [reflexivity|]. split; [exact Ea|].
  intros c Bc. apply Px. unfold in_shape. cbn [fst snd]. lia.
Qed.

Print Assumptions C84_one.
Print Assumptions C84_cube.
Print Assumptions C84_tile.
Print Assumptions C84_merge.
Print Assumptions C84_stack.
