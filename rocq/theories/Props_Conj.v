(** C86: negating all phases (conjugate samples) negates all results. *)
From Verif Require Import Base BaseLemmas PoolProofs GraphModel GraphSpec GraphProofs Hop3Proofs StripProofs McfModel McfSpec DualProofs ResidueProofs PhaseProofs
  EmcfModel EmcfSpec EmcfProofs Props_Mcf Props_Emcf InvariantSpec InvariantProofs Props_Invariant
  TileModel TileSpec SlcModel SlcSpec SlcProofs Props_Slc OverlapModel OverlapSpec OverlapProofs BulkModel BulkSpec MergeModel MergeSpec BulkProofs AdjustProofs MergeBatchProofs DescribeProofs
  UnwrapTileModel UnwrapTileProofs PipelineSpec
  ExactSpec ExactTileProofs ExactWitness WorkflowModel Props_Workflow Props_Pipeline PipelineProofs ExactRunProofs CertSolver Props_Exact Props_Any Props_InvariantTile
  ShiftSpec ShiftProofs ShiftMergeProofs Props_Shift PerturbSpec FieldProofs ConjSpec ConjProofs ConjMergeProofs ConjStatsProofs ConjBulkProofs Props_Perturb.
From Coq Require Import List Permutation Sorting.Sorted ZifyBool Lqa.
Import ListNotations.
Set Default Goal Selector "!".
Local Open Scope nat_scope.
Opaque twopi.

(** The theorems below compare a run with one whose solvers break ties the other way.
    Such solvers exist: for every flow solver there is one that answers the mirrored
    problems, as good as the first. *)
Theorem C86_mirror : forall smcf, exists smcf', mirrors smcf smcf' /\
  (smcf_sound smcf -> smcf_sound smcf') /\ (smcf_complete smcf -> smcf_complete smcf').
Proof. intros smcf. exists (mirror smcf). split; [apply mirror_mirrors|]. split; [apply mirror_sound|apply mirror_complete]. Qed.

(** The same for the solver of the tile offsets. *)
Theorem C86_turn : forall solve, exists solve', turns solve solve' /\
  (mip_sound solve -> mip_sound solve') /\ (mip_complete solve -> mip_complete solve').
Proof. intros solve. exists (turned solve). split; [apply turned_turns|]. split; [apply turned_sound|apply turned_complete]. Qed.

(** One interferogram. The costs of the two directions change places. *)
Theorem C86_one : forall smcf smcf' g s p p' cost revcost, smcf_sound smcf -> mirrors smcf smcf' ->
  planar g -> make_solver g = Ok s -> opposite p p' ->
  same_outcome (fun r r' => snd r' = map Z.opp (snd r) /\ opposite (fst r) (fst r'))
    (unwrap_one smcf s p cost revcost) (unwrap_one smcf' s p' (rev_or cost revcost) (Some cost)).
Proof.
  intros smcf smcf' g s p p' cost revcost Hsm Hm Hp Hs H. apply solver_of in Hs; auto. subst s. now apply one_neg.
Qed.

(** A stack of interferograms or of dates. *)
Theorem C86_cube : forall smcf smcf' gs gt e tsched ssched cpu c c' i, smcf_sound smcf -> mirrors smcf smcf' -> planar gs -> planar gt ->
  make_solver gs = Ok (em_space e) -> make_solver gt = Ok (em_time e) ->
  (forall b l, Permutation (tsched b l) l) -> (forall l, Permutation (ssched l) l) -> 0 < links_per_batch (em_set e) ->
  classify e c = Ok i -> classify e c' = Ok i -> opposite_rows (cu_data c) (cu_data c') ->
  same_outcome opposite_rows (unwrap_cube smcf tsched ssched cpu e c) (unwrap_cube smcf' tsched ssched cpu e c').
Proof.
  intros smcf smcf' gs gt e tsched ssched cpu c c' i Hsm Hm Pgs Pgt Es Et Ht Hs Hl K K' H.
  apply solver_of in Es; auto. apply solver_of in Et; auto.
  exact (cube_neg smcf smcf' Hsm Hm gs gt Pgs Pgt e Es Et tsched ssched cpu Ht Hs Hl i _ _ H c c' eq_refl eq_refl K K').
Qed.

Section Tile.
  Context (smcf smcf' : list arc -> list Z -> option (list Z))
          (triangles : list (Z * Z) -> res (list (nat * nat * nat)))
          (tsched : nat -> list nat -> list nat) (ssched : list nat -> list nat) (cpu : Z)
          (set : settings) (tdist tcent : list Z) (sdist scent : list (Z * Z) -> list Z).
  Hypothesis Hsm : smcf_sound smcf.
  Hypothesis Hm : mirrors smcf smcf'.
  Hypothesis Htri : forall pts tri, triangles pts = Ok tri -> planar (delaunay (length pts) tri).
  Hypothesis Ht : forall b l, Permutation (tsched b l) l.
  Hypothesis Hs : forall l, Permutation (ssched l) l.
  Hypothesis Hl : 0 < links_per_batch set.
  Notation unwrap := (unwrap_one_tile smcf triangles tsched ssched cpu set tdist tcent sdist scent).
  Notation unwrap' := (unwrap_one_tile smcf' triangles tsched ssched cpu set tdist tcent sdist scent).
  Notation date st t := (nth t (st_dates st) ""%string).

  (** A tile of a stack on disk: the file has the same pixels and the negated phases. *)
  Theorem C86_tile st st' gt b :
    hop3 (Z.of_nat (length (st_files st))) = Ok gt -> NoDup (map fst (st_files st)) ->
    (0 <= xmin b)%Z -> (0 <= ymin b)%Z -> readable st -> readable st' -> conjugate_stack st st' ->
    same_outcome (fun f f' => tf_points f' = tf_points f /\ tf_tile f' = tf_tile f /\
        forall n p, n < length (g_links gt) -> p < length (tf_points f) -> (MergeSpec.phase_of f' n p == - MergeSpec.phase_of f n p)%Q)
      (unwrap st gt b) (unwrap' st' gt b).
  Proof using Htri Hl Hsm Hm Ht Hs.
    intros G Nf Bx By Hrd Hrd' (Ef & Ec & Eth & Hph).
    assert (forall f, unwrap st gt b = Ok f -> tile_bands (length (g_links gt)) f) as Tb.
    { intros f E. apply hop3_is in G as [N4 Egt]. eapply (C58_tile smcf triangles tsched ssched cpu set tdist tcent sdist scent) in E as (_ & T & _); eauto.
      - rewrite Egt. apply hop3_planar; auto.
      - rewrite Egt. reflexivity. }
    apply hop3_is in G as [N4 Egt].
    assert (planar gt) as Pgt by (rewrite Egt; apply hop3_planar; auto).
    assert (length (st_files st) = g_npoints gt) as Ld by (rewrite Egt; reflexivity).
    assert (st_dates st' = st_dates st) as Ed by (unfold st_dates; now rewrite Ef).
    assert (tile_mask st' b = tile_mask st b) as Em by (unfold tile_mask; now rewrite Ec, Eth).
    destruct (C50_reads 0%Q st b Nf Hrd) as (wrap & Ew).
    destruct (C50_reads 0%Q st' b ltac:(now rewrite Ef) Hrd') as (wrap' & Ew').
    destruct (tile_read set Hl st gt b Nf Ld (conj Bx By) wrap Ew) as (Hp & Es & rows & Ecu & Lr & Hd).
    destruct (tile_read set Hl st' gt b ltac:(now rewrite Ef) ltac:(now rewrite Ef) (conj Bx By) wrap' Ew') as (_ & Es' & rows' & Ecu' & Lr' & Hd').
    rewrite Em in *. rewrite Ed in *. set (pts := nonzero (tile_mask st b)) in *.
    unfold unwrap_one_tile in *. rewrite (planar_solver gt Pgt) in *. cbn [bind] in *.
    change (map (map (above (st_threshold st))) (read_temporal_coherence st b)) with (tile_mask st b) in *.
    change (map (map (above (st_threshold st'))) (read_temporal_coherence st' b)) with (tile_mask st' b). rewrite Em. fold pts. fold pts in Tb.
    destruct (triangles pts) as [tri|er] eqn:Et; cbn [bind] in *; [|reflexivity].
    pose proof (Htri _ _ Et) as Pg. rewrite (planar_solver _ Pg) in *. cbn [bind] in *. rewrite Ew in *. rewrite Ew'. cbn [bind] in *. rewrite Es in *. rewrite Es'. cbn [nth] in *.
    change (g_npoints (delaunay (length pts) tri)) with (length pts) in *. rewrite Nat.eqb_refl in *. cbn [negb] in *. rewrite Ecu in *. rewrite Ecu'.
    set (e := Emcf (dual_solver (delaunay (length pts) tri)) (dual_solver gt) set tdist tcent (sdist pts) (scent pts)) in *.
    assert (em_ifgs e = g_links gt) as EI by reflexivity.
    assert (opposite_rows rows rows') as Op.
    { split; [lia|]. intros t. destruct (Nat.lt_ge_cases t (length rows)) as [Kt|Kt].
      2:{ rewrite !nth_overflow by lia. split; [reflexivity|]. intros [|v]; reflexivity. }
      destruct (Hd t Kt) as [D1 D2]. destruct (Hd' t ltac:(lia)) as [D1' D2']. split; [congruence|]. intros p.
      destruct (Nat.lt_ge_cases p (length pts)) as [Kp|Kp]; [|rewrite !nth_overflow by lia; reflexivity].
      assert (nth_error pts p = Some (nth p pts (0, 0)%Z)) as E by now apply nth_error_nth'.
      eapply (Hph t (place b (nth p pts (0, 0)%Z))); [lia| |exact (D2 _ _ E)|exact (D2' _ _ E)].
      apply Hp. apply nth_In. exact Kp. }
    assert (forall rr, length rr = length (st_dates st) -> classify e (Cube 2 0 rr) = Ok false) as Hcl.
    { intros rr Lrr. unfold classify, em_nepochs. cbn. rewrite dates_length in Lrr. rewrite Lrr, Ld, Nat.eqb_refl. reflexivity. }
    pose proof (cube_neg smcf smcf' Hsm Hm (delaunay (length pts) tri) gt Pg Pgt e eq_refl eq_refl tsched ssched cpu Ht Hs Hl false rows rows' Op
      (Cube 2 0 rows) (Cube 2 0 rows') eq_refl eq_refl (Hcl rows Lr) (Hcl rows' Lr')) as K.
    destruct (unwrap_cube _ _ _ _ e (Cube 2 0 rows)) as [U|x], (unwrap_cube _ _ _ _ e (Cube 2 0 rows')) as [U'|x']; cbn [same_outcome bind] in *; auto.
    destruct (Tb _ eq_refl) as (_ & _ & T3). clear Tb. cbn [tf_points tf_tile tf_uw tf_offset cu_data] in *. destruct K as (LU & K).
    split; [reflexivity|]. split; [reflexivity|]. intros n p Kn Bp.
    unfold MergeSpec.phase_of, at_. cbn [tf_uw tf_offset]. rewrite !(map_nth' _ _ n (0, 0)) by auto. unfold at2.
    destruct (K n) as [_ Kv]. rewrite (Kv p). destruct Op as [_ Op].
    rewrite (pd_neg (nth 0 (nth (fst (nth n (g_links gt) (0, 0))) rows []) 0%Q) (nth 0 (nth (snd (nth n (g_links gt) (0, 0))) rows []) 0%Q)
      (nth 0 (nth (fst (nth n (g_links gt) (0, 0))) rows' []) 0%Q) (nth 0 (nth (snd (nth n (g_links gt) (0, 0))) rows' []) 0%Q)).
    - ring.
    - apply Op.
    - apply Op.
  Qed.

  (** All tiles. *)
  Lemma files_opposite st st' gt (t : tileset) h w files :
    hop3 (Z.of_nat (length (st_files st))) = Ok gt -> NoDup (map fst (st_files st)) -> coh_shape st h w -> (h * w <= 2 ^ 32)%Z ->
    (forall b, In b (tiles t) -> (0 <= xmin b)%Z /\ (0 <= ymin b)%Z) -> readable st -> readable st' -> conjugate_stack st st' -> smcf_sound smcf' ->
    map_res (unwrap st gt) (tiles t) = Ok files ->
    exists files', map_res (unwrap' st' gt) (tiles t) = Ok files' /\
      cut_files t h w (length (g_links gt)) files /\ cut_files t h w (length (g_links gt)) files' /\
      same_layout files files' /\ opposite_files (length (g_links gt)) files files'.
  Proof using Htri Hl Hsm Hm Ht Hs.
    intros G Nf Csh Hhw Hpos Hrd Hrd' Mv Hsm' E. pose proof Mv as (Ef & Ec & Eth & _).
    pose proof G as G2. apply hop3_is in G2 as [N4 Egt].
    assert (planar gt) as Pgt by (rewrite Egt; apply hop3_planar; auto).
    assert (length (st_files st) = g_npoints gt) as Ld by (rewrite Egt; reflexivity).
    assert (forall b, In b (tiles t) -> same_outcome (fun f f' => tf_points f' = tf_points f /\ tf_tile f' = tf_tile f /\
        forall n p, n < length (g_links gt) -> p < length (tf_points f) -> (MergeSpec.phase_of f' n p == - MergeSpec.phase_of f n p)%Q) (unwrap st gt b) (unwrap' st' gt b)) as K.
    { intros b I. destruct (Hpos b I). apply C86_tile; auto. }
    assert (exists files', map_res (unwrap' st' gt) (tiles t) = Ok files') as (files' & E').
    { apply map_res_ok_iff. intros b I. specialize (K b I).
      destruct (proj1 (map_res_ok_iff (unwrap st gt) (tiles t)) (ex_intro _ files E) b I) as (f & Efb). rewrite Efb in K.
      destruct (unwrap' st' gt b) as [f'|]; [eauto|contradiction]. }
    exists files'. split; [exact E'|]. pose proof E as E2. pose proof E' as E2'. apply map_res_nth in E2 as [L V]. apply map_res_nth in E2' as [L' V'].
    assert (forall sm stk fs, smcf_sound sm -> NoDup (map fst (st_files stk)) -> length (st_files stk) = g_npoints gt -> coh_shape stk h w -> length fs = length (tiles t) ->
      (forall k, k < length (tiles t) -> unwrap_one_tile sm triangles tsched ssched cpu set tdist tcent sdist scent stk gt (tile_at t k) = Ok (nth k fs no_file)) -> cut_files t h w (length (g_links gt)) fs) as Cut.
    { intros sm stk fs Hsd Nk Lk Ck Lf Vk. split; [exact Lf|]. split; [exact Hhw|].
      assert (forall k, k < length (tiles t) -> let f := nth k fs no_file in tf_tile f = tile_at t k /\ NoDup (tf_points f) /\ in_grid h w (file_coords f) /\ tile_bands (length (g_links gt)) f) as Q.
      { intros k Bk f. destruct (Hpos (tile_at t k)) as [P1 P2]; [now apply nth_In|].
        destruct (C58_tile sm triangles tsched ssched cpu set tdist tcent sdist scent Hsd Htri Ht Hs Hl stk gt _ _ Pgt Nk Lk P1 P2 (Vk k Bk)) as (T1 & T2 & T3 & T4 & _).
        split; [exact T1|]. split; [now apply before_nodup|]. split; [|exact T2].
        intros r c J. apply T4 in J as [(q & J & _) _]. apply (image_in _ h w) in J; auto. }
      split; [intros n Bn; now apply Q|]. intros fl I. apply (In_nth _ _ no_file) in I as (k & Bk & <-). rewrite Lf in Bk. apply Q in Bk. tauto. }
    assert (forall k, k < length (tiles t) -> unwrap st gt (tile_at t k) = Ok (nth k files no_file)) as W by (intros k Bk; exact (V k _ no_file Bk)).
    assert (forall k, k < length (tiles t) -> unwrap' st' gt (tile_at t k) = Ok (nth k files' no_file)) as W' by (intros k Bk; exact (V' k _ no_file Bk)).
    split; [eapply (Cut smcf st); eauto|]. split; [apply (Cut smcf' st'); auto; [now rewrite Ef|now rewrite Ef|unfold coh_shape; now rewrite Ec]|].
    assert (forall k, k < length (tiles t) -> let f := nth k files no_file in let f' := nth k files' no_file in tf_points f' = tf_points f /\ tf_tile f' = tf_tile f /\
        forall n p, n < length (g_links gt) -> p < length (tf_points f) -> (MergeSpec.phase_of f' n p == - MergeSpec.phase_of f n p)%Q) as Z.
    { intros k Bk. specialize (K (tile_at t k) (nth_In _ _ Bk)). rewrite (W k Bk), (W' k Bk) in K. exact K. }
    split; [split; [lia|]|].
    - intros k. destruct (Nat.lt_ge_cases k (length (tiles t))) as [B|B]; [destruct (Z k B) as (Z1 & Z2 & _); auto|].
      rewrite !nth_overflow by lia. auto.
    - intros n k p Bn Bp. destruct (Nat.lt_ge_cases k (length (tiles t))) as [B|B]; [now apply (Z k B)|].
      rewrite (nth_overflow files) in Bp by lia. cbn in Bp. lia.
  Qed.
End Tile.

(** The overlap statistics: unless a difference is exactly -2^15 cycles, the file of the
    negated tiles is written too, with the statistics negated and read backwards. *)
Theorem C86_stats comps min_points files files' t f H W bands :
  cut_files t H W bands files -> cut_files t H W bands files' -> same_layout files files' -> opposite_files bands files files' ->
  compute_phasediff_deciles comps min_points files t = Ok f ->
  (forall g row, In g (of_groups f) -> In row (og_stats g) -> ~ In (- 2 ^ 15)%Z row) ->
  exists f', compute_phasediff_deciles comps min_points files' t = Ok f' /\ opposite_overlaps f f'.
Proof. intros C C' L O E S. exact (recorded_neg comps min_points files files' t H W bands C C' L O f E S). Qed.

(** Without the condition this is false: 16-bit integers reach from -2^15 to 2^15 - 1. *)
Theorem C86_stats_refuted : exists b1 b2 b1' b2' : ndarray,
  nd_shape b1' = nd_shape b1 /\ nd_shape b2' = nd_shape b2 /\
  opposite_rows (nd_rows b1) (nd_rows b1') /\ opposite_rows (nd_rows b2) (nd_rows b2') /\
  pairwise_unwrapped_diff_deciles b1 b2 <> Err AssertionError /\ pairwise_unwrapped_diff_deciles b1' b2' = Err AssertionError.
Proof.
  exists (ND [1; 11] [repeat 0%Q 11]), (ND [1; 11] [repeat (- (twopi * 32768))%Q 11]), (ND [1; 11] [repeat 0%Q 11]), (ND [1; 11] [repeat (twopi * 32768)%Q 11]).
  assert (forall x y n, (y == - x)%Q -> opposite_rows [repeat x n] [repeat y n]) as Op.
  { intros x y n E. apply rows_opposite. constructor; [|constructor]. apply negs_opposite. induction n; cbn [repeat]; constructor; auto. }
  split; [reflexivity|]. split; [reflexivity|]. split; [apply Op; ring|]. split; [apply Op; ring|].
  Transparent twopi.
  split; [vm_compute; discriminate|vm_compute; reflexivity].
  Opaque twopi.
Qed.

(** The bulk offsets, by either method. *)
Theorem C86_bulk solve solve' lsq method f f' t arr O R : mip_sound solve -> turns solve solve' -> odd_solver lsq -> opposite_overlaps f f' ->
  get_bulk_offsets solve lsq method f t arr = Ok (O, R) ->
  exists O' R', get_bulk_offsets solve' lsq method f' t arr = Ok (O', R') /\ opposite_rows O O' /\ Forall2 Qeq R R'.
Proof. apply bulk_neg. Qed.

(** The merge. The spread of the tiles is unchanged. *)
Theorem C86_merge comps min_points files files' t f f' H W bands cg ilu triangles omap bulk bulk' md sh idx outs :
  (forall n e, length (comps n e) = n) -> odd_solver cg ->
  cut_files t H W bands files -> cut_files t H W bands files' -> same_layout files files' -> opposite_files bands files files' ->
  compute_phasediff_deciles comps min_points files t = Ok f -> compute_phasediff_deciles comps min_points files' t = Ok f' -> opposite_overlaps f f' ->
  overlap_map f = Ok omap -> opposite_rows bulk bulk' ->
  merge_batch cg ilu triangles f omap md bulk sh files idx = Ok outs ->
  overlap_map f' = Ok omap /\
  exists outs', merge_batch cg ilu triangles f' omap md bulk' sh files' idx = Ok outs' /\
    length outs = length idx /\ length outs' = length idx /\
    forall n b arr diff model, nth_error idx n = Some b -> nth_error outs n = Some (arr, diff, model) ->
    exists arr' diff' model', nth_error outs' n = Some (arr', diff', model') /\
      forall x, in_shape sh x = true ->
        neg_opt (pixel model x) (pixel model' x) /\ same_value (pixel diff x) (pixel diff' x) /\ neg_opt (pixel arr x) (pixel arr' x).
Proof.
  intros Hl Hcg Hcut Hcut' Ly Mf Hc Hc' (_ & Ec & Eo) Hom Hbk Hm.
  assert (overlap_map f' = Ok omap) as Hom' by (unfold overlap_map in *; now rewrite Ec, Eo).
  split; [exact Hom'|].
  pose proof Hcut as (Hn & Hfit & Ht & Hf). pose proof Hcut' as (Hn' & _ & Ht' & Hf'). rewrite no_file_d in *.
  assert (recorded_files f files) as Rf by (eapply (computed_recorded comps min_points files t f H W); eauto; intros fl I; apply Hf, I).
  assert (recorded_files f' files') as Rf' by (eapply (computed_recorded comps min_points files' t f' H W); eauto; intros fl I; apply Hf', I).
  eapply (batch_negd cg ilu triangles f f' omap md files files' bulk bulk' bands sh idx); eauto.
  - intros fl I. destruct (Hf fl I) as (A & _ & B). auto.
  - intros fl I. destruct (Hf' fl I) as (A & _ & B). auto.
Qed.

(** From the stack to the merged rasters: the conjugate stack gives the negated phases
    and the negated smooth model at every pixel, and the same spread. *)
Theorem C86_stack smcf smcf' triangles tsched ssched cpu set tdist tcent sdist scent st st' gt t h w comps min_points f files cg ilu omap solve solve' lsq method arr O R :
  smcf_sound smcf -> smcf_sound smcf' -> mirrors smcf smcf' -> (forall pts tri, triangles pts = Ok tri -> planar (delaunay (length pts) tri)) ->
  (forall b l, Permutation (tsched b l) l) -> (forall l, Permutation (ssched l) l) -> 0 < links_per_batch set ->
  (forall n e, length (comps n e) = n) -> odd_solver cg -> odd_solver lsq -> mip_sound solve -> turns solve solve' ->
  hop3 (Z.of_nat (length (st_files st))) = Ok gt -> NoDup (map fst (st_files st)) -> coh_shape st h w -> (h * w <= 2 ^ 32)%Z ->
  (forall b, In b (tiles t) -> (0 <= xmin b)%Z /\ (0 <= ymin b)%Z) -> readable st -> readable st' -> conjugate_stack st st' ->
  let unwrap sm := unwrap_one_tile sm triangles tsched ssched cpu set tdist tcent sdist scent in
  map_res (unwrap smcf st gt) (tiles t) = Ok files -> compute_phasediff_deciles comps min_points files t = Ok f ->
  (forall g row, In g (of_groups f) -> In row (og_stats g) -> ~ In (- 2 ^ 15)%Z row) ->
  get_bulk_offsets solve lsq method f t arr = Ok (O, R) -> overlap_map f = Ok omap ->
  exists files' f' O' R', map_res (unwrap smcf' st' gt) (tiles t) = Ok files' /\ compute_phasediff_deciles comps min_points files' t = Ok f' /\
    get_bulk_offsets solve' lsq method f' t arr = Ok (O', R') /\ overlap_map f' = Ok omap /\
    opposite_rows O O' /\ Forall2 Qeq R R' /\
    forall md sh idx outs, merge_batch cg ilu triangles f omap md O sh files idx = Ok outs ->
    exists outs', merge_batch cg ilu triangles f' omap md O' sh files' idx = Ok outs' /\
      length outs = length idx /\ length outs' = length idx /\
      forall n k arr diff model, nth_error idx n = Some k -> nth_error outs n = Some (arr, diff, model) ->
      exists arr' diff' model', nth_error outs' n = Some (arr', diff', model') /\
        forall x, in_shape sh x = true ->
          neg_opt (pixel model x) (pixel model' x) /\ same_value (pixel diff x) (pixel diff' x) /\ neg_opt (pixel arr x) (pixel arr' x).
Proof.
  intros Hsm Hsm' Hm Htri Ht Hs Hl Hcc Hcg Hlsq Hmip Hturn G Nf Csh Hhw Hpos Hrd Hrd' Mv unwrap E Hc Hst Hb Hom.
  destruct (files_opposite smcf smcf' triangles tsched ssched cpu set tdist tcent sdist scent Hsm Hm Htri Ht Hs Hl st st' gt t h w files G Nf Csh Hhw Hpos Hrd Hrd' Mv Hsm' E)
    as (files' & E' & C & C' & Ly & Sf).
  destruct (C86_stats comps min_points files files' t f h w _ C C' Ly Sf Hc Hst) as (f' & Hc' & Op).
  destruct (C86_bulk solve solve' lsq method f f' t arr O R Hmip Hturn Hlsq Op Hb) as (O' & R' & Hb' & Oo & Fr).
  assert (overlap_map f' = Ok omap) as Hom' by (destruct Op as (_ & Ec & Eo); unfold overlap_map in *; now rewrite Ec, Eo).
  exists files', f', O', R'. repeat (split; [assumption|]). intros md sh idx outs Hmb.
  destruct (C86_merge comps min_points files files' t f f' h w _ cg ilu triangles omap O O' md sh idx outs Hcc Hcg C C' Ly Sf Hc Hc' Op Hom Oo Hmb) as [_ K]. exact K.
Qed.

(** * Cases *)
(** The four points of [C73_one_witness], which have a residue. *)
Example C86_one_witness : opposite p22 (map Qopp p22) /\
  (exists r, unwrap_one (fixed_flow [0; 0; 0; 0; 0; 1; 0; 0]%Z) s22 p22 [3; 1; 3; 3]%Z None = Ok r /\ snd r = [0; 1; 0; 0]%Z) /\
  exists r, unwrap_one cert_smcf s22 p22 [3; 1; 3; 3]%Z None = Ok r /\ snd r <> [0; 0; 0; 0]%Z.
Proof.
  split; [|split; [apply C73_one_witness|]].
  - split; [reflexivity|]. intros v. rewrite <- (map_nth Qopp). destruct (Nat.lt_ge_cases v 4) as [B|B]; [|rewrite !nth_overflow by (cbn; lia); reflexivity].
    destruct v as [|[|[|[|v]]]]; try lia; reflexivity.
  - Transparent twopi.
    assert (match unwrap_one cert_smcf s22 p22 [3; 1; 3; 3]%Z None with Ok r => negb (forallb (Z.eqb 0) (snd r)) | Err _ => false end = true) as K by (vm_compute; reflexivity).
    Opaque twopi.
    destruct (unwrap_one _ _ _ _ _) as [r|]; [|discriminate]. exists r. split; [reflexivity|]. intros E. rewrite E in K. discriminate.
Qed.

(** Four dates of four points, with a residue in time. *)
Example C86_cube_witness : let e := em4 1 0 2 in
  classify e (Cube 2 0 slc4r) = Ok false /\ classify e (Cube 2 0 (map (map Qopp) slc4r)) = Ok false /\
  opposite_rows slc4r (map (map Qopp) slc4r) /\
  exists U, unwrap_cube tflow (fun _ l => rev l) (@rev nat) 8 e (Cube 2 0 slc4r) = Ok U.
Proof.
  cbv zeta. split; [reflexivity|]. split; [reflexivity|]. split; [|apply C84_cube_witness].
  apply rows_opposite. repeat (constructor; [apply negs_opposite; repeat (constructor; [reflexivity|]); constructor|]). constructor.
Qed.

(** The stack of [C65_witness], whose phases have residues, and its conjugate. *)
Definition neg_image (im : list (list Q)) : list (list Q) := map (map Qopp) im.
Definition conj_stack : slc_stack Q :=
  SlcStack (st_files rough_stack) (st_coh rough_stack) (st_threshold rough_stack)
    (fun f => if String.eqb f "a" then Some (neg_image (rough_image 1)) else if String.eqb f "b" then Some (neg_image (rough_image 2))
              else if String.eqb f "c" then Some (neg_image (rough_image 3)) else None).
Lemma conj_readable : readable conj_stack.
Proof.
  intros d f. cbn [conj_stack rough_stack st_files dict_get fst snd].
  repeat (destruct (String.eqb _ _); [intros E; first [discriminate E|injection E as <-; eexists; split; [reflexivity|vm_compute; reflexivity]]|]); discriminate.
Qed.
Lemma conj_at im y p p' : image_at im y = Some p -> image_at (neg_image im) y = Some p' -> (p' == - p)%Q.
Proof.
  destruct y as [r c]. unfold image_at. cbn [fst snd]. destruct ((0 <=? r) && (0 <=? c))%Z; [|discriminate]. unfold pixel_at, neg_image.
  rewrite nth_error_map. destruct (nth_error im _) as [row|]; cbn [option_map]; [|discriminate]. rewrite nth_error_map.
  destruct (nth_error row _) as [q|]; cbn [option_map]; [|discriminate]. intros [= ->] [= <-]. reflexivity.
Qed.
Example C86_stack_witness : let st := rough_stack in let gt := hop3_graph 4 in
  hop3 (Z.of_nat (length (st_files st))) = Ok gt /\ NoDup (map fst (st_files st)) /\ coh_shape st 7 2 /\
  readable st /\ readable conj_stack /\ conjugate_stack st conj_stack /\
  (forall b, In b (tiles two_tiles) -> (0 <= xmin b)%Z /\ (0 <= ymin b)%Z) /\
  mirrors cert_smcf (mirror cert_smcf) /\ smcf_sound (mirror cert_smcf) /\
  exists files, map_res (rough_unwrap st gt) (tiles two_tiles) = Ok files.
Proof.
  pose proof C84_stack_witness as (A & B & C & D & _ & _ & E & _ & _ & F). cbv zeta.
  repeat (split; [assumption|]). split; [exact conj_readable|]. split.
  - split; [reflexivity|]. split; [reflexivity|]. split; [reflexivity|].
    intros t x p p' Bt _. change (length (st_dates rough_stack)) with 4 in Bt.
    destruct t as [|[|[|[|]]]]; try lia; [|apply conj_at|apply conj_at|apply conj_at].
    intros [= <-] [= <-]. reflexivity.
  - split; [exact E|]. split; [apply mirror_mirrors|]. split; [apply mirror_sound, cert_smcf_sound|exact F].
Qed.

(** The two tiles of [C76_witness], negated. *)
Definition conj_file (f : tile_file) : tile_file := TileFile (tf_points f) (tf_tile f) (map (map Qopp) (tf_uw f)) (map Qopp (tf_offset f)).
Definition conj_files : list tile_file := map conj_file sh_files.
Lemma conj_cut : cut_files sh_t 1 14 1 conj_files.
Proof.
  destruct (sh_cut _ (or_introl eq_refl)) as (A & B & C & D). split; [reflexivity|]. split; [exact B|].
  split; [intros [|[|n]] Bn; [reflexivity|reflexivity|cbn in Bn; lia]|]. intros fl I. unfold conj_files in I. apply in_map_iff in I as (g & <- & I).
  destruct (D g I) as (D1 & D2 & D3 & D4 & D5). split; [exact D1|]. split; [exact D2|]. unfold conj_file, tile_bands. cbn [tf_uw tf_offset tf_points]. rewrite !map_length.
  split; [exact D3|]. split; [exact D4|]. intros r J. apply in_map_iff in J as (q & <- & J). rewrite map_length. now apply D5.
Qed.
Lemma conj_layout : same_layout sh_files conj_files.
Proof. split; [reflexivity|]. intros [|[|[|i]]]; split; reflexivity. Qed.
Lemma conj_opposite : opposite_files 1 sh_files conj_files.
Proof.
  Transparent twopi.
  intros b i p Bb Bp. destruct b; [|lia]. destruct i as [|[|i]]; [| |destruct i; cbn in Bp; lia];
    do 13 (destruct p as [|p]; [vm_compute; reflexivity|]); cbn in Bp; lia.
  Opaque twopi.
Qed.
Lemma sh_odd : odd_solver sh_cg.
Proof. intros a b b' E. unfold sh_cg. induction E as [|x y l l' E F IH]; cbn; constructor; [rewrite E; field|exact IH]. Qed.
Lemma conj_sh_f : opposite_overlaps sh_f (sh_recorded ([-7] ++ repeat (-2) 10)%Z).
Proof. split; [|split; reflexivity]. constructor; [|constructor]. repeat split. constructor; [split; reflexivity|constructor]. Qed.

(** The merged raster is negated at every pixel. *)
Example C86_merge_witness : exists f' O' R' outs outs' arr diff model arr' diff' model',
  compute_phasediff_deciles labels_of 11 conj_files sh_t = Ok f' /\ f' = sh_recorded ([-7] ++ repeat (-2) 10)%Z /\
  get_bulk_offsets (turned exact_mip) exact_lsq "integer"%string f' sh_t sh_valid = Ok (O', R') /\
  sh_merge sh_f [[0; 2]]%Q sh_files = Ok outs /\ sh_merge f' O' conj_files = Ok outs' /\
  nth_error outs 0 = Some (arr, diff, model) /\ nth_error outs' 0 = Some (arr', diff', model') /\
  forall c, (0 <= c < 14)%Z -> neg_opt (pixel model (0, c)%Z) (pixel model' (0, c)%Z) /\
    same_value (pixel diff (0, c)%Z) (pixel diff' (0, c)%Z) /\ neg_opt (pixel arr (0, c)%Z) (pixel arr' (0, c)%Z).
Proof.
  destruct (C86_stats labels_of 11 sh_files conj_files sh_t sh_f 1 14 1 (sh_cut _ (or_introl eq_refl)) conj_cut conj_layout conj_opposite sh_recorded1) as (f' & Hc' & Op).
  { intros g row [<-|[]] [<-|[]]. cbn. lia. }
  assert (f' = sh_recorded ([-7] ++ repeat (-2) 10)%Z) as ->.
  { destruct Op as (Fg & E1 & E2). destruct f' as [gs cc ol]. cbn in E1, E2, Fg. subst. inversion Fg as [|g g' ? ? K Fn]; subst. inversion Fn; subst.
    destruct g' as [pr c1 c2 ss], K as (K1 & K2 & K3 & K4). cbn in K1, K2, K3, K4. subst. inversion K4 as [|? ? ? ? [_ ->] K5]; subst. inversion K5; subst. reflexivity. }
  pose proof sh_merged1 as M. destruct (sh_merge sh_f [[0; 2]]%Q sh_files) as [outs|] eqn:E; [|discriminate].
  assert (exists O' R', get_bulk_offsets (turned exact_mip) exact_lsq "integer"%string (sh_recorded ([-7] ++ repeat (-2) 10)%Z) sh_t sh_valid = Ok (O', R') /\ opposite_rows [[0; 2]]%Q O') as (O' & R' & Hb & Oo).
  { pose proof sh_bulk1 as B. unfold get_bulk_offsets in B |- *.
    assert (int_neg_ok : forall n v, solve_int_offsets exact_mip [(0, 1)] [0; 0] [2]%Z (map (count_valid sh_valid) (tiles sh_t)) = Ok (n, v) ->
      solve_int_offsets (turned exact_mip) [(0, 1)] [0; 0] [-2]%Z (map (count_valid sh_valid) (tiles sh_t)) = Ok (map Z.opp n, v))
      by (intros n v; apply (int_neg exact_mip (turned exact_mip) exact_mip_sound (turned_turns exact_mip) _ _ [2]%Z)).
    cbn -[solve_int_offsets count_valid tiles] in B |- *. fold (map (count_valid sh_valid) (tiles sh_t)) in *.
    destruct (solve_int_offsets exact_mip _ _ _ _) as [[n v]|]; [|discriminate]. rewrite (int_neg_ok n v eq_refl). cbn [bind map fst snd] in *.
    do 2 eexists. split; [reflexivity|]. assert (map inject_Z n = [0; 2]%Q) as Bn by congruence. clear B Hc'.
    assert (n = [0; 2]%Z) as -> by (apply (f_equal (map Qnum)) in Bn; rewrite map_map in Bn; cbn [Qnum inject_Z] in Bn; rewrite map_id in Bn; exact Bn).
    cbn [map Z.opp].
    apply rows_opposite. constructor; [|constructor]. apply negs_opposite. repeat (constructor; [reflexivity|]). constructor. }
  destruct (C86_merge labels_of 11 sh_files conj_files sh_t sh_f _ 1 14 1 sh_cg (fun _ => true) wf_triangles [[1]; [0]]%nat [[0; 2]]%Q O' 2 (1, 14)%Z [0]%nat outs
    (proj1 components_witness) sh_odd (sh_cut _ (or_introl eq_refl)) conj_cut conj_layout conj_opposite sh_recorded1 Hc' conj_sh_f eq_refl Oo E) as [_ (outs' & E' & L & L' & P)].
  destruct outs as [|[[arr diff] model] o]; [discriminate|]. destruct (P 0 0 arr diff model eq_refl eq_refl) as (arr' & diff' & model' & Ea & Px).
  exists (sh_recorded ([-7] ++ repeat (-2) 10)%Z), O', R', ((arr, diff, model) :: o), outs', arr, diff, model, arr', diff', model'.
  split; [exact Hc'|]. split; [reflexivity|]. split; [exact Hb|]. split; [reflexivity|]. split; [exact E'|]. split; [reflexivity|]. split; [exact Ea|].
  intros c Bc. apply Px. unfold in_shape. cbn [fst snd]. lia.
Qed.

Print Assumptions C86_mirror.
Print Assumptions C86_turn.
Print Assumptions C86_one.
Print Assumptions C86_cube.
Print Assumptions C86_tile.
Print Assumptions C86_stats.
Print Assumptions C86_stats_refuted.
Print Assumptions C86_bulk.
Print Assumptions C86_merge.
Print Assumptions C86_stack.
