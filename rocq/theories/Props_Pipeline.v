(** C58: from SLC files to output rasters. *)
From Verif Require Import Base BaseLemmas GraphModel GraphSpec GraphProofs Hop3Proofs McfModel McfSpec EmcfModel StripProofs
  TileModel TileSpec Props_Tile NamesModel NamesProofs OverlapModel OverlapSpec MergeModel MergeSpec WorkflowModel WorkflowSpec WorkflowProofs
  WorkflowMain DescribeProofs Props_Merge Props_Workflow SlcModel SlcSpec SlcProofs Props_Slc UnwrapTileModel UnwrapTileProofs PipelineSpec PipelineProofs.
From Coq Require Import List Permutation Sorting.Sorted ZifyBool.
Import ListNotations.
Set Default Goal Selector "!".
Local Open Scope nat_scope.

Lemma hop3_is n gt : hop3 (Z.of_nat n) = Ok gt -> 4 <= n /\ gt = hop3_graph n.
Proof.
  intros H. destruct (Nat.le_gt_cases 4 n) as [L|L]; [|unfold hop3 in H; destruct (Z.ltb_spec (Z.of_nat n) 4); [discriminate|lia]].
  rewrite hop3_ok in H by auto. injection H as <-. auto.
Qed.

Lemma image_in st h w x q : coh_shape st h w -> image_at (st_coh st) x = Some q -> (0 <= fst x < h)%Z /\ (0 <= snd x < w)%Z.
Proof.
  intros [Hh Hw] H. unfold image_at in H. destruct (_ && _) eqn:E; [|discriminate]. unfold pixel_at in H.
  destruct (nth_error (st_coh st) (Z.to_nat (fst x))) as [row|] eqn:Er; [|discriminate].
  specialize (Hw row (nth_error_In _ _ Er)).
  assert (Z.to_nat (fst x) < length (st_coh st)) by (apply nth_error_Some; congruence).
  assert (Z.to_nat (snd x) < length row) by (apply nth_error_Some; congruence). lia.
Qed.

Section Pipeline.
  Context (smcf : list arc -> list Z -> option (list Z))
          (triangles : list (Z * Z) -> res (list (nat * nat * nat)))
          (tsched : nat -> list nat -> list nat) (ssched : list nat -> list nat) (cpu : Z)
          (set : settings) (tdist tcent : list Z) (sdist scent : list (Z * Z) -> list Z).
  (* the network solver, the triangulation and the worker pools *)
  Hypothesis Hsm : smcf_sound smcf.
  Hypothesis Htri : forall pts tri, triangles pts = Ok tri -> planar (delaunay (length pts) tri).
  Hypothesis Ht : forall b l, Permutation (tsched b l) l.
  Hypothesis Hs : forall l, Permutation (ssched l) l.
  Hypothesis Hl : 0 < links_per_batch set.
  Notation unwrap := (unwrap_one_tile smcf triangles tsched ssched cpu set tdist tcent sdist scent).

  (** One tile: the file holds, for every valid pixel of the tile in row-major
      order and for every interferogram, a phase that is congruent to the
      interferometric phase of the two acquisitions. *)
  Theorem C58_tile st gt b f : planar gt -> NoDup (map fst (st_files st)) -> length (st_files st) = g_npoints gt ->
    (0 <= xmin b)%Z -> (0 <= ymin b)%Z -> unwrap st gt b = Ok f ->
    tf_tile f = b /\ tile_bands (length (g_links gt)) f /\ StronglySorted before (tf_points f) /\
    (forall x, In x (file_coords f) <-> valid_pixel st x /\ has_pixel b (fst x) (snd x)) /\
    (forall k i j p x, nth_error (g_links gt) k = Some (i, j) -> nth_error (file_coords f) p = Some x ->
       ifg_value st (nth i (st_dates st) ""%string) (nth j (st_dates st) ""%string) x (MergeSpec.phase_of f k p)).
  Proof. intros. eapply tile_out; eauto. Qed.

  (** The whole workflow, from an empty intermediate folder: there is one output
      name per pair of acquisitions at most three apart; under every name that
      was not there before is a raster with the shape of the coherence raster,
      whose pixels are not-a-number where the coherence is not above the
      threshold, and elsewhere congruent to the interferometric phase. *)
  Theorem C58_workflow st e s ws fn h w s' :
    NoDup (map fst (st_files st)) -> coh_shape st h w -> (0 < h)%Z -> (0 < w)%Z -> (h * w <= 2 ^ 32)%Z ->
    (forall d, In d (st_dates st) -> underscore_free d) ->
    (forall d1 d2, In d1 (st_dates st) -> In d2 (st_dates st) -> occurs ".tif" (stem (e_out e) (d1, d2)) = false) ->
    picks_in_range (e_pick e) -> tiler_post_init s' = Ok (e_tiler e) -> sched_ok e ->
    (forall n l, length (e_components e n l) = n) -> fresh e s ->
    run (cli unwrap st e) s = (ws, Ok fn) ->
    (forall n, In n fn <-> exists i j, i < j < length (st_dates st) /\ j - i <= 3 /\
       n = unw_filename (e_out e) (nth i (st_dates st) ""%string) (nth j (st_dates st) ""%string)) /\
    forall i j, i < j < length (st_dates st) -> j - i <= 3 ->
      let d1 := nth i (st_dates st) ""%string in let d2 := nth j (st_dates st) ""%string in
      let n := unw_filename (e_out e) d1 d2 in
      s n = None ->
      exists r, apply_writes s ws n = Some (CRaster r) /\ raster_shape r (h, w) /\
        forall x, in_image (h, w) (fst x) (snd x) ->
          (~ valid_pixel st x -> pixel r x = None) /\
          (valid_pixel st x -> exists v, pixel r x = Some v /\ ifg_value st d1 d2 x v).
  Proof using Hsm Htri Ht Hs Hl.
    intros Nf Csh Ph Pw Hhw Hus Htif Hpick Htil Hsch Hcc Hfr R.
    unfold cli in R. apply then_inv in R as (w0 & gt & ws' & R0 & R & ->). apply lift_inv in R0 as [-> R0]. change ([] ++ ws') with ws'. cbn [apply_writes fold_left] in R.
    apply hop3_is in R0 as [N4 Egt]. set (e' := stack_env st gt unwrap e) in *.
    assert (planar gt) as Pgt by (rewrite Egt; apply hop3_planar; auto).
    assert (length (st_files st) = g_npoints gt) as Ld by (rewrite Egt; reflexivity).
    assert (forall a b, In (a, b) (g_links gt) <-> a < b < length (st_dates st) /\ b - a <= 3) as Lk.
    { intros a b. rewrite Egt, dates_length. cbn [g_links hop3_graph]. now apply hop3_link_list_In. }
    assert (names_ok e') as Hn.
    { split; [|split; [|split]]; [|apply (pl_nodup gt Pgt)|exact Hus|exact Htif].
      cbn. unfold st_dates, dates_of. eapply Permutation_NoDup; [symmetry; apply sort_str_perm|exact Nf]. }
    assert (length (stack_mask st) = Z.to_nat h) as Lm by (unfold stack_mask; rewrite map_length; destruct Csh; lia).
    assert (forall i, i < length (stack_mask st) -> length (nth i (stack_mask st) []) = Z.to_nat w) as Lrow.
    { intros i B. unfold stack_mask in *. rewrite map_length in B. rewrite (nth_indep _ [] (map (above (st_threshold st)) [])) by (now rewrite map_length).
      rewrite map_nth, map_length. destruct Csh as [_ C]. specialize (C (nth i (st_coh st) []) (nth_In _ _ B)). lia. }
    assert (forall t, get_tiles (e_pick e') (e_root e') (e_use_tiles e') (e_tiler e') (e_valid e') = Ok t -> shape t = (h, w) /\
      (forall b, In b (tiles t) -> box_in_image (h, w) b) /\
      (forall r c, in_image (h, w) r c -> exists i, (i < ntiles t)%nat /\ has_pixel (tile_at t i) r c)) as Hg.
    { intros t E. change (e_valid e') with (stack_mask st) in E. 
      assert (length (nth 0 (stack_mask st) []) = Z.to_nat w) as L0 by (apply Lrow; lia).
      apply (C30_get_tiles _ _ _ _ s') in E as (E1 & _ & E2 & E3 & _); auto; rewrite ?Lm, ?L0, ?Z2Nat.id in * by lia; try lia; try nia.
      - split; [exact E1|]. split; [|exact E3]. now apply Forall_forall.
      - intros i B. apply Lrow. lia. }
    assert (forall b f, (0 <= xmin b)%Z -> (0 <= ymin b)%Z -> e_unwrap e' b = Ok f -> 
       tf_tile f = b /\ tile_bands (length (g_links gt)) f /\ StronglySorted before (tf_points f) /\
    (forall x, In x (file_coords f) <-> valid_pixel st x /\ has_pixel b (fst x) (snd x)) /\
    (forall k i j p x, nth_error (g_links gt) k = Some (i, j) -> nth_error (file_coords f) p = Some x ->
       ifg_value st (nth i (st_dates st) ""%string) (nth j (st_dates st) ""%string) x (MergeSpec.phase_of f k p))) as Htile.
    { intros b f B1 B2 E. eapply C58_tile; eauto. }
    assert (unwrap_ok e' h w) as Hu.
    { intros t b f G I E. apply Hg in G as (_ & Hbox & _). specialize (Hbox b I). unfold box_in_image in Hbox. 
      destruct (Htile b f) as (T1 & (_ & _ & T2) & T3 & T4 & _); [lia|lia|exact E|]. split; [exact T1|]. split; [exact T2|]. split; [now apply before_nodup|].
      intros r c J. apply T4 in J as [(q & J & _) _]. apply (image_in _ h w) in J; auto. }
    assert (output_files e' = Ok fn) as Ho.
    { apply main_done in R as (w1 & w2 & w3 & w4 & w5 & t & R1 & R2 & R3 & R4 & R5 & _). eapply outputs; eauto. }
    destruct (outputs_pairs e' fn Ho) as [Efn Bfn]. rewrite map_map in Efn.
    split.
    - intros n. rewrite Efn, in_map_iff. split.
      + intros ([i j] & <- & I). exists i, j. apply Lk in I as [I1 I2]. split; [auto|]. split; [auto|]. reflexivity.
      + intros (i & j & B & D & ->). exists (i, j). split; [reflexivity|]. now apply Lk.
    - intros i j B D d1 d2 n Hs0. assert (In (i, j) (g_links gt)) as I by now apply Lk.
      apply In_nth_error in I as (k & Ek).
      assert (nth_error fn k = Some n) as En.
      { rewrite Efn, nth_error_map. change (e_ifgs e') with (g_links gt). rewrite Ek. reflexivity. }
      assert (k < length fn) as Bk by (apply nth_error_Some; congruence).
      assert (nth k fn ""%string = n) as Enk by now apply nth_error_nth.
      destruct (run_output e' s ws' fn h w k Hn Hsch Hfr Hu Hhw Hcc R Bk) as (t & files & r & G & L & Hfiles & Fr & Hr); [now rewrite Enk|].
      rewrite Enk in Fr. apply Hg in G as (Sh & Hbox & Hcov). rewrite Sh in Hr.
      assert (forall q, q < ntiles t -> (0 <= xmin (tile_at t q))%Z /\ (0 <= ymin (tile_at t q))%Z) as Hpos.
      { intros q Bq. specialize (Hbox (tile_at t q) (nth_In _ _ Bq)). unfold box_in_image in Hbox. lia. }
      exists r. split; [exact Fr|]. split; [apply (Hr (0, 0)%Z); unfold in_shape; cbn; lia|].
      intros x Hx. destruct (Hr x) as (_ & Hnone & Hsome); [unfold in_shape, in_image in *; cbn in *; lia|]. split.
      + intros Nv. apply Hnone. intros q p (f & Eq & Ep). assert (q < ntiles t) as Bq by (rewrite <- L; apply nth_error_Some; congruence).
        destruct (Hpos q Bq) as [P1 P2]. destruct (Htile _ _ P1 P2 (Hfiles q Bq)) as (_ & _ & _ & T & _). rewrite (nth_error_nth _ _ _ Eq) in T.
        apply Nv. apply (T x), (nth_error_In _ _ Ep).
      + intros V. destruct Hsome as (v & q & p & Ev & (f & Eq & Ep) & Cg).
        * destruct (Hcov (fst x) (snd x) Hx) as (q & Bq & Px). destruct (Hpos q Bq) as [P1 P2]. destruct (Htile _ _ P1 P2 (Hfiles q Bq)) as (_ & _ & _ & T & _).
          pose proof (proj2 (T x) (conj V Px)) as J. apply In_nth_error in J as (p & J). exists q, p, (nth q files dfile). split; [apply nth_error_nth'; lia|exact J].
        * exists v. split; [exact Ev|]. assert (q < ntiles t) as Bq by (rewrite <- L; apply nth_error_Some; congruence).
          destruct (Hpos q Bq) as [P1 P2]. destruct (Htile _ _ P1 P2 (Hfiles q Bq)) as (_ & _ & _ & _ & T). rewrite (nth_error_nth _ _ _ Eq) in T.
          destruct (T k i j p x Ek Ep) as (a & b & A & Bb & C2). exists a, b. split; [exact A|]. split; [exact Bb|].
          rewrite (nth_error_nth _ _ _ Eq) in Cg. destruct Cg as [m1 C1], C2 as [m2 C2]. exists (m1 + m2)%Z. rewrite inject_Z_plus. lra.
  Qed.
End Pipeline.

(** * Cases *)

(** Four acquisitions of ten by two pixels, two of them not valid. The phase of
    acquisition [t] at row [r] and column [c] is [t * (r + c) / 2]; whole cycles
    are removed in the files. *)
Definition px_image (t : nat) : list (list Q) :=
  map (fun r => map (fun c => inject_Z (Z.of_nat (t * (r + c))) * (1 # 2) - twopi * inject_Z (Z.of_nat (t * r)))%Q [0; 1]) (seq 0 10).
Definition px_stack : slc_stack Q :=
  SlcStack [("20200101", None); ("20200113", Some "a"); ("20200125", Some "b"); ("20200206", Some "c")]%string
    (map (fun r => map (fun c => if (r =? 3) && (c =? 1) then None else if (r =? 9) && (c =? 1) then Some (1 # 5)%Q else Some (4 # 5)%Q) [0; 1]) (seq 0 10)) (1 # 2)
    (fun f => if String.eqb f "a" then Some (px_image 1) else if String.eqb f "b" then Some (px_image 2) else if String.eqb f "c" then Some (px_image 3) else None).
Definition px_triangles (p : list (Z * Z)) : res (list (nat * nat * nat)) :=
  if length p <? 3 then Err ValueError else Ok (strip (length p)).
Definition px_env (use : bool) : env :=
  Env "tmp" "out" [] [] [] (fun _ => Err ValueError) (@rev nat) use (TilerSettings 4 4 100 1%Q) 2 11 "dirichlet" "L2" 1 pick_rows (fun _ => 2%Z)
      (fun n _ => repeat 0 n) (fun _ => None) (fun a _ => map (fun _ => 0%Q) (nth 0 a [])) (fun _ b => map (fun _ => 0%Q) b) (fun _ => true)
      wf_triangles.
Definition px_unwrap := unwrap_one_tile (fun _ _ => None) px_triangles (fun _ l => rev l) (@rev nat) 4 (Settings Constant Constant 2 0 0) [] [] (fun _ => []) (fun _ => []).

Example px_planar pts tri : px_triangles pts = Ok tri -> planar (delaunay (length pts) tri).
Proof. unfold px_triangles. destruct (Nat.ltb_spec (length pts) 3); [discriminate|]. intros [= <-]. now apply strip_planar. Qed.
Example px_smcf : smcf_sound (fun _ _ => None).
Proof. intros arcs sup f. discriminate. Qed.
Example px_coh : coh_shape px_stack 10 2.
Proof. split; [reflexivity|]. intros row I. vm_compute in I. repeat (destruct I as [<-|I]; [reflexivity|]). destruct I. Qed.
Definition px_outs : list string := ["out/20200101_20200113.unw.tif"; "out/20200101_20200125.unw.tif"; "out/20200101_20200206.unw.tif";
  "out/20200113_20200125.unw.tif"; "out/20200113_20200206.unw.tif"; "out/20200125_20200206.unw.tif"]%string.
Definition px_ws : list write := fst (run (cli px_unwrap px_stack (px_env false)) wf_empty).

(** The hypotheses hold and the run ends well. *)
Example C58_witness : NoDup (map fst (st_files px_stack)) /\ coh_shape px_stack 10 2 /\
  (forall d, In d (st_dates px_stack) -> underscore_free d) /\
  (forall d1 d2, In d1 (st_dates px_stack) -> In d2 (st_dates px_stack) -> occurs ".tif" (stem "out" (d1, d2)) = false) /\
  picks_in_range (e_pick (px_env false)) /\ tiler_post_init (TilerSettings 4 4 100 1%Q) = Ok (e_tiler (px_env false)) /\
  sched_ok (px_env false) /\ (forall n l, length (e_components (px_env false) n l) = n) /\ fresh (px_env false) wf_empty /\
  run (cli px_unwrap px_stack (px_env false)) wf_empty = (px_ws, Ok px_outs).
Proof.
  split; [repeat constructor; cbn; intuition discriminate|]. split; [apply px_coh|].
  split; [intros d I; vm_compute in I; repeat (destruct I as [<-|I]; [reflexivity|]); destruct I|].
  split; [intros d1 d2 I1 I2; vm_compute in I1, I2; repeat (destruct I1 as [<-|I1]; [repeat (destruct I2 as [<-|I2]; [reflexivity|]); destruct I2|]); destruct I1|].
  split; [apply pick_rows_ok|]. split; [reflexivity|]. split; [intros l; apply Permutation_sym, Permutation_rev|]. split; [intros n l; apply repeat_length|].
  split; [intros n _; reflexivity|].
  assert (snd (run (cli px_unwrap px_stack (px_env false)) wf_empty) = Ok px_outs) as H by (vm_compute; reflexivity).
  rewrite <- H. apply surjective_pairing.
Qed.

(** What the theorem says about one pixel of one output: date 1 against date 3 at
    (2, 1), and a pixel without coherence. *)
Example C58_pixels : exists r v, apply_writes wf_empty px_ws "out/20200113_20200206.unw.tif"%string = Some (CRaster r) /\
  pixel r (3, 1)%Z = None /\ pixel r (2, 1)%Z = Some v /\ cong2pi v 3.
Proof.
  destruct C58_witness as (H1 & H2 & H3 & H4 & H5 & H6 & H7 & H8 & H9 & R).
  destruct (C58_workflow (fun _ _ => None) px_triangles (fun _ l => rev l) (@rev nat) 4 (Settings Constant Constant 2 0 0) [] [] (fun _ => []) (fun _ => [])
    px_smcf px_planar (fun _ l => Permutation_sym (Permutation_rev l)) (fun l => Permutation_sym (Permutation_rev l)) ltac:(cbn; lia)
    px_stack (px_env false) wf_empty px_ws px_outs 10 2 _ H1 H2 ltac:(lia) ltac:(lia) ltac:(lia) H3 H4 H5 H6 H7 H8 H9 R) as [_ C].
  destruct (C 1 3 ltac:(cbn; lia) ltac:(lia) eq_refl) as (r & E & _ & P). exists r.
  destruct (P (3, 1)%Z) as [P1 _]; [unfold in_image; cbn; lia|]. destruct (P (2, 1)%Z) as [_ P2]; [unfold in_image; cbn; lia|].
  destruct P2 as (v & Ev & a & b & Ea & Eb & V); [exists (4 # 5)%Q; split; vm_compute; reflexivity|]. exists v.
  split; [exact E|]. split; [apply P1; intros (q & Q1 & _); vm_compute in Q1; discriminate|]. split; [exact Ev|].
  assert (Some (inject_Z 3 * (1 # 2) - twopi * inject_Z 2)%Q = Some a) as Ea' by (rewrite <- Ea; reflexivity).
  assert (Some (inject_Z 9 * (1 # 2) - twopi * inject_Z 6)%Q = Some b) as Eb' by (rewrite <- Eb; reflexivity).
  injection Ea' as <-. injection Eb' as <-. destruct V as [k V]. exists (k - 4)%Z. rewrite V. unfold Zminus. rewrite inject_Z_plus.
  change (inject_Z (- (4))) with (-4)%Q. change (inject_Z 2) with 2%Q. change (inject_Z 6) with 6%Q. change (inject_Z 3) with 3%Q. change (inject_Z 9) with 9%Q. lra.
Qed.

Print Assumptions C58_tile.
Print Assumptions C58_workflow.
