(** The steps of a run from nothing, and exact recovery of a smooth history. *)
From Verif Require Import Base BaseLemmas PoolProofs GraphModel GraphSpec TileModel TileSpec JsonModel NamesModel NamesProofs McfModel McfSpec OverlapModel OverlapSpec
  BulkModel BulkSpec BulkProofs MergeModel MergeSpec AdjustProofs MergeBatchProofs DescribeProofs WorkflowModel WorkflowSpec WorkflowProofs WorkflowSteps WorkflowMerge
  WorkflowMain WorkflowResume WorkflowCrash Props_Tile Props_Overlap Props_Merge Props_Workflow PipelineProofs ExactSpec ExactMergeProofs ExactBulkProofs.
From Coq Require Import List ZifyBool Permutation.
Import ListNotations.
Set Default Goal Selector "!".

Lemma run_detail e s ws fn h w k : names_ok e -> sched_ok e -> fresh e s -> unwrap_ok e h w -> (h * w <= 2 ^ 32)%Z ->
  (forall n l, length (e_components e n l) = n) -> run (main e) s = (ws, Ok fn) ->
  (k < length fn)%nat -> s (nth k fn ""%string) = None ->
  exists t files r, get_tiles (e_pick e) (e_root e) (e_use_tiles e) (e_tiler e) (e_valid e) = Ok t /\
    length files = ntiles t /\
    (forall i, (i < ntiles t)%nat -> e_unwrap e (tile_at t i) = Ok (nth i files dfile)) /\
    apply_writes s ws (nth k fn ""%string) = Some (CRaster r) /\
    (ntiles t = 1%nat /\ single_band (nth 0 files dfile) k (shape t) = Ok r \/
     ntiles t <> 1%nat /\ exists f omap m bulk rr diff model,
       compute_phasediff_deciles (e_components e) (e_min_overlap e) files t = Ok f /\
       get_bulk_offsets (e_mip e) (e_lsq e) (e_bulk_method e) f t (e_valid e) = Ok (bulk, rr) /\
       overlap_map f = Ok omap /\ recorded_files f files /\
       get_max_degree (map file_coords files) (shape t) = Ok m /\ alone e f omap m bulk (shape t) files k = Ok (r, diff, model)).
Proof.
  intros Hn Hsch Hfr Hu Hhw Hcc R Bk Ak.
  pose proof (C43_sound e s ws fn h w Hn Hsch Hfr Hu Hhw Hcc R) as So.
  apply main_done in R as (w1 & w2 & w3 & w4 & w5 & t & R1 & R2 & R3 & R4 & R5 & T & _ & EF). rewrite EF in *.
  pose proof (fresh_tiles e Hn s w1 w2 w3 w4 w5 fn R1 R2 R3 R4 R5 t T Hfr) as Gt.
  destruct (tilesets e Hn s w1 w2 w3 w4 w5 fn R2 R3 R4 R5 t T) as (TF & _ & _ & T4).
  pose proof (sound4 e Hn s w1 w2 w3 w4 w5 fn R1 R2 R3 R4 R5 t T So) as So4.
  destruct (done_merge e Hn s w1 w2 w3 w4 w5 fn R1 R2 R3 R4 R5 t T So) as [_ (t' & files & T' & L & Hf & W)].
  rewrite (tileset_fun _ _ _ _ T' T4) in *. clear t' T'.
  rewrite (out_missing e Hn s w1 w2 w3 w4 w5 fn R1 R2 R3 R4 R5) in W.
  assert (forall i, (i < ntiles t)%nat -> e_unwrap e (tile_at t i) = Ok (nth i files dfile)) as Hfiles.
  { intros i B. destruct (done_tile e Hn Hsch s w1 w2 w3 w4 w5 fn R1 R2 R3 R4 R5 t T i) as [_ D]. destruct (D B) as [_ D2].
    destruct D2 as (f' & Tf & E'); [now apply absent_true, Hfr, tmp_tile|].
    destruct (tile_same e Hn s w1 w2 w3 w4 w5 fn R1 R3 R4 R5 i) as (E & _ & E4 & _).
    rewrite E, <- E4 in E'. rewrite (Hf i (nth i files dfile)) in E' by (apply nth_error_nth'; lia). injection E' as <-. exact Tf. }
  pose proof (C43_files e _ fn w5 t Hn So4 T4 R5) as (_ & Nd & _).
  assert (In k (missing_bands s fn)) as Ik by (apply missing_lt; split; [auto|now apply absent_true]).
  apply (In_nth _ _ O) in Ik as (m & Bm & Em).
  exists t, files. destruct W as [(N & outs & E & Ew)|(N & f & omap & md & bulk & r & outs & Ho & Hom & Hmd & Hb & _ & E & Ew)].
  - apply map_res_nth in E as [Lo K]. specialize (K m O [] Bm). rewrite Em in K. exists (nth m outs []).
    split; [auto|]. split; [auto|]. split; [auto|]. split; [|left; auto].
    apply apply_in; [exact Nd|]. rewrite Ew. apply in_map_iff. exists (k, nth m outs []). split; [reflexivity|].
    eapply combine_at; eauto.
  - apply map_res_nth in E as [Lo K]. specialize (K m O ([], [], []) Bm). rewrite Em in K.
    destruct (nth m outs ([], [], [])) as [[arr diff] model] eqn:Eo. exists arr.
    split; [auto|]. split; [auto|]. split; [auto|]. split.
    { apply apply_in; [exact Nd|]. rewrite Ew. apply in_flat_map. exists (k, (arr, diff, model)). split; [|left; reflexivity].
      eapply combine_at; eauto. }
    right. split; [exact N|]. destruct (So4 t files f T4 L Hf Ho) as (Ne & _ & Rec).
    destruct (done_over e Hn s w1 w2 w3 w4 w5 fn R1 R2 R3 R4 R5 t T) as [_ Dov]. destruct (Dov N) as [_ D1].
    destruct D1 as (files' & f' & L' & Hf' & Ecp & Fo); [apply absent_true, Hfr, tmp_over|].
    destruct (done_bulk e Hn s w1 w2 w3 w4 w5 fn R1 R2 R3 R4 R5 t T) as [_ Dbk]. destruct (Dbk N) as [_ D2].
    destruct D2 as (f'' & rb & Fo'' & Egb & Fb); [apply absent_true, Hfr, tmp_bulk|].
    destruct (over_same e Hn s w1 w2 w3 w4 w5 fn R1 R2 R4 R5) as (X1 & X2 & _). rewrite X1, <- X2, Ho in Fo, Fo''. injection Fo as <-. injection Fo'' as <-.
    destruct (bulk_same e Hn s w1 w2 w3 w4 w5 fn R1 R2 R3 R5) as (Y1 & _). rewrite Y1, Hb in Fb. injection Fb as Eb1 Eb2.
    assert (files' = files) as ->.
    { apply (nth_ext _ _ dfile dfile); [lia|]. intros i Bi. 
      pose proof (Hf' i (nth i files' dfile) (nth_error_nth' _ _ Bi)) as Z1. pose proof (Hf i (nth i files dfile) ltac:(apply nth_error_nth'; lia)) as Z2.
      destruct (tile_same e Hn s w1 w2 w3 w4 w5 fn R1 R3 R4 R5 i) as (E1 & _ & E4 & _). rewrite E1, <- E4, Z2 in Z1. now injection Z1. }
    exists f, omap, md, bulk, r, diff, model. split; [exact Ecp|]. split; [|auto]. rewrite Eb1, Eb2. destruct rb. exact Egb.
Qed.
