(** Proofs about the workflow as a whole. *)
From Verif Require Import Base BaseLemmas PoolProofs TileModel TileSpec JsonModel NamesModel NamesProofs OverlapModel OverlapSpec BulkModel BulkProofs
  MergeModel MergeSpec AdjustProofs MergeBatchProofs DescribeProofs WorkflowModel WorkflowSpec WorkflowProofs WorkflowSteps WorkflowMerge WorkflowMain
  WorkflowResume WorkflowCrash Props_Tile Props_Merge Props_Workflow.
From Coq Require Import List ZifyBool Permutation.
Import ListNotations.
Set Default Goal Selector "!".

Lemma combine_at {A B} (l : list A) (l' : list B) m a b da db : (m < length l)%nat -> length l' = length l ->
  nth m l da = a -> nth m l' db = b -> In (a, b) (combine l l').
Proof.
  intros Bm L <- <-. rewrite <- combine_nth by auto. apply nth_In. rewrite combine_length. lia.
Qed.

(** What a run from nothing leaves under an output name. *)
Lemma run_output e s ws fn h w k : names_ok e -> sched_ok e -> fresh e s -> unwrap_ok e h w -> (h * w <= 2 ^ 32)%Z ->
  (forall n l, length (e_components e n l) = n) -> run (main e) s = (ws, Ok fn) ->
  (k < length fn)%nat -> s (nth k fn ""%string) = None ->
  exists t files r, get_tiles (e_pick e) (e_root e) (e_use_tiles e) (e_tiler e) (e_valid e) = Ok t /\
    length files = ntiles t /\
    (forall i, (i < ntiles t)%nat -> e_unwrap e (tile_at t i) = Ok (nth i files dfile)) /\
    apply_writes s ws (nth k fn ""%string) = Some (CRaster r) /\
    forall x, in_shape (shape t) x = true ->
      raster_shape r (shape t) /\
      ((forall j p, ~ found files x j p) -> pixel r x = None) /\
      ((exists j p, found files x j p) ->
         exists v j p, pixel r x = Some v /\ found files x j p /\ congruent v (phase_of (nth j files dfile) k p)).
Proof.
  intros Hn Hsch Hfr Hu Hhw Hcc R Bk Ak.
  pose proof (C43_sound e s ws fn h w Hn Hsch Hfr Hu Hhw Hcc R) as So.
  apply main_done in R as (w1 & w2 & w3 & w4 & w5 & t & R1 & R2 & R3 & R4 & R5 & T & _ & EF). rewrite EF in *.
  pose proof (fresh_tiles e Hn s w1 w2 w3 w4 w5 fn R1 R2 R3 R4 R5 t T Hfr) as Gt.
  destruct (tilesets e Hn s w1 w2 w3 w4 w5 fn R2 R3 R4 R5 t T) as (TF & _ & _ & T4).
  pose proof (sound4 e Hn s w1 w2 w3 w4 w5 fn R1 R2 R3 R4 R5 t T So) as So4.
  destruct (done_merge e Hn s w1 w2 w3 w4 w5 fn R1 R2 R3 R4 R5 t T So) as [_ (t' & files & T' & L & Hf & W)].
  rewrite (tileset_fun _ _ _ _ T' T4) in *. clear t' T'.
  rewrite (out_missing e Hn s w1 w2 w3 w4 w5 fn R1 R2 R3 R4 R5) in W.
  assert (forall i, (i < ntiles t)%nat -> e_unwrap e (tile_at t i) = Ok (nth i files dfile)) as Hfiles.
  { intros i B. destruct (done_tile e Hn Hsch s w1 w2 w3 w4 w5 fn R1 R2 R3 R4 R5 t T i) as [_ D]. destruct (D B) as [_ D2].
    destruct D2 as (f' & Tf & E'); [now apply absent_true, Hfr, tmp_tile|].
    destruct (tile_same e Hn s w1 w2 w3 w4 w5 fn R1 R3 R4 R5 i) as (E & _ & E4 & _).
    rewrite E, <- E4 in E'. rewrite (Hf i (nth i files dfile)) in E' by (apply nth_error_nth'; lia). injection E' as <-. exact Tf. }
  assert (forall fl, In fl files -> file_ok fl /\ NoDup (tf_points fl)) as Hok.
  { intros fl I. apply (In_nth _ _ dfile) in I as (i & B & <-). destruct (Hu t (tile_at t i) (nth i files dfile) Gt) as (_ & P & Q & _).
    - apply nth_In. unfold ntiles in L. lia.
    - apply Hfiles. lia.
    - auto. }
  pose proof (C43_files e _ fn w5 t Hn So4 T4 R5) as (_ & Nd & _).
  assert (In k (missing_bands s fn)) as Ik by (apply missing_lt; split; [auto|now apply absent_true]).
  apply (In_nth _ _ O) in Ik as (m & Bm & Em).
  exists t, files. destruct W as [(N & outs & E & Ew)|(N & f & omap & md & bulk & r & outs & Ho & Hom & Hmd & Hb & _ & E & Ew)].
  - apply map_res_nth in E as [Lo K]. specialize (K m O [] Bm). rewrite Em in K. exists (nth m outs []).
    split; [auto|]. split; [auto|]. split; [auto|]. split.
    { apply apply_in; [exact Nd|]. rewrite Ew. apply in_map_iff. exists (k, nth m outs []). split; [reflexivity|].
      eapply combine_at; eauto. }
    intros x Sx. change (TileFile [] (BBox 0 0 0 0) [] []) with dfile in K.
    destruct (Hok (nth 0 files dfile)) as [O1 O2]; [apply nth_In; lia|].
    destruct (C41_single _ _ _ _ x O1 O2 K Sx) as (P1 & P2 & P3). split; [exact P1|]. split.
    + intros NF. apply P2. intros I. apply In_nth_error in I as (p & I). apply (NF O p). exists (nth 0 files dfile). split; [apply nth_error_nth'; lia|auto].
    + intros (j & p & fl & Ej & Ep). assert (j < length files)%nat as Bj by (apply nth_error_Some; congruence). assert (j = O) as -> by lia.
      rewrite (nth_error_nth' files dfile) in Ej by lia. injection Ej as <-. destruct (P3 p Ep) as (v & V1 & V2).
      exists v, O, p. split; [exact V1|]. split; [exists (nth 0 files dfile); split; [apply nth_error_nth'; lia|auto]|].
      exists 0%Z. rewrite V2. change (inject_Z 0) with 0%Q. ring.
  - apply map_res_nth in E as [Lo K]. specialize (K m O ([], [], []) Bm). rewrite Em in K.
    destruct (nth m outs ([], [], [])) as [[arr diff] model] eqn:Eo. exists arr.
    split; [auto|]. split; [auto|]. split; [auto|]. split.
    { apply apply_in; [exact Nd|]. rewrite Ew. apply in_flat_map. exists (k, (arr, diff, model)). split; [|left; reflexivity].
      eapply combine_at; eauto. }
    intros x Sx. destruct (So4 t files f T4 L Hf Ho) as (Ne & _ & Rec).
    assert (merge_batch (e_cg e) (e_ilu e) (e_triangles e) f omap md bulk (shape t) files [k] = Ok [(arr, diff, model)]) as Mb.
    { unfold alone in K. unfold merge_batch. destruct (start_tiles files bulk [k]) as [ts|]; [|discriminate]. cbn [bind] in *.
      destruct (adjust_tiles _ _ _ f omap md ts) as [ts'|]; [|discriminate]. cbn [bind] in *. cbn [map_res]. rewrite K. reflexivity. }
    destruct (C41_batch (e_cg e) (e_ilu e) (e_triangles e) f omap md bulk (shape t) files [k] [(arr, diff, model)] Hok Ne Hom Rec Mb O arr diff model x eq_refl Sx)
      as (P1 & _ & _ & P2 & P3 & _).
    split; [exact P1|]. split; [intros NF; apply P2, NF|]. intros Fd. destruct (P3 Fd) as (v & _ & V & _ & _ & j & p & Fj & C). exists v, j, p. auto.
Qed.
