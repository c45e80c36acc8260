(** Runs of the workflow that cannot fail. *)
From Verif Require Import Base BaseLemmas PoolProofs GraphModel GraphSpec TileModel TileSpec JsonModel NamesModel NamesProofs OverlapModel OverlapSpec BulkModel BulkSpec BulkProofs
  DirichletModel MergeModel MergeSpec AdjustProofs MergeBatchProofs DescribeProofs LaplacianProofs WorkflowModel WorkflowSpec WorkflowProofs WorkflowSteps WorkflowMerge WorkflowMain
  Props_Tile Props_Overlap Props_Merge Props_Workflow.
From Coq Require Import List ZifyBool Permutation.
Import ListNotations.
Set Default Goal Selector "!".

Lemma absent_none s n : s n = None -> absent s n = true.
Proof. unfold absent. now intros ->. Qed.

Section Run.
  Variables (e : env) (s : fs) (t : tileset) (files : list tile_file) (fn : list string).
  Hypothesis Hn : names_ok e.
  Hypothesis Hsch : sched_ok e.
  Hypothesis Hfr : fresh e s.
  Hypothesis Hmeth : e_method e = "dirichlet"%string.
  Hypothesis Hpar : (0 < e_parallel_tiles e)%Z.
  Hypothesis Ht : get_tiles (e_pick e) (e_root e) (e_use_tiles e) (e_tiler e) (e_valid e) = Ok t.
  Hypothesis Hl : length files = ntiles t.
  Hypothesis Hf : forall i, (i < ntiles t)%nat -> e_unwrap e (tile_at t i) = Ok (nth i files dfile).
  Hypothesis Ho : output_files e = Ok fn.
  Notation json := (tiles_jsonname (e_tmp e)).
  Notation tname := (tile_filename (e_tmp e)).
  Notation oname := (overlap_filename (e_tmp e)).
  Notation bname := (offsets_filename (e_tmp e)).

  Definition single_total : Prop := forall k, (k < length fn)%nat -> exists r, single_band (nth 0 files dfile) k (shape t) = Ok r.
  Definition multi_total : Prop := exists f omap m bulk rr,
    compute_phasediff_deciles (e_components e) (e_min_overlap e) files t = Ok f /\
    get_bulk_offsets (e_mip e) (e_lsq e) (e_bulk_method e) f t (e_valid e) = Ok (bulk, rr) /\
    overlap_map f = Ok omap /\ get_max_degree (map file_coords files) (shape t) = Ok m /\ fn <> [] /\ sound_files f files /\
    forall k, (k < length fn)%nat -> exists o, alone e f omap m bulk (shape t) files k = Ok o.

  Lemma main_total : (ntiles t = 1%nat -> single_total) -> (ntiles t <> 1%nat -> multi_total) ->
    exists ws, run (main e) s = (ws, Ok fn).
  Proof using Hn Hsch Hfr Hmeth Hpar Ht Hl Hf Ho.
    intros H1 H2. destruct (tmp_distinct e 0) as (_ & _ & _ & Djo & Djb & Dob).
    set (w1 := [(json, CText (to_json t))]). set (s1 := apply_writes s w1).
    assert (run (get_tiles_step e) s = (w1, Ok tt)) as R1.
    { rewrite get_tiles_run, (absent_none s json), Ht; [reflexivity|]. apply Hfr, tmp_json. }
    assert (s1 json = Some (CText (to_json t))) as J1 by (cbn; unfold store; cbn; now rewrite String.eqb_refl).
    assert (forall n, n <> json -> s1 n = s n) as F1 by (intros n N; exact (only_frame _ _ _ _ _ n (frame_tiles e) R1 N)).
    assert (forall s', s' json = s1 json -> tileset_of e s' t) as T.
    { intros s' E. exists (to_json t). split; [now rewrite E|apply C31_roundtrip]. }
    assert (missing_tiles e s1 t = seq 0 (ntiles t)) as Em.
    { unfold missing_tiles. assert (forall i, In i (seq 0 (ntiles t)) -> absent s1 (tname i) = true) as A.
      { intros i _. apply absent_none. rewrite F1 by apply (tmp_distinct e i). apply Hfr, tmp_tile. }
      induction (seq 0 (ntiles t)) as [|i l IH]; [reflexivity|]. cbn. rewrite A by now left. f_equal. apply IH. intros j I. apply A. now right. }
    set (order := e_sched e (seq 0 (ntiles t))). pose proof (Hsch (seq 0 (ntiles t))) as P. fold order in P.
    assert (NoDup order) as No by (eapply Permutation_NoDup; [symmetry; exact P|apply seq_NoDup]).
    assert (forall i, In i order -> (i < ntiles t)%nat) as Bo by (intros i I; apply (Permutation_in _ P), in_seq in I; lia).
    assert (forall i, (i < ntiles t)%nat -> task e t i = Ok (nth i files dfile)) as Tk by exact Hf.
    set (w2 := finished e t order). set (s2 := apply_writes s1 w2).
    assert (run (unwrap_tiles e) s1 = (w2, Ok tt)) as R2.
    { rewrite (unwrap_run e s1 t (T s1 eq_refl)), Em. fold order. destruct (Z.leb_spec (e_parallel_tiles e) 0); [lia|].
      assert (first_error e t order = None) as ->; [|reflexivity]. unfold first_error.
      assert (flat_map (fun i => match task e t i with Ok _ => [] | Err x => [x] end) order = []) as ->; [|reflexivity].
      clear -Bo Tk. induction order as [|i l IH]; [reflexivity|]. cbn [flat_map]. rewrite Tk by (apply Bo; now left). apply IH. intros j I. apply Bo. now right. }
    assert (forall n, (forall i, n <> tname i) -> s2 n = s1 n) as F2.
    { intros n N. apply (only_frame _ _ _ _ _ n (frame_unwrap e) R2). intros (i & E). exact (N i E). }
    assert (s2 json = s1 json) as J2 by (apply F2; intros i E; apply (proj1 (tmp_distinct e i)); auto).
    assert (tile_files e s2 files) as Fl.
    { intros i f E. assert (i < ntiles t)%nat as B by (rewrite <- Hl; apply nth_error_Some; congruence).
      apply finished_at; [exact No|apply (Permutation_in _ (Permutation_sym P)), in_seq; lia|]. rewrite (Tk i B). f_equal. now apply nth_error_nth. }
    assert (s2 oname = None) as O2.
    { rewrite F2 by (intros i E; apply (proj1 (proj2 (tmp_distinct e i))); auto). rewrite F1 by auto. apply Hfr, tmp_over. }
    assert (s2 bname = None) as B2.
    { rewrite F2 by (intros i E; apply (proj1 (proj2 (proj2 (tmp_distinct e i)))); auto). rewrite F1 by auto. apply Hfr, tmp_bulk. }
    assert (forall fn', output_files e = Ok fn' -> NoDup (flat_map three fn')) as Nm by (intros fn' E; eapply outputs_nodup; eauto).
    assert (forall w3 w4 w5, run (overlaps_step e) s2 = (w3, Ok tt) -> run (offsets_step e) (apply_writes s2 w3) = (w4, Ok tt) ->
      run (merge_tiles e) (apply_writes (apply_writes s2 w3) w4) = (w5, Ok fn) -> exists ws, run (main e) s = (ws, Ok fn)) as Fin.
    { intros w3 w4 w5 R3 R4 R5. exists (w1 ++ w2 ++ w3 ++ w4 ++ w5). unfold main. 
      eapply then_intro; [exact R1|]. eapply then_intro; [exact R2|]. eapply then_intro; [exact R3|]. eapply then_intro; [exact R4|]. exact R5. }
    destruct (Nat.eq_dec (ntiles t) 1) as [N1|N1].
    - assert (exists outs, map_res (fun k => single_band (nth 0 files dfile) k (shape t)) (missing_bands s2 fn) = Ok outs) as (outs & Eo).
      { apply map_res_total. intros k I. apply missing_lt in I as [B _]. now apply H1. }
      eapply (Fin [] []).
      + unfold overlaps_step. rewrite (then_pure _ _ _ _ (run_is_file _ _)), (absent_none s2 oname O2). cbn [negb].
        rewrite (then_pure _ _ _ t) by (apply read_tileset_iff; split; [reflexivity|now apply T]). now rewrite N1.
      + unfold offsets_step. cbn [apply_writes fold_left]. rewrite (then_pure _ _ _ _ (run_is_file _ _)), (absent_none s2 bname B2). cbn [negb].
        rewrite (then_pure _ _ _ t) by (apply read_tileset_iff; split; [reflexivity|now apply T]). now rewrite N1.
      + cbn [apply_writes fold_left]. apply merge_tiles_iff; [exact Nm| |].
        * intros t' files' f' _ _ _ X. congruence.
        * split; [exact Hmeth|]. split; [exact Ho|]. exists t, files. split; [now apply T|]. split; [exact Hl|]. split; [exact Fl|]. left. split; [exact N1|].
          exists outs. split; [exact Eo|reflexivity].
    - destruct (H2 N1) as (f & omap & m & bulk & rr & E1 & E2 & E3 & E4 & E5 & E6 & E7).
      destruct (overlaps_run e s2 t files f) as (gw & R3 & G); auto; [now apply absent_none|].
      set (w3 := gw ++ [(oname, COverlaps f)]) in *. set (s3 := apply_writes s2 w3).
      assert (forall n, n <> oname -> s3 n = s2 n) as F3 by (intros n N; exact (only_frame _ _ _ _ _ n (frame_overlaps e) R3 N)).
      assert (s3 oname = Some (COverlaps f)) as O3 by (unfold s3, w3; rewrite apply_app; cbn; unfold store; cbn; now rewrite String.eqb_refl).
      assert (s3 json = s1 json) as J3 by (rewrite F3; auto).
      pose proof (offsets_run e s3 t f (bulk, rr)) as R4. cbn [fst snd] in R4. set (w4 := [(bname, COffsets (e_bulk_method e) bulk rr)]) in *.
      assert (run (offsets_step e) s3 = (w4, Ok tt)) as R4'.
      { apply R4; auto. apply absent_none. rewrite F3 by auto. exact B2. }
      set (s4 := apply_writes s3 w4).
      assert (forall n, n <> bname -> s4 n = s3 n) as F4 by (intros n N; exact (only_frame _ _ _ _ _ n (frame_offsets e) R4' N)).
      assert (s4 bname = Some (COffsets (e_bulk_method e) bulk rr)) as B4 by (cbn; unfold store; cbn; now rewrite String.eqb_refl).
      assert (s4 oname = Some (COverlaps f)) as O4 by (rewrite F4; auto).
      assert (tileset_of e s4 t) as T4 by (apply T; rewrite F4; auto).
      assert (tile_files e s4 files) as Fl4.
      { eapply files_ext; [|exact Fl]. intros i _. rewrite F4, F3; [reflexivity|apply (tmp_distinct e i)|apply (tmp_distinct e i)]. }
      assert (exists outs, map_res (alone e f omap m bulk (shape t) files) (missing_bands s4 fn) = Ok outs) as (outs & Eo).
      { apply map_res_total. intros k I. apply missing_lt in I as [B _]. now apply E7. }
      eapply (Fin w3 w4); [exact R3|exact R4'|]. fold s3. fold s4. apply merge_tiles_iff; [exact Nm| |].
      + intros t' files' f' T' L' Fl' O'. rewrite (tileset_fun e s4 t' t T' T4) in *. rewrite O4 in O'. injection O' as <-.
        rewrite (tile_files_fun e s4 files' files); auto. congruence.
      + split; [exact Hmeth|]. split; [exact Ho|]. exists t, files. split; [exact T4|]. split; [exact Hl|]. split; [exact Fl4|]. right. split; [exact N1|].
        exists f, omap, m, bulk, rr, outs. repeat (split; [assumption|]). reflexivity.
  Qed.
End Run.
