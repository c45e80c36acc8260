(** The workflow as a whole. *)
From Verif Require Import Base BaseLemmas PoolProofs TileModel JsonModel NamesModel NamesProofs OverlapModel BulkModel BulkProofs MergeModel MergeSpec
  MergeBatchProofs WorkflowModel WorkflowSpec WorkflowProofs WorkflowSteps WorkflowMerge Props_Tile.
From Coq Require Import List ZifyBool Permutation.
Import ListNotations.
Set Default Goal Selector "!".

(** ** Names *)
Lemma last_char a b c d : (a ++ String c "" = b ++ String d "")%string -> c = d.
Proof.
  revert b. induction a as [|x a IH]; intros [|y b] H; cbn in H.
  - now injection H.
  - injection H as _ H. destruct b; discriminate.
  - injection H as _ H. destruct a; discriminate.
  - injection H as _ H. eapply IH; eauto.
Qed.

Lemma tmp_last e n : tmp_names e n -> exists a c, n = (a ++ String c "")%string /\ (c = "n"%char \/ c = "5"%char).
Proof.
  intros [->|[(i & ->)|[->| ->]]]; unfold tiles_jsonname, tile_filename, overlap_filename, offsets_filename, path_join.
  - exists (e_tmp e ++ "/tiles.jso")%string, "n"%char. split; [|auto]. now rewrite app_assoc'.
  - exists (e_tmp e ++ "/uw_tile_" ++ fmt02 i ++ ".h")%string, "5"%char. split; [|auto]. rewrite !app_assoc'. reflexivity.
  - exists (e_tmp e ++ "/overlaps.h")%string, "5"%char. split; [|auto]. now rewrite app_assoc'.
  - exists (e_tmp e ++ "/bulk_offsets.h")%string, "5"%char. split; [|auto]. now rewrite app_assoc'.
Qed.

Lemma tile_name_inj e i j : tile_filename (e_tmp e) i = tile_filename (e_tmp e) j -> i = j.
Proof. apply C32_tile_files. Qed.
Lemma tmp_distinct e i : tile_filename (e_tmp e) i <> tiles_jsonname (e_tmp e) /\ tile_filename (e_tmp e) i <> overlap_filename (e_tmp e) /\
  tile_filename (e_tmp e) i <> offsets_filename (e_tmp e) /\ tiles_jsonname (e_tmp e) <> overlap_filename (e_tmp e) /\
  tiles_jsonname (e_tmp e) <> offsets_filename (e_tmp e) /\ overlap_filename (e_tmp e) <> offsets_filename (e_tmp e).
Proof.
  pose proof (C32_tmp_files (e_tmp e) i) as H. apply NoDup_cons_iff in H as [H1 H]. apply NoDup_cons_iff in H as [H2 H]. apply NoDup_cons_iff in H as [H3 _].
  cbn [In] in *. repeat split; intros E; symmetry in E; tauto.
Qed.

Section Outputs.
  Context (e : env).
  Hypothesis Hn : names_ok e.
  Variable fnames : list string.
  Hypothesis Hf : output_files e = Ok fnames.

  Definition date_pair (ij : nat * nat) : string * string := (nth (fst ij) (e_dates e) ""%string, nth (snd ij) (e_dates e) ""%string).

  Lemma outputs_pairs : fnames = map (fun p => unw_filename (e_out e) (fst p) (snd p)) (map date_pair (e_ifgs e)) /\
    forall ij, In ij (e_ifgs e) -> (fst ij < length (e_dates e))%nat /\ (snd ij < length (e_dates e))%nat.
  Proof using Hf.
    unfold output_files in Hf. revert fnames Hf. induction (e_ifgs e) as [|[i j] l IH]; intros fns H; cbn [map_res] in H; [injection H as <-; split; [auto|intros ij []]|].
    cbn [fst snd] in H. destruct (nth_error (e_dates e) i) as [d1|] eqn:E1; [|discriminate]. destruct (nth_error (e_dates e) j) as [d2|] eqn:E2; [|discriminate]. cbn [bind] in H.
    destruct (map_res _ l) as [fn'|] eqn:E; [|discriminate]. cbn in H. injection H as <-. destruct (IH fn' eq_refl) as [I1 I2]. split.
    - cbn. rewrite (nth_error_nth _ _ _ E1), (nth_error_nth _ _ _ E2), I1 at 1. reflexivity.
    - intros ij [<-|I]; [|auto]. cbn. split; apply nth_error_Some; congruence.
  Qed.
  Lemma outputs_three : flat_map three fnames = flat_map (output_names (e_out e)) (map date_pair (e_ifgs e)).
  Proof using Hf. rewrite (proj1 outputs_pairs). generalize (map date_pair (e_ifgs e)). intros l. induction l as [|p l IH]; [reflexivity|]. cbn [map flat_map]. rewrite IH. reflexivity. Qed.
  Lemma pairs_ok p : In p (map date_pair (e_ifgs e)) ->
    underscore_free (fst p) /\ underscore_free (snd p) /\ occurs ".tif" (stem (e_out e) p) = false.
  Proof using Hn Hf.
    intros I. apply in_map_iff in I as (ij & <- & I). destruct (proj2 outputs_pairs ij I) as [B1 B2]. destruct Hn as (_ & _ & U & O).
    unfold date_pair. cbn [fst snd]. split; [apply U, nth_In, B1|]. split; [apply U, nth_In, B2|]. apply O; apply nth_In; auto.
  Qed.
  Lemma outputs_nodup : NoDup (flat_map three fnames).
  Proof using Hn Hf.
    rewrite outputs_three. apply C32_output_files; [|exact pairs_ok]. destruct Hn as (Nd & Ni & _ & _). pose proof (proj2 outputs_pairs) as B. clear Hf.
    induction (e_ifgs e) as [|ij l IH]; [constructor|]. apply NoDup_cons_iff in Ni as [N1 N2]. cbn [map]. constructor; [|apply IH; auto; intros x I; apply B; now right].
    intros I. apply in_map_iff in I as (ij' & E & I). apply N1. replace ij with ij'; [auto|].
    destruct (B ij (or_introl eq_refl)) as [B1 B2]. destruct (B ij' (or_intror I)) as [B3 B4]. unfold date_pair in E. injection E as E1 E2.
    destruct ij as [i j], ij' as [i' j']. cbn [fst snd] in *. f_equal; apply (proj1 (NoDup_nth (e_dates e) ""%string) Nd); auto.
  Qed.
  Lemma outputs_tmp n : In n (flat_map three fnames) -> ~ tmp_names e n.
  Proof using Hn Hf.
    rewrite outputs_three. intros I T. apply in_flat_map in I as (p & Ip & I). destruct (pairs_ok p Ip) as (_ & _ & O). rewrite output_names_eq in I by exact O.
    destruct (tmp_last e n T) as (a & c & -> & C).
    assert (exists b, (a ++ String c "" = b ++ String "f" "")%string) as (b & E).
    { assert (forall s t, ((stem (e_out e) p ++ s) ++ t = stem (e_out e) p ++ (s ++ t))%string) as A by (intros; apply app_assoc').
      destruct I as [I|[I|[I|[]]]]; rewrite <- I; eexists; [erewrite (A ".ti"%string)|erewrite (A "_diff.ti"%string)|erewrite (A "_model.ti"%string)]; reflexivity. }
    apply last_char in E. destruct C; subst; discriminate.
  Qed.
End Outputs.

(** ** Which files each step writes *)
Section Frames.
  Context (e : env).
  Lemma only_read_tileset P : only P (read_tileset e).
  Proof. cbn. intros [[x|x|x|x|m x r|x]|]; cbn; auto. apply only_lift. Qed.
  Lemma only_read_tile P i : only P (read_tile e i).
  Proof. cbn. intros [[x|x|x|x|m x r|x]|]; cbn; auto. Qed.
  Lemma only_read_overlaps P : only P (read_overlaps e).
  Proof. cbn. intros [[x|x|x|x|m x r|x]|]; cbn; auto. Qed.

  Lemma frame_tiles : only (fun n => n = tiles_jsonname (e_tmp e)) (get_tiles_step e).
  Proof.
    apply only_then; [apply only_is_file|]. intros [|]; [exact I|]. apply only_then; [apply only_lift|]. intros t. cbn. auto.
  Qed.
  Lemma frame_pool task order : only (fun n => exists i, n = tile_filename (e_tmp e) i) (pool e task order).
  Proof.
    induction order as [|i order IH]; [exact I|]. cbn [pool]. destruct (task i); [cbn; eauto|]. apply only_then; [exact IH|]. intros x. exact I.
  Qed.
  Lemma frame_unwrap : only (fun n => exists i, n = tile_filename (e_tmp e) i) (unwrap_tiles e).
  Proof.
    apply only_then; [apply only_read_tileset|]. intros t. destruct (_ <=? 0)%Z; [exact I|].
    apply only_then. { apply only_collect. intros i _. apply only_then; [apply only_is_file|]. intros b. exact I. }
    intros ms. apply only_then; [apply frame_pool|]. intros [x|]; exact I.
  Qed.
  Lemma frame_loop files t : forall pairs gs, only (fun n => n = overlap_filename (e_tmp e)) (overlap_loop e files t gs pairs).
  Proof.
    induction pairs as [|p pairs IH]; intros gs; [exact I|]. cbn [overlap_loop]. apply only_then; [apply only_lift|]. intros [g|]; [|apply IH]. cbn. split; auto.
  Qed.
  Lemma frame_overlaps : only (fun n => n = overlap_filename (e_tmp e)) (overlaps_step e).
  Proof.
    apply only_then; [apply only_is_file|]. intros [|]; [exact I|]. apply only_then; [apply only_read_tileset|]. intros t. destruct (_ =? 1)%nat; [exact I|].
    apply only_then; [apply only_collect; intros; apply only_read_tile|]. intros files. apply only_then; [apply frame_loop|]. intros gs. cbn. auto.
  Qed.
  Lemma frame_offsets : only (fun n => n = offsets_filename (e_tmp e)) (offsets_step e).
  Proof.
    apply only_then; [apply only_is_file|]. intros [|]; [exact I|]. apply only_then; [apply only_read_tileset|]. intros t. destruct (_ =? 1)%nat; [exact I|].
    apply only_then; [apply only_read_overlaps|]. intros f. apply only_then; [apply only_lift|]. intros r. cbn. auto.
  Qed.
End Frames.

Lemma main_inv e s ws fn : run (main e) s = (ws, Ok fn) ->
  exists w1 w2 w3 w4 w5, run (get_tiles_step e) s = (w1, Ok tt) /\
    run (unwrap_tiles e) (apply_writes s w1) = (w2, Ok tt) /\
    run (overlaps_step e) (apply_writes (apply_writes s w1) w2) = (w3, Ok tt) /\
    run (offsets_step e) (apply_writes (apply_writes (apply_writes s w1) w2) w3) = (w4, Ok tt) /\
    run (merge_tiles e) (apply_writes (apply_writes (apply_writes (apply_writes s w1) w2) w3) w4) = (w5, Ok fn) /\
    ws = w1 ++ w2 ++ w3 ++ w4 ++ w5.
Proof.
  unfold main. intros H. apply then_inv in H as (w1 & [] & w & H1 & H & ->). apply then_inv in H as (w2 & [] & w' & H2 & H & ->).
  apply then_inv in H as (w3 & [] & w'' & H3 & H & ->). apply then_inv in H as (w4 & [] & w5 & H4 & H & ->). exists w1, w2, w3, w4, w5. auto 10.
Qed.

Lemma to_write_names e s fn ws : to_write e s fn ws -> forall w, In w ws -> exists k, In k (missing_bands s fn) /\ In (fst w) (three (nth k fn ""%string)).
Proof.
  intros (t & files & _ & _ & _ & [(N & outs & E & ->)|(N & f & omap & m & bulk & r & outs & _ & _ & _ & _ & _ & E & ->)]) w I.
  - apply in_map_iff in I as ([k o] & <- & I). exists k. cbn [fst snd]. split; [eapply in_combine_l; eauto|]. apply three_in. auto.
  - apply raster_writes_in in I. exact I.
Qed.
Lemma missing_lt s fn k : In k (missing_bands s fn) <-> (k < length fn)%nat /\ absent s (nth k fn ""%string) = true.
Proof. unfold missing_bands. rewrite filter_In, in_seq. intuition lia. Qed.
Lemma missing_tile_in e s t i : In i (missing_tiles e s t) <-> (i < ntiles t)%nat /\ absent s (tile_filename (e_tmp e) i) = true.
Proof. unfold missing_tiles. rewrite filter_In, in_seq. intuition lia. Qed.

Lemma absent_true s n : absent s n = true <-> s n = None.
Proof. unfold absent. destruct (s n); split; intros; congruence. Qed.
Lemma absent_some s n c : s n = Some c -> absent s n = false.
Proof. unfold absent. now intros ->. Qed.
Lemma absent_ext s s' n : s n = s' n -> absent s n = absent s' n.
Proof. unfold absent. now intros ->. Qed.

(** The content a task gives its file. *)
Lemma finished_names e t order w : In w (finished e t order) -> exists i f, In i order /\ task e t i = Ok f /\ w = (tile_filename (e_tmp e) i, CTile f).
Proof.
  unfold finished. intros I. apply in_flat_map in I as (i & J & I). destruct (task e t i) as [f|x] eqn:E; [|destruct I]. destruct I as [<-|[]]. eauto 10.
Qed.
Lemma finished_nodup e t order : NoDup order -> NoDup (map fst (finished e t order)).
Proof.
  unfold finished. induction order as [|i order IH]; intros N; [constructor|]. apply NoDup_cons_iff in N as [N1 N2]. cbn [flat_map].
  destruct (task e t i) as [f|x]; [|now apply IH]. cbn [app map fst]. constructor; [|auto]. intros I. apply in_map_iff in I as (w & E & I).
  apply finished_names in I as (j & g & J & _ & ->). cbn in E. apply tile_name_inj in E as ->. contradiction.
Qed.
Lemma finished_at e s t order i f : NoDup order -> In i order -> task e t i = Ok f ->
  apply_writes s (finished e t order) (tile_filename (e_tmp e) i) = Some (CTile f).
Proof.
  intros N I E. apply apply_in; [now apply finished_nodup|]. apply in_flat_map. exists i. split; [auto|]. rewrite E. now left.
Qed.
Lemma finished_other e s t order n : (forall i f, In i order -> task e t i = Ok f -> n <> tile_filename (e_tmp e) i) ->
  apply_writes s (finished e t order) n = s n.
Proof.
  intros H. apply apply_notin. intros I. apply in_map_iff in I as (w & E & I). apply finished_names in I as (i & f & J & T & ->). cbn in E. eapply H; eauto.
Qed.

Lemma tileset_ext e s s' t : s (tiles_jsonname (e_tmp e)) = s' (tiles_jsonname (e_tmp e)) -> tileset_of e s t -> tileset_of e s' t.
Proof. intros H (x & X & E). exists x. split; [congruence|auto]. Qed.
Lemma files_ext e s s' files : (forall i, (i < length files)%nat -> s (tile_filename (e_tmp e) i) = s' (tile_filename (e_tmp e) i)) ->
  tile_files e s files -> tile_files e s' files.
Proof. intros H A i f E. rewrite <- H; [now apply A|]. apply nth_error_Some. congruence. Qed.
Lemma sound_ext e s s' t : tileset_of e s t -> s (tiles_jsonname (e_tmp e)) = s' (tiles_jsonname (e_tmp e)) ->
  (forall i, (i < ntiles t)%nat -> s (tile_filename (e_tmp e) i) = s' (tile_filename (e_tmp e) i)) ->
  s (overlap_filename (e_tmp e)) = s' (overlap_filename (e_tmp e)) -> sound e s -> sound e s'.
Proof.
  intros T J A O S t' files f T' L Hf Ho. assert (t' = t) as -> by (eapply tileset_fun; [exact T'|]; eapply tileset_ext; eauto).
  apply (S t files f); auto; [|congruence]. eapply files_ext; [|exact Hf]. intros i B. symmetry. apply A. lia.
Qed.
Lemma tmp_nonempty e n : tmp_names e n -> n <> ""%string.
Proof. intros H ->. destruct (tmp_last e _ H) as (a & c & E & _). destruct a; discriminate. Qed.

(** ** A finished run *)
Section Finished.
  Context (e : env).
  Hypothesis Hn : names_ok e.
  Hypothesis Hsch : sched_ok e.
  Notation json := (tiles_jsonname (e_tmp e)).
  Notation tname := (tile_filename (e_tmp e)).
  Notation oname := (overlap_filename (e_tmp e)).
  Notation bname := (offsets_filename (e_tmp e)).
  Variables (s : fs) (w1 w2 w3 w4 w5 : list write) (fn : list string).
  Notation s1 := (apply_writes s w1).
  Notation s2 := (apply_writes s1 w2).
  Notation s3 := (apply_writes s2 w3).
  Notation s4 := (apply_writes s3 w4).
  Notation F := (apply_writes s4 w5).
  Hypothesis R1 : run (get_tiles_step e) s = (w1, Ok tt).
  Hypothesis R2 : run (unwrap_tiles e) s1 = (w2, Ok tt).
  Hypothesis R3 : run (overlaps_step e) s2 = (w3, Ok tt).
  Hypothesis R4 : run (offsets_step e) s3 = (w4, Ok tt).
  Hypothesis R5 : run (merge_tiles e) s4 = (w5, Ok fn).

  Lemma fr1 n : n <> json -> s1 n = s n.
  Proof using R1. exact (only_frame _ _ _ _ _ n (frame_tiles e) R1). Qed.
  Lemma fr2 n : (forall i, n <> tname i) -> s2 n = s1 n.
  Proof using R2. intros H. apply (only_frame _ _ _ _ _ n (frame_unwrap e) R2). intros (i & E). exact (H i E). Qed.
  Lemma fr3 n : n <> oname -> s3 n = s2 n.
  Proof using R3. exact (only_frame _ _ _ _ _ n (frame_overlaps e) R3). Qed.
  Lemma fr4 n : n <> bname -> s4 n = s3 n.
  Proof using R4. exact (only_frame _ _ _ _ _ n (frame_offsets e) R4). Qed.

  Lemma outputs : output_files e = Ok fn.
  Proof using R5.
    pose proof R5 as H. unfold merge_tiles in H. destruct (negb _); [discriminate|]. apply then_inv in H as (? & t & ? & _ & H & _).
    apply then_inv in H as (? & files & ? & _ & H & _). apply then_inv in H as (? & fn' & ? & H1 & H & _). apply lift_inv in H1 as [_ H1].
    destruct (ntiles t =? 1)%nat.
    - apply then_inv in H as (? & ? & ? & _ & H & _). cbn in H. injection H as _ <-. exact H1.
    - do 4 apply then_inv in H as (? & ? & ? & _ & H & _). destruct (batch_size _ _); [discriminate|].
      apply then_inv in H as (? & ? & ? & _ & H & _). cbn in H. injection H as _ <-. exact H1.
  Qed.
  Lemma frame_merge : only (fun n => In n (flat_map three fn) \/ n = ""%string) (merge_tiles e).
  Proof using R5.
    pose proof outputs as Ho.
    assert (forall i n, In n (three (nth i fn ""%string)) -> In n (flat_map three fn) \/ n = ""%string) as T.
    { intros i n X. destruct (Nat.lt_ge_cases i (length fn)) as [L|L].
      - left. apply in_flat_map. exists (nth i fn ""%string). split; [now apply nth_In|auto].
      - rewrite nth_overflow in X by auto. right. destruct X as [<-|[<-|[<-|[]]]]; reflexivity. }
    unfold merge_tiles. destruct (negb _); [exact I|]. apply only_then; [apply only_read_tileset|]. intros t.
    apply only_then; [apply only_collect; intros; apply only_read_tile|]. intros files. rewrite Ho. cbn [lift then_].
    destruct (_ =? 1)%nat.
    - apply only_then; [|intros u; exact I]. apply only_each. intros [k m] J. apply only_then; [apply only_is_file|]. intros [|]; [exact I|].
      apply only_then; [apply only_lift|]. intros r. cbn. split; [|auto]. apply in_combine_r in J. left. apply in_flat_map. exists m. split; [auto|apply three_in; auto].
    - apply only_then; [apply only_read_overlaps|]. intros f. apply only_then; [apply only_lift|]. intros omap. apply only_then; [apply only_lift|]. intros m.
      apply only_then. { cbn. intros [[x|x|x|x|mm x r|x]|]; cbn; auto. destruct (String.eqb _ _); exact I. }
      intros bulk. destruct (batch_size _ _) as [|size] eqn:Es; [exact I|]. apply only_then; [|intros u; exact I]. apply only_each. intros b J.
      apply only_then. { apply only_collect. intros i _. apply only_then; [apply only_is_file|]. intros x. exact I. }
      intros ms. set (idx := concat ms). destruct idx as [|i0 idx']; [exact I|]. apply only_then; [apply only_lift|]. intros ts. apply only_then; [apply only_lift|]. intros ts'.
      apply only_each. intros i _. apply only_then; [apply only_is_file|]. intros [|]; [exact I|]. apply only_then; [apply only_lift|]. intros [[a d] mo]. cbn [only].
      repeat split; apply (T i), three_in; auto.
  Qed.

  Lemma fr5 n : tmp_names e n -> F n = s4 n.
  Proof using R5 Hn.
    intros H. apply (only_frame _ _ _ _ _ n frame_merge R5). intros [I|E]; [|now apply (tmp_nonempty e n H)].
    exact (outputs_tmp e Hn fn outputs n I H).
  Qed.
  Lemma tmp_json : tmp_names e json. Proof using. left. reflexivity. Qed.
  Lemma tmp_tile i : tmp_names e (tname i). Proof using. right. left. eauto. Qed.
  Lemma tmp_over : tmp_names e oname. Proof using. right. right. left. reflexivity. Qed.
  Lemma tmp_bulk : tmp_names e bname. Proof using. right. right. right. reflexivity. Qed.

  Lemma json_same : F json = s1 json /\ s2 json = s1 json /\ s3 json = s1 json /\ s4 json = s1 json.
  Proof using R2 R3 R4 R5 Hn.
    assert (s2 json = s1 json) as E2 by (apply fr2; intros i E; apply (proj1 (tmp_distinct e i)); auto).
    assert (s3 json = s2 json) as E3 by (apply fr3; apply (tmp_distinct e 0)).
    assert (s4 json = s3 json) as E4 by (apply fr4; apply (tmp_distinct e 0)).
    rewrite (fr5 _ tmp_json). repeat split; congruence.
  Qed.
  Lemma tile_same i : F (tname i) = s2 (tname i) /\ s3 (tname i) = s2 (tname i) /\ s4 (tname i) = s2 (tname i) /\ s1 (tname i) = s (tname i).
  Proof using R1 R3 R4 R5 Hn.
    assert (s3 (tname i) = s2 (tname i)) as E3 by (apply fr3; apply (tmp_distinct e i)).
    assert (s4 (tname i) = s3 (tname i)) as E4 by (apply fr4; apply (tmp_distinct e i)).
    rewrite (fr5 _ (tmp_tile i)). repeat split; try congruence. apply fr1, (tmp_distinct e i).
  Qed.
  Lemma over_same : F oname = s3 oname /\ s4 oname = s3 oname /\ s2 oname = s oname.
  Proof using R1 R2 R4 R5 Hn.
    assert (s4 oname = s3 oname) as E4 by (apply fr4; apply (tmp_distinct e 0)). rewrite (fr5 _ tmp_over). split; [auto|]. split; [auto|].
    rewrite fr2, fr1; [auto| |].
    - intros E. symmetry in E. revert E. apply (tmp_distinct e 0).
    - intros i E. symmetry in E. revert E. apply (tmp_distinct e i).
  Qed.
  Lemma bulk_same : F bname = s4 bname /\ s3 bname = s bname.
  Proof using R1 R2 R3 R5 Hn.
    split; [apply fr5, tmp_bulk|]. rewrite fr3, fr2, fr1; [auto| | |].
    - intros E. symmetry in E. revert E. apply (tmp_distinct e 0).
    - intros i E. symmetry in E. revert E. apply (tmp_distinct e i).
    - intros E. symmetry in E. revert E. apply (tmp_distinct e 0).
  Qed.
  Lemma other_same n : ~ tmp_names e n -> s4 n = s n.
  Proof using R1 R2 R3 R4.
    intros H. rewrite fr4, fr3, fr2, fr1; [auto|..].
    - intros ->. apply H, tmp_json.
    - intros i ->. apply H, tmp_tile.
    - intros ->. apply H, tmp_over.
    - intros ->. apply H, tmp_bulk.
  Qed.

  Variable t : tileset.
  Hypothesis Ht : tileset_of e s1 t.

  Lemma tilesets : tileset_of e F t /\ tileset_of e s2 t /\ tileset_of e s3 t /\ tileset_of e s4 t.
  Proof using R2 R3 R4 R5 Hn Ht. destruct json_same as (E & E2 & E3 & E4). repeat split; eapply tileset_ext; try exact Ht; auto. Qed.

  (** The tile set. *)
  Lemma done_json : absent F json = false /\ (absent s json = false -> F json = s json) /\
    (absent s json = true -> exists t', get_tiles (e_pick e) (e_root e) (e_use_tiles e) (e_tiler e) (e_valid e) = Ok t' /\ F json = Some (CText (to_json t'))).
  Proof using Hn Ht R1 R2 R3 R4 R5 e fn s t w1 w2 w3 w4 w5.
    pose proof json_same as (E & _). rewrite E. split; [|split].
    - destruct tilesets as ((x & X & _) & _). eapply absent_some. exact X.
    - intros A. pose proof R1 as R. rewrite get_tiles_run, A in R. injection R as <-. reflexivity.
    - intros A. pose proof R1 as R. rewrite get_tiles_run, A in R. destruct (get_tiles _ _ _ _ _) as [t'|]; [|discriminate].
      injection R as <-. exists t'. split; [auto|]. cbn. unfold store. cbn. now rewrite String.eqb_refl.
  Qed.

  (** The tiles. *)
  Lemma sched_missing st : NoDup (e_sched e (missing_tiles e st t)) /\ forall i, In i (e_sched e (missing_tiles e st t)) <-> In i (missing_tiles e st t).
  Proof using Hsch.
    split.
    - eapply Permutation_NoDup; [apply Permutation_sym, Hsch|]. apply NoDup_filter, seq_NoDup.
    - intros i. split; apply Permutation_in; [apply Hsch|apply Permutation_sym, Hsch].
  Qed.
  Lemma done_unwrap : (0 < e_parallel_tiles e)%Z /\ w2 = finished e t (e_sched e (missing_tiles e s1 t)) /\
    forall i, In i (missing_tiles e s1 t) -> exists f, task e t i = Ok f.
  Proof using R2 Ht Hsch.
    destruct (unwrap_inv e s1 w2 R2) as (t' & T & P & E & K). rewrite (tileset_fun e s1 t' t T Ht) in *. split; [auto|]. split; [auto|].
    intros i I. apply K, sched_missing, I.
  Qed.
  Lemma done_tile i : (absent s (tname i) = false \/ (ntiles t <= i)%nat -> F (tname i) = s (tname i)) /\
    ((i < ntiles t)%nat -> absent F (tname i) = false /\
      (absent s (tname i) = true -> exists f, task e t i = Ok f /\ F (tname i) = Some (CTile f))).
  Proof using R1 R2 R3 R4 R5 Hn Hsch Ht.
    destruct (tile_same i) as (E & _ & _ & E1). rewrite E. destruct done_unwrap as (_ & W & K).
    assert (~ In i (missing_tiles e s1 t) -> s2 (tname i) = s (tname i)) as N.
    { intros H. rewrite W, finished_other; [auto|]. intros j f J _ X. apply tile_name_inj in X as <-. apply H, sched_missing, J. }
    assert (In i (missing_tiles e s1 t) -> exists f, task e t i = Ok f /\ s2 (tname i) = Some (CTile f)) as P.
    { intros H. destruct (K i H) as (f & Tf). exists f. split; [auto|]. rewrite W. apply finished_at; auto; apply sched_missing; auto. }
    assert (In i (missing_tiles e s1 t) <-> (i < ntiles t)%nat /\ absent s (tname i) = true) as M.
    { rewrite missing_tile_in. now rewrite (absent_ext s1 s _ E1). }
    split.
    - intros H. apply N. rewrite M. intros [A B]. destruct H as [H|H]; [congruence|lia].
    - intros L. destruct (absent s (tname i)) eqn:A.
      + destruct (P (proj2 M (conj L eq_refl))) as (f & Tf & X). rewrite (absent_some _ _ _ (eq_trans E X)). eauto.
      + split; [|discriminate]. rewrite (absent_ext F s _ (eq_trans E (N ltac:(rewrite M; intros [_ X]; discriminate)))). exact A.
  Qed.

  (** The overlaps. *)
  Lemma done_over : (absent s oname = false \/ ntiles t = 1%nat -> F oname = s oname) /\
    (ntiles t <> 1%nat -> absent F oname = false /\
      (absent s oname = true -> exists files f, length files = ntiles t /\ tile_files e F files /\
         compute_phasediff_deciles (e_components e) (e_min_overlap e) files t = Ok f /\ F oname = Some (COverlaps f))).
  Proof using R1 R2 R3 R4 R5 Hn Ht.
    destruct over_same as (E & _ & E2). destruct tilesets as (_ & T2 & _). rewrite E. rewrite (absent_ext F s3 _ E).
    destruct (overlaps_inv e s2 w3 R3) as [(A & W)|(A & t' & T & C)]; rewrite (absent_ext s2 s _ E2) in A.
    - rewrite W. cbn [apply_writes fold_left]. split; [auto|]. intros _. rewrite (absent_ext s2 s _ E2), A. split; [auto|discriminate].
    - rewrite (tileset_fun e s2 t' t T T2) in *. destruct C as [(N & W)|(N & files & f & gw & L & Hf & Hc & W & G)].
      + rewrite W. cbn [apply_writes fold_left]. split; [auto|]. intros X. contradiction.
      + split; [intros [X|X]; [congruence|contradiction]|]. intros _.
        assert (s3 oname = Some (COverlaps f)) as X. { rewrite W, apply_app. cbn. unfold store. cbn. now rewrite String.eqb_refl. }
        split; [eapply absent_some; eauto|]. intros _. exists files, f. split; [auto|]. split; [|auto].
        eapply files_ext; [|exact Hf]. intros i _. symmetry. apply tile_same.
  Qed.

  (** The offsets. *)
  Lemma done_bulk : (absent s bname = false \/ ntiles t = 1%nat -> F bname = s bname) /\
    (ntiles t <> 1%nat -> absent F bname = false /\
      (absent s bname = true -> exists f r, F oname = Some (COverlaps f) /\
         get_bulk_offsets (e_mip e) (e_lsq e) (e_bulk_method e) f t (e_valid e) = Ok r /\
         F bname = Some (COffsets (e_bulk_method e) (fst r) (snd r)))).
  Proof using R1 R2 R3 R4 R5 Hn Ht.
    destruct bulk_same as (E & E2). destruct tilesets as (_ & _ & T3 & _). rewrite E. rewrite (absent_ext F s4 _ E).
    destruct (offsets_inv e s3 w4 R4) as [(A & W)|(A & t' & T & C)]; rewrite (absent_ext s3 s _ E2) in A.
    - rewrite W. cbn [apply_writes fold_left]. split; [auto|]. intros _. rewrite (absent_ext s3 s _ E2), A. split; [auto|discriminate].
    - rewrite (tileset_fun e s3 t' t T T3) in *. destruct C as [(N & W)|(N & f & r & Hf & Hc & W)].
      + rewrite W. cbn [apply_writes fold_left]. split; [auto|]. intros X. contradiction.
      + split; [intros [X|X]; [congruence|contradiction]|]. intros _.
        assert (s4 bname = Some (COffsets (e_bulk_method e) (fst r) (snd r))) as X. { rewrite W. cbn. unfold store. cbn. now rewrite String.eqb_refl. }
        split; [eapply absent_some; eauto|]. intros _. exists f, r. rewrite (proj1 over_same). auto.
  Qed.

  (** The rasters. *)
  Hypothesis Hso : sound e F.
  Lemma sound4 : sound e s4.
  Proof using R1 R2 R3 R4 R5 Hn Ht Hso.
    destruct tilesets as (TF & _). apply (sound_ext e F s4 t TF); auto.
    - destruct json_same as (E & _ & _ & E4). congruence.
    - intros i _. destruct (tile_same i) as (E & _ & E4 & _). congruence.
    - destruct over_same as (E & E4 & _). congruence.
  Qed.
  Lemma done_merge : e_method e = "dirichlet"%string /\ to_write e s4 fn w5.
  Proof using R1 R2 R3 R4 R5 Hn Ht Hso.
    pose proof R5 as R. apply merge_tiles_iff in R as (M & _ & W); [auto| |apply sound4]. intros fn' Ho. now apply (outputs_nodup e Hn fn').
  Qed.
  Lemma out_missing : missing_bands s4 fn = missing_bands s fn.
  Proof using R1 R2 R3 R4 R5 Hn.
    apply filter_ext_in. intros k I. apply in_seq in I. apply absent_ext, other_same. apply (outputs_tmp e Hn fn outputs).
    apply in_flat_map. exists (nth k fn ""%string). split; [apply nth_In; lia|]. apply three_in. auto.
  Qed.
End Finished.
