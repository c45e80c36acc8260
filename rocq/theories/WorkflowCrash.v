(** States left by a run that stops early, and runs that start from nothing. *)
From Verif Require Import Base BaseLemmas PoolProofs TileModel TileSpec JsonModel NamesModel NamesProofs OverlapModel OverlapSpec BulkModel BulkProofs
  MergeModel MergeSpec AdjustProofs MergeBatchProofs DescribeProofs WorkflowModel WorkflowSpec WorkflowProofs WorkflowSteps WorkflowMerge
  WorkflowMain WorkflowResume Props_Tile.
From Coq Require Import List ZifyBool Permutation.
Import ListNotations.
Set Default Goal Selector "!".

(** ** Outputs are there at the end *)
Lemma present_mono s ws n : absent s n = false -> absent (apply_writes s ws) n = false.
Proof.
  intros H. destruct (apply_cases ws s n) as [E|(c & E & _)]; [now rewrite (absent_ext _ _ _ E)|now rewrite (absent_some _ _ _ E)].
Qed.
Lemma each_done {A} (f : A -> prog unit) (Q : A -> fs -> Prop) l :
  (forall a s ws, Q a s -> Q a (apply_writes s ws)) -> (forall a s ws, In a l -> run (f a) s = (ws, Ok tt) -> Q a (apply_writes s ws)) ->
  forall s ws, run (each f l) s = (ws, Ok tt) -> forall a, In a l -> Q a (apply_writes s ws).
Proof.
  intros Mono. induction l as [|b l IH]; intros D s ws H a I; [destruct I|]. cbn [each] in H. apply then_inv in H as (w1 & [] & w2 & R1 & R2 & ->). rewrite apply_app.
  destruct I as [->|I]; [apply Mono, D; [now left|auto]|]. eapply IH; eauto. intros x s0 ws0 Ix. apply D. now right.
Qed.
Lemma merge_done e s ws fn : run (merge_tiles e) s = (ws, Ok fn) -> forall k, (k < length fn)%nat -> absent (apply_writes s ws) (nth k fn ""%string) = false.
Proof.
  unfold merge_tiles. destruct (negb _); [discriminate|]. intros H. apply then_inv in H as (w1 & t & w2 & R1 & H & ->). apply read_tileset_iff in R1 as [-> _].
  apply then_inv in H as (w3 & files & w4 & R1 & H & ->). apply read_tiles_iff in R1 as (-> & _ & _). apply then_inv in H as (w5 & fn' & w6 & R1 & H & ->).
  apply lift_inv in R1 as [-> _]. cbn [app apply_writes fold_left] in *. change (fold_left store w6 s) with (apply_writes s w6). destruct (_ =? 1)%nat.
  - apply then_inv in H as (w7 & [] & w8 & R1 & H & ->). cbn in H. injection H as <- <-. rewrite app_nil_r. intros k Bk.
    refine (each_done _ (fun (kn : nat * string) st => absent st (snd kn) = false) _ (fun a st w => present_mono st w (snd a)) _ s w7 R1 (k, nth k fn' ""%string) _).
    + intros [j n] s0 ws0 I R. cbn [fst snd] in *. rewrite (then_pure _ _ _ _ (run_is_file _ _)) in R. destruct (absent s0 n) eqn:A; cbn [negb] in R.
      * destruct (single_band _ _ _) as [r|]; [|discriminate]. cbn in R. injection R as <-. cbn. unfold store, absent. cbn. now rewrite String.eqb_refl.
      * injection R as <-. exact A.
    + replace (k, nth k fn' ""%string) with (nth k (combine (seq 0 (length fn')) fn') (O, ""%string)).
      * apply nth_In. rewrite combine_length, seq_length. lia.
      * rewrite combine_nth by apply seq_length. now rewrite seq_nth.
  - apply then_inv in H as (w7 & f & w8 & R1 & H & ->). apply read_overlaps_iff in R1 as (-> & _). apply then_inv in H as (w7 & omap & w9 & R1 & H & ->). apply lift_inv in R1 as [-> _].
    apply then_inv in H as (w7 & m & w10 & R1 & H & ->). apply lift_inv in R1 as [-> _]. apply then_inv in H as (w7 & bulk & w11 & R1 & H & ->). apply read_offsets_iff in R1 as (-> & _).
    cbn [app apply_writes fold_left] in *. change (fold_left store w11 s) with (apply_writes s w11). destruct (batch_size _ _) as [|size] eqn:Es; [discriminate|].
    apply then_inv in H as (w7 & [] & w12 & R1 & H & ->). cbn in H. injection H as <- <-. rewrite app_nil_r. intros k Bk.
    assert (In k (concat (batches (S size) (length fn')))) as Ik by (rewrite batches_concat by lia; apply in_seq; lia). apply in_concat in Ik as (b & Ib & Ik).
    refine (each_done _ (fun b st => forall k, In k b -> absent st (nth k fn' ""%string) = false) _ (fun b st w H k I => present_mono st w _ (H k I)) _ s w7 R1 b Ib k Ik). clear -fn'. intros b s0 ws0 _ R k Ik. unfold merge_bands in R.
    rewrite (then_pure _ _ _ _ (run_missing _ _ _)), concat_missing in R.
    set (idx := filter (fun i => absent s0 (nth i fn' ""%string)) b) in *.
    destruct (absent s0 (nth k fn' ""%string)) eqn:A; [|now apply present_mono].
    assert (In k idx) as Ii by (apply filter_In; auto). clearbody idx. destruct idx as [|i0 idx']; [destruct Ii|].
    apply then_inv in R as (w1 & ts & w2 & R1 & R & ->). apply lift_inv in R1 as [-> _]. apply then_inv in R as (w3 & ts' & w4 & R1 & R & ->). apply lift_inv in R1 as [-> _].
    cbn [app apply_writes fold_left] in *. change (fold_left store w4 s0) with (apply_writes s0 w4).
    refine (each_done _ (fun i st => absent st (nth i fn' ""%string) = false) (i0 :: idx') (fun a st w => present_mono st w _) _ s0 w4 R k Ii). clear. intros i s0 ws0 _ R. unfold write_merged_band in R. rewrite (then_pure _ _ _ _ (run_is_file _ _)) in R.
    destruct (absent s0 (nth i fn' ""%string)) eqn:A; cbn [negb] in R; [|now apply present_mono].
    destruct (merged_band _ _ _) as [[[a d] mo]|]; [|discriminate]. cbn in R. injection R as <-.
    apply (present_mono _ [(diff_filename (nth i fn' ""%string), CRaster d); (model_filename (nth i fn' ""%string), CRaster mo)]).
    unfold store, absent. cbn. now rewrite String.eqb_refl.
Qed.

(** ** Prefixes of a run *)
Lemma prefix_once (p : string -> bool) (pre suf : list write) s n : NoDup (filter p (map fst (pre ++ suf))) -> p n = true ->
  apply_writes s pre n = s n /\ ~ In n (map fst pre) \/ apply_writes s pre n = apply_writes s (pre ++ suf) n /\ In n (map fst pre).
Proof.
  intros N P. destruct (in_dec string_dec n (map fst pre)) as [I|I]; [right|left; split; [now apply apply_notin|auto]].
  split; [|auto]. rewrite apply_app. symmetry. apply apply_notin. intros J. rewrite map_app, filter_app in N.
  apply (NoDup_app_disj _ _ n N); apply filter_In; auto.
Qed.

Lemma flat_map_prefix {A B} (g : A -> list B) l : forall pre suf, flat_map g l = pre ++ suf ->
  exists l1 l2 part, l = l1 ++ l2 /\ pre = flat_map g l1 ++ part /\ (part = [] \/ exists x l3, l2 = x :: l3 /\ exists q, g x = part ++ q).
Proof.
  induction l as [|x l IH]; intros pre suf H.
  - cbn in H. symmetry in H. apply app_eq_nil in H as [-> ->]. exists [], [], []. auto.
  - cbn [flat_map] in H. revert pre H. generalize (eq_refl (g x)). generalize (g x) at 1 3. intros gx E pre H.
    assert ((exists q, gx = pre ++ q) \/ exists r, pre = gx ++ r /\ flat_map g l = r ++ suf) as [(q & Eq)|(r & -> & Er)].
    { clear -H. revert pre H. induction gx as [|y gx IHg]; intros pre H; [right; exists pre; auto|]. destruct pre as [|z pre]; [left; exists (y :: gx); auto|].
      cbn in H. injection H as <- H. destruct (IHg pre H) as [(q & ->)|(r & -> & Er)]; [left; exists q; auto|right; exists r; auto]. }
    + exists [], (x :: l), pre. split; [auto|]. split; [auto|]. right. exists x, l. split; [auto|]. exists q. congruence.
    + destruct (IH r suf Er) as (l1 & l2 & part & -> & -> & P). exists (x :: l1), l2, part. split; [auto|]. split; [cbn; rewrite E; now rewrite app_assoc|auto].
Qed.

Lemma split_prefix {A} (a b pre suf : list A) : a ++ b = pre ++ suf -> (exists q, a = pre ++ q) \/ exists r, pre = a ++ r /\ b = r ++ suf.
Proof.
  revert pre. induction a as [|y a IH]; intros pre H; [right; exists pre; auto|]. destruct pre as [|z pre]; [left; exists (y :: a); auto|].
  cbn in H. injection H as <- H. destruct (IH pre H) as [(q & ->)|(r & -> & Er)]; [left; exists q; auto|right; exists r; auto].
Qed.

Section Crash.
  Context (e : env).
  Hypothesis Hn : names_ok e.
  Hypothesis Hsch : sched_ok e.
  Notation oname := (overlap_filename (e_tmp e)).
  Variables (s : fs) (w1 w2 w3 w4 w5 : list write) (fn : list string).
  Notation s1 := (apply_writes s w1).
  Notation s2 := (apply_writes s1 w2).
  Notation s3 := (apply_writes s2 w3).
  Notation s4 := (apply_writes s3 w4).
  Notation F := (apply_writes s4 w5).
  Hypothesis R1 : run (get_tiles_step e) s = (w1, Ok tt).
  Hypothesis R2 : run (unwrap_tiles e) s1 = (w2, Ok tt).
  Hypothesis R3 : run (overlaps_step e) s2 = (w3, Ok tt).
  Hypothesis R4 : run (offsets_step e) s3 = (w4, Ok tt).
  Hypothesis R5 : run (merge_tiles e) s4 = (w5, Ok fn).
  Variable t : tileset.
  Hypothesis Ht : tileset_of e s1 t.
  Hypothesis Hso : sound e F.
  Notation ws := (w1 ++ w2 ++ w3 ++ w4 ++ w5).
  Notation p := (fun n => negb (String.eqb n oname)).

  Lemma final_ws : apply_writes s ws = F.
  Proof using. now rewrite !apply_app. Qed.

  Lemma either_shape (A : Type) (g : nat * A -> list write) :
    (forall k o, map fst (g (k, o)) = [nth k fn ""%string]) \/ (forall k o, map fst (g (k, o)) = three (nth k fn ""%string)) ->
    forall k o, map fst (g (k, o)) = [nth k fn ""%string] \/ map fst (g (k, o)) = three (nth k fn ""%string).
  Proof using. intros [H|H] k o; auto. Qed.
  Lemma tmp_writes w : In w (w1 ++ w2 ++ w3 ++ w4) -> tmp_names e (fst w).
  Proof using R1 R2 R3 R4.
    intros I. apply in_app_or in I as [I|I]; [assert (fst w = tiles_jsonname (e_tmp e)) as -> by (apply (only_run _ _ s (frame_tiles e)); now rewrite R1); apply tmp_json|].
    apply in_app_or in I as [I|I]; [assert (exists i, fst w = tile_filename (e_tmp e) i) as (i & ->) by (apply (only_run _ _ s1 (frame_unwrap e)); now rewrite R2); apply tmp_tile|].
    apply in_app_or in I as [I|I]; [assert (fst w = oname) as -> by (apply (only_run _ _ s2 (frame_overlaps e)); now rewrite R3); apply tmp_over|].
    assert (fst w = offsets_filename (e_tmp e)) as -> by (apply (only_run _ _ s3 (frame_offsets e)); now rewrite R4). apply tmp_bulk.
  Qed.
  Lemma rasters_shape : exists (A : Type) (g : nat * A -> list write) outs,
    ((forall k o, map fst (g (k, o)) = [nth k fn ""%string]) \/ (forall k o, map fst (g (k, o)) = three (nth k fn ""%string))) /\
    length outs = length (missing_bands s fn) /\ w5 = flat_map g (combine (missing_bands s fn) outs).
  Proof using Hn R1 R2 R3 R4 R5 Ht Hso.
    destruct (done_merge e Hn s w1 w2 w3 w4 w5 fn R1 R2 R3 R4 R5 t Ht Hso) as [_ (t' & files & _ & _ & _ & W)].
    rewrite (out_missing e Hn s w1 w2 w3 w4 w5 fn R1 R2 R3 R4 R5) in W.
    destruct W as [(N & outs & E & Hw)|(N & f & omap & m & bulk & r & outs & _ & _ & _ & _ & _ & E & Hw)]; pose proof (map_res_nth _ _ _ E) as [Lo _].
    - exists raster, (fun ko => [(nth (fst ko) fn ""%string, CRaster (snd ko))]), outs. split; [left; reflexivity|]. split; [auto|]. rewrite Hw.
      generalize (combine (missing_bands s fn) outs). intros l. induction l as [|x l IH]; [auto|cbn; now rewrite IH].
    - exists (raster * raster * raster)%type, (fun ko => rasters (nth (fst ko) fn ""%string) (snd ko)), outs. split; [right; intros k o; apply rasters_names|auto].
  Qed.

  Lemma written_once : NoDup (filter p (map fst ws)).
  Proof using Hn Hsch R1 R2 R3 R4 R5 Ht Hso.
    assert (forall w, In w w1 -> fst w = tiles_jsonname (e_tmp e)) as W1.
    { intros w I. apply (only_run _ _ s (frame_tiles e)). now rewrite R1. }
    assert (forall w, In w w2 -> exists i, fst w = tile_filename (e_tmp e) i) as W2.
    { intros w I. apply (only_run _ _ s1 (frame_unwrap e)). now rewrite R2. }
    assert (forall w, In w w3 -> fst w = oname) as W3.
    { intros w I. apply (only_run _ _ s2 (frame_overlaps e)). now rewrite R3. }
    assert (forall w, In w w4 -> fst w = offsets_filename (e_tmp e)) as W4.
    { intros w I. apply (only_run _ _ s3 (frame_offsets e)). now rewrite R4. }
    destruct rasters_shape as (A & g & outs & Hgg & Hl & Hw). pose proof (either_shape A g Hgg) as Hg.
    pose proof (w5_nodup e Hn s w1 w2 w3 w4 w5 fn R5 A g outs Hg Hl Hw) as N5.
    assert (forall w, In w w5 -> In (fst w) (flat_map three fn)) as W5.
    { intros w I. rewrite Hw in I. apply in_flat_map in I as ([k o] & J & I). apply in_combine_l in J. apply missing_lt in J as [L _].
      apply in_flat_map. exists (nth k fn ""%string). split; [now apply nth_In|]. apply (g_three fn A g Hg k o). now apply in_map. }
    assert (NoDup (map fst w1)) as N1.
    { pose proof R1 as R. rewrite get_tiles_run in R. destruct (absent s _); [|injection R as <-; constructor].
      destruct (get_tiles _ _ _ _ _); [|discriminate]. injection R as <-. repeat constructor. intros []. }
    assert (NoDup (map fst w2)) as N2.
    { destruct (done_unwrap e Hsch s w1 w2 R2 t Ht) as (_ & -> & _). apply finished_nodup, sched_missing, Hsch. }
    assert (NoDup (map fst w4)) as N4.
    { destruct (offsets_inv e s3 w4 R4) as [(_ & ->)|(_ & t' & _ & [(_ & ->)|(_ & f & r & _ & _ & ->)])]; [constructor|constructor|]. repeat constructor. intros []. }
    assert (filter p (map fst w3) = []) as E3.
    { clear -W3. induction w3 as [|w l IH]; [auto|]. cbn. rewrite (W3 w (or_introl eq_refl)), String.eqb_refl. cbn. apply IH. intros v I. apply W3. now right. }
    rewrite !map_app, !filter_app. replace (filter _ (map fst w3)) with (@nil string) by (symmetry; exact E3). cbn [app].
    assert (forall n, In n (map fst w5) -> ~ tmp_names e n) as T5.
    { intros n I. apply in_map_iff in I as (w & <- & I). apply (outputs_tmp e Hn fn (outputs e s w1 w2 w3 w4 w5 fn R5)), W5, I. }
    apply NoDup_app_intro; [now apply NoDup_filter| |].
    - apply NoDup_app_intro; [now apply NoDup_filter| |].
      + apply NoDup_app_intro; [now apply NoDup_filter|now apply NoDup_filter|]. intros n I J. apply filter_In in I as [I _], J as [J _]. apply (T5 n J).
        apply in_map_iff in I as (w & <- & I). rewrite (W4 w I). apply tmp_bulk.
      + intros n I J. apply filter_In in I as [I _]. apply in_map_iff in I as (w & <- & I). destruct (W2 w I) as (i & E). apply in_app_or in J as [J|J]; apply filter_In in J as [J _].
        * apply in_map_iff in J as (v & Ev & J). rewrite (W4 v J) in Ev. symmetry in Ev. rewrite E in Ev. revert Ev. apply (tmp_distinct e i).
        * apply (T5 _ J). rewrite E. apply tmp_tile.
    - intros n I J. apply filter_In in I as [I _]. apply in_map_iff in I as (w & <- & I). pose proof (W1 w I) as E.
      apply in_app_or in J as [J|J]; [|apply in_app_or in J as [J|J]]; apply filter_In in J as [J _].
      + apply in_map_iff in J as (v & Ev & J). destruct (W2 v J) as (i & Ei). apply (proj1 (tmp_distinct e i)). congruence.
      + apply in_map_iff in J as (v & Ev & J). rewrite (W4 v J) in Ev. rewrite E in Ev. symmetry in Ev. revert Ev. apply (tmp_distinct e 0).
      + apply (T5 _ J). rewrite E. apply tmp_json.
  Qed.

  (** The state after the first writes. *)
  Variables (pre suf : list write).
  Hypothesis Hpre : ws = pre ++ suf.
  Notation c := (apply_writes s pre).
  Hypothesis Ho : c oname = s oname \/ exists f, c oname = Some (COverlaps f).

  Lemma crash_between n : c n = s n \/ c n = F n.
  Proof using Hn Hsch R1 R2 R3 R4 R5 Ht Hso Hpre Ho.
    destruct (string_dec n oname) as [->|N].
    - destruct Ho as [E|(f & E)]; [auto|]. destruct (apply_cases pre s oname) as [X|(y & X & I)]; [auto|]. right. rewrite E in X. injection X as <-.
      assert (In (oname, COverlaps f) ws) as J by (rewrite Hpre; apply in_or_app; auto).
      assert (In (oname, COverlaps f) w3) as J3.
      { apply in_app_or in J as [J|J]; [exfalso; assert (oname = tiles_jsonname (e_tmp e)) as K by (apply (only_run _ _ s (frame_tiles e) (oname, COverlaps f)); now rewrite R1)|].
        { symmetry in K. revert K. apply (tmp_distinct e 0). }
        apply in_app_or in J as [J|J].
        { exfalso. assert (exists i, oname = tile_filename (e_tmp e) i) as (i & K) by (apply (only_run _ _ s1 (frame_unwrap e) (oname, COverlaps f)); now rewrite R2).
          symmetry in K. revert K. apply (tmp_distinct e i). }
        apply in_app_or in J as [J|J]; [auto|]. apply in_app_or in J as [J|J].
        { exfalso. assert (oname = offsets_filename (e_tmp e)) as K by (apply (only_run _ _ s3 (frame_offsets e) (oname, COverlaps f)); now rewrite R4).
          revert K. apply (tmp_distinct e 0). }
        exfalso. destruct rasters_shape as (A & g & outs & Hgg & Hl & Hw). pose proof (either_shape A g Hgg) as Hg. rewrite Hw in J. apply in_flat_map in J as ([k o] & Jk & J).
        apply in_combine_l in Jk. apply missing_lt in Jk as [L _]. apply (outputs_tmp e Hn fn (outputs e s w1 w2 w3 w4 w5 fn R5) oname); [|apply tmp_over].
        apply in_flat_map. exists (nth k fn ""%string). split; [now apply nth_In|]. apply (g_three fn A g Hg k o). apply in_map_iff. exists (oname, COverlaps f). auto. }
      rewrite E. destruct (over_same e Hn s w1 w2 w3 w4 w5 fn R1 R2 R4 R5) as (-> & _).
      destruct (overlaps_inv e s2 w3 R3) as [(_ & W)|(_ & t' & _ & [(_ & W)|(_ & files & f' & gw & _ & _ & _ & W & G)])]; rewrite W in J3; [destruct J3|destruct J3|].
      rewrite W, apply_app. apply in_app_or in J3 as [J3|[J3|[]]].
      + apply G in J3 as [_ (g & K)]. discriminate.
      + injection J3 as ->. cbn. unfold store. cbn. now rewrite String.eqb_refl.
    - pose proof written_once as W. rewrite Hpre in W. destruct (prefix_once p pre suf s n W) as [[E _]|[E _]]; [|auto|].
      + destruct (String.eqb_spec n oname); [contradiction|auto].
      + right. now rewrite E, <- Hpre, final_ws.
  Qed.

  (** At most one interferogram lacks its second or third raster. *)
  Lemma crash_one : exists b : list string, (length b <= 1)%nat /\
    forall n, interrupted s c fn n -> c n = F n \/ exists fname, In fname b /\ In fname fn /\ (n = diff_filename fname \/ n = model_filename fname).
  Proof using Hn Ho Hpre Hsch Hso Ht R1 R2 R3 R4 R5 e fn pre s suf t w1 w2 w3 w4 w5.
    destruct rasters_shape as (A & g & outs & Hgg & Hl & Hw). pose proof (either_shape A g Hgg) as Hg. set (l := combine (missing_bands s fn) outs) in *.
    pose proof written_once as W. rewrite Hpre in W.
    (* either no raster was written, or the prefix ends among the rasters *)
    assert ((exists q, w1 ++ w2 ++ w3 ++ w4 = pre ++ q) \/ exists p5, pre = (w1 ++ w2 ++ w3 ++ w4) ++ p5 /\ w5 = p5 ++ suf) as [(q & Q)|(p5 & P5 & Q5)].
    { apply split_prefix. rewrite <- !app_assoc. exact Hpre. }
    - exists []. split; [cbn; lia|]. intros n (fname & I & As & Ac & D). exfalso.
      apply (In_nth _ _ ""%string) in I as (k & Bk & <-).
      assert (~ tmp_names e (nth k fn ""%string)) as T by (apply (outputs_tmp e Hn fn (outputs e s w1 w2 w3 w4 w5 fn R5)), in_flat_map; exists (nth k fn ""%string); split; [now apply nth_In|apply three_in; auto]).
      assert (~ In (nth k fn ""%string) (map fst (w1 ++ w2 ++ w3 ++ w4))) as N.
      { intros I. apply T. apply in_map_iff in I as (w & <- & I). now apply tmp_writes. }
      rewrite (absent_ext c s) in Ac; [congruence|]. apply apply_notin. intros I. apply N. rewrite Q, map_app. apply in_or_app. auto.
    - rewrite Hw in Q5. destruct (flat_map_prefix g l p5 suf Q5) as (l1 & l2 & part & El & Ep & P).
      exists (match l2 with [] => [] | x :: _ => [nth (fst x) fn ""%string] end). split; [destruct l2; cbn; lia|].
      intros n (fname & I & As & Ac & D). apply (In_nth _ _ ""%string) in I as (k & Bk & Ek). subst fname.
      assert (In (nth k fn ""%string) (map fst p5)) as Ip.
      { destruct (in_dec string_dec (nth k fn ""%string) (map fst pre)) as [I|I].
        - rewrite P5, map_app in I. apply in_app_or in I as [I|I]; [|auto]. exfalso.
          assert (~ tmp_names e (nth k fn ""%string)) as T by (apply (outputs_tmp e Hn fn (outputs e s w1 w2 w3 w4 w5 fn R5)), in_flat_map; exists (nth k fn ""%string); split; [now apply nth_In|apply three_in; auto]).
          apply T. apply in_map_iff in I as (w & <- & I). now apply tmp_writes.
        - rewrite (absent_ext c s) in Ac; [congruence|]. now apply apply_notin. }
      (* the band it belongs to *)
      assert (forall j o, In (j, o) l -> (j < length fn)%nat) as Bl by (intros j o J; apply in_combine_l in J; now apply missing_lt in J).
      assert (forall j o, In (j, o) l -> In (nth k fn ""%string) (map fst (g (j, o))) -> j = k) as Jk.
      { intros j o J X. apply (three_disjoint fn (outs_nodup e Hn s w1 w2 w3 w4 w5 fn R5) j k (nth k fn ""%string)); eauto; [apply (g_three fn A g Hg j o _ X)|apply three_in; auto]. }
      rewrite Ep, map_app in Ip. apply in_app_or in Ip as [Ip|Ip].
      + left. apply in_map_iff in Ip as (w & Ew & Ip). apply in_flat_map in Ip as ([j o] & J & Ip).
        assert (In (j, o) l) as Jl by (rewrite El; apply in_or_app; auto).
        assert (j = k) as -> by (apply (Jk j o Jl); rewrite <- Ew; now apply in_map).
        assert (n <> oname) as No. { intros ->. apply (outputs_tmp e Hn fn (outputs e s w1 w2 w3 w4 w5 fn R5) oname); [|apply tmp_over]. apply in_flat_map. exists (nth k fn ""%string). split; [now apply nth_In|]. apply three_in. tauto. }
        destruct Hgg as [G|G].
        * assert (~ In n (map fst ws)) as Nn; [|rewrite <- final_ws, !apply_notin; auto; intros X; apply Nn; rewrite Hpre, map_app; apply in_or_app; auto].
          intros X. apply in_map_iff in X as (v & Ev & X). rewrite !app_assoc in X. apply in_app_or in X as [X|X].
          { rewrite <- !app_assoc in X. apply tmp_writes in X. rewrite Ev in X. revert X. apply (outputs_tmp e Hn fn (outputs e s w1 w2 w3 w4 w5 fn R5)).
            apply in_flat_map. exists (nth k fn ""%string). split; [now apply nth_In|]. apply three_in. tauto. }
          rewrite Hw in X. apply in_flat_map in X as ([j o'] & J' & X). assert (fst v = nth j fn ""%string) as Ej.
          { assert (In (fst v) (map fst (g (j, o')))) as Y by now apply in_map. rewrite G in Y. destruct Y as [Y|[]]. auto. }
          assert (j = k) as ->.
          { apply (three_disjoint fn (outs_nodup e Hn s w1 w2 w3 w4 w5 fn R5) j k n); eauto; apply three_in; [left; congruence|tauto]. }
          pose proof (outs_nodup e Hn s w1 w2 w3 w4 w5 fn R5) as Nd. rewrite Ev in Ej.
          assert (NoDup (three (nth k fn ""%string))) as N3.
          { pose proof (picked_nodup fn Nd [k]) as P1. cbn [map flat_map] in P1. rewrite app_nil_r in P1. apply P1; [repeat constructor; intros []|intros y [<-|[]]; exact Bk]. }
          rewrite Ej in D. unfold three in N3. apply NoDup_cons_iff in N3 as [N3 _]. apply N3. cbn. destruct D; auto.
        * destruct (prefix_once p pre suf s n W) as [[_ X]|[X _]].
          -- destruct (String.eqb_spec n oname); [contradiction|auto].
          -- exfalso. apply X. rewrite P5, Ep, !map_app. apply in_or_app. right. apply in_or_app. left.
             apply (in_map_iff fst). assert (In n (map fst (g (k, o)))) as Z by (rewrite G; apply three_in; tauto). apply in_map_iff in Z as (v & Ev & Z). exists v. split; [auto|]. apply in_flat_map. eauto.
          -- now rewrite X, <- Hpre, final_ws.
      + destruct P as [->|(x & l3 & -> & q & Eq)]; [destruct Ip|]. right. exists (nth k fn ""%string). split; [|split; [now apply nth_In|auto]].
        left. destruct x as [j o]. cbn [fst]. f_equal. apply (Jk j o); [rewrite El; apply in_or_app; right; now left|]. rewrite Eq, map_app. apply in_or_app. auto.
  Qed.
End Crash.

Section Fresh.
  Context (e : env).
  Hypothesis Hn : names_ok e.
  Hypothesis Hsch : sched_ok e.
  Variables (s : fs) (w1 w2 w3 w4 w5 : list write) (fn : list string).
  Notation s1 := (apply_writes s w1).
  Notation s2 := (apply_writes s1 w2).
  Notation s3 := (apply_writes s2 w3).
  Notation s4 := (apply_writes s3 w4).
  Notation F := (apply_writes s4 w5).
  Hypothesis R1 : run (get_tiles_step e) s = (w1, Ok tt).
  Hypothesis R2 : run (unwrap_tiles e) s1 = (w2, Ok tt).
  Hypothesis R3 : run (overlaps_step e) s2 = (w3, Ok tt).
  Hypothesis R4 : run (offsets_step e) s3 = (w4, Ok tt).
  Hypothesis R5 : run (merge_tiles e) s4 = (w5, Ok fn).
  Variable t : tileset.
  Hypothesis Ht : tileset_of e s1 t.
  Hypothesis Hfr : fresh e s.
  Variables (h w : Z).
  Hypothesis Hu : unwrap_ok e h w.
  Hypothesis Hhw : (h * w <= 2 ^ 32)%Z.
  Hypothesis Hcc : forall n l, length (e_components e n l) = n.

  Lemma fresh_tiles : get_tiles (e_pick e) (e_root e) (e_use_tiles e) (e_tiler e) (e_valid e) = Ok t.
  Proof using Hn R1 R2 R3 R4 R5 Ht Hfr.
    destruct (done_json e Hn s w1 w2 w3 w4 w5 fn R1 R2 R3 R4 R5 t Ht) as (_ & _ & D). destruct D as (t' & G & E); [now apply absent_true, Hfr, tmp_json|].
    rewrite G. f_equal. apply (tileset_fun e F); [|exact (tsF e Hn s w1 w2 w3 w4 w5 fn R2 R3 R4 R5 t Ht)]. exists (to_json t'). split; [auto|apply C31_roundtrip].
  Qed.
  Lemma fresh_file i f : (i < ntiles t)%nat -> F (tile_filename (e_tmp e) i) = Some (CTile f) ->
    tf_tile f = nth i (tiles t) (BBox 0 0 0 0) /\ file_ok f /\ NoDup (tf_points f) /\ in_grid h w (file_coords f).
  Proof using Hn Hsch R1 R2 R3 R4 R5 Ht Hfr Hu.
    intros L E. destruct (done_tile e Hn Hsch s w1 w2 w3 w4 w5 fn R1 R2 R3 R4 R5 t Ht i) as [_ D]. destruct (D L) as [_ D2].
    destruct D2 as (f' & T & E'); [now apply absent_true, Hfr, tmp_tile|]. rewrite E in E'. injection E' as <-.
    apply (Hu t); [apply fresh_tiles|apply nth_In, L|exact T].
  Qed.
  Lemma fresh_sound : sound e F.
  Proof using Hn Hsch R1 R2 R3 R4 R5 Ht Hfr Hu Hhw Hcc.
    intros t' files f T L Hf Ho. rewrite (tileset_fun e F t' t T (tsF e Hn s w1 w2 w3 w4 w5 fn R2 R3 R4 R5 t Ht)) in *. clear t' T.
    destruct (done_over e Hn s w1 w2 w3 w4 w5 fn R1 R2 R3 R4 R5 t Ht) as [D1 D2].
    destruct (Nat.eq_dec (ntiles t) 1) as [N|N]; [rewrite D1 in Ho by auto; rewrite Hfr in Ho by apply tmp_over; discriminate|].
    destruct (D2 N) as [_ D3]. destruct D3 as (files' & f' & L' & Hf' & C & E); [now apply absent_true, Hfr, tmp_over|].
    rewrite Ho in E. injection E as <-. rewrite (tile_files_fun e F files' files) in C by (auto; congruence).
    assert (forall i, (i < ntiles t)%nat -> F (tile_filename (e_tmp e) i) = Some (CTile (nth i files dfile))) as At.
    { intros i B. apply Hf. apply nth_error_nth'. lia. }
    assert (forall fl, In fl files -> file_ok fl /\ NoDup (tf_points fl) /\ in_grid h w (file_coords fl)) as K.
    { intros fl I. apply (In_nth _ _ dfile) in I as (i & B & <-). apply (fresh_file i); [lia|]. apply At. lia. }
    split; [|split; [intros fl I; destruct (K fl I) as (K1 & K2 & _); auto|]].
    - intros ->. cbn in L. destruct (done_bulk e Hn s w1 w2 w3 w4 w5 fn R1 R2 R3 R4 R5 t Ht) as [_ B]. destruct (B N) as [_ B2].
      destruct B2 as (f' & r & Ef & G & _); [now apply absent_true, Hfr, tmp_bulk|]. rewrite Ho in Ef. injection Ef as <-.
      assert (get_overlaps t = []) as O0.
      { destruct (get_overlaps t) as [|[i j] l] eqn:Eo; [auto|]. destruct (C26_overlaps t) as (O1 & _). specialize (O1 i j). rewrite Eo in O1. specialize (O1 (or_introl eq_refl)). lia. }
      unfold compute_phasediff_deciles in C. rewrite O0 in C. cbn in C. injection C as <-. discriminate G.
    - apply (computed_recorded (e_components e) (e_min_overlap e) files t f h w C Hcc L); auto.
      + intros n B. apply (fresh_file n); [auto|]. apply At, B.
      + intros fl I. apply (K fl I).
      + intros fl I. apply (K fl I).
  Qed.
End Fresh.
