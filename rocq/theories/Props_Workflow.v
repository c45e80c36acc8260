(** C43 - C46: output files of the merge, repeated, interrupted and parallel runs. *)
From Verif Require Import Base BaseLemmas PoolProofs TileModel TileSpec JsonModel NamesModel NamesProofs OverlapModel OverlapSpec BulkModel BulkProofs
  MergeModel MergeSpec MergeBatchProofs WorkflowModel WorkflowSpec WorkflowProofs WorkflowSteps WorkflowMerge WorkflowMain WorkflowResume WorkflowCrash
  Props_Tile.
From Coq Require Import List ZifyBool Permutation.
Import ListNotations.
Set Default Goal Selector "!".

(** The steps of a run that ends well. *)
Lemma main_done e s ws fn : run (main e) s = (ws, Ok fn) ->
  exists w1 w2 w3 w4 w5 t, run (get_tiles_step e) s = (w1, Ok tt) /\
    run (unwrap_tiles e) (apply_writes s w1) = (w2, Ok tt) /\
    run (overlaps_step e) (apply_writes (apply_writes s w1) w2) = (w3, Ok tt) /\
    run (offsets_step e) (apply_writes (apply_writes (apply_writes s w1) w2) w3) = (w4, Ok tt) /\
    run (merge_tiles e) (apply_writes (apply_writes (apply_writes (apply_writes s w1) w2) w3) w4) = (w5, Ok fn) /\
    tileset_of e (apply_writes s w1) t /\ ws = w1 ++ w2 ++ w3 ++ w4 ++ w5 /\
    apply_writes s ws = apply_writes (apply_writes (apply_writes (apply_writes (apply_writes s w1) w2) w3) w4) w5.
Proof.
  intros H. apply main_inv in H as (w1 & w2 & w3 & w4 & w5 & R1 & R2 & R3 & R4 & R5 & E). destruct (unwrap_inv e _ _ R2) as (t & T & _).
  exists w1, w2, w3, w4, w5, t. split; [exact R1|]. split; [exact R2|]. split; [exact R3|]. split; [exact R4|]. split; [exact R5|]. split; [exact T|]. split; [exact E|].
  rewrite E. now rewrite !apply_app.
Qed.

Lemma nodup_part {A B} (f : A -> list B) l a : NoDup (flat_map f l) -> In a l -> NoDup (f a).
Proof.
  induction l as [|b l IH]; intros N I; [destruct I|]. cbn [flat_map] in N.
  destruct I as [->|I]; [now apply NoDup_app_remove_r in N|]. apply IH; [|auto]. now apply NoDup_app_remove_l in N.
Qed.

(** * C43 *)

(** [merge_tiles] succeeds exactly when every missing band can be merged on its
    own, and then writes exactly their rasters, in order. *)
Theorem C43_exact e s fnames ws : names_ok e -> sound e s ->
  run (merge_tiles e) s = (ws, Ok fnames) <->
  e_method e = "dirichlet"%string /\ output_files e = Ok fnames /\ to_write e s fnames ws.
Proof. intros Hn. apply merge_tiles_iff. intros fn Ho. now apply (outputs_nodup e Hn fn). Qed.

(** Names written: each once, those of the missing interferograms. The rest of
    the file system is as before, in particular what existed under an output
    name. *)
Theorem C43_files e s fnames ws t : names_ok e -> sound e s -> tileset_of e s t ->
  run (merge_tiles e) s = (ws, Ok fnames) ->
  length fnames = length (e_ifgs e) /\ NoDup (map fst ws) /\
  (forall n, In n (map fst ws) <-> exists k, (k < length fnames)%nat /\ absent s (nth k fnames ""%string) = true /\
     (if (ntiles t =? 1)%nat then n = nth k fnames ""%string else In n (three (nth k fnames ""%string)))) /\
  (forall n, ~ In n (map fst ws) -> apply_writes s ws n = s n) /\
  (forall fname n, In fname fnames -> absent s fname = false -> In n (three fname) -> apply_writes s ws n = s n) /\
  (forall fname, In fname fnames -> absent (apply_writes s ws) fname = false).
Proof.
  intros Hn Hs Ht R. pose proof (merge_done e s ws fnames R) as Done. apply C43_exact in R as (_ & Ho & t' & files & T & L & Fl & W); auto. rewrite (tileset_fun e s t' t T Ht) in *. clear t' T.
  pose proof (outputs_nodup e Hn fnames Ho) as Nd.
  assert (exists (A : Type) (g : nat * A -> list write) outs, length outs = length (missing_bands s fnames) /\ ws = flat_map g (combine (missing_bands s fnames) outs) /\
    forall k o, map fst (g (k, o)) = if (ntiles t =? 1)%nat then [nth k fnames ""%string] else three (nth k fnames ""%string)) as (A & g & outs & Lo & Hw & Hg).
  { destruct W as [(N & outs & E & Hw)|(N & f & omap & m & bulk & r & outs & _ & _ & _ & _ & _ & E & Hw)]; pose proof (map_res_nth _ _ _ E) as [Lo _].
    - exists raster, (fun ko => [(nth (fst ko) fnames ""%string, CRaster (snd ko))]), outs. split; [auto|]. split; [|now rewrite N]. rewrite Hw.
      generalize (combine (missing_bands s fnames) outs). intros l. induction l as [|x l IH]; [auto|cbn; now rewrite IH].
    - exists (raster * raster * raster)%type, (fun ko => rasters (nth (fst ko) fnames ""%string) (snd ko)), outs. split; [auto|]. split; [auto|].
      intros k o. destruct (Nat.eqb_spec (ntiles t) 1); [contradiction|]. apply rasters_names. }
  assert (forall k o n, In n (map fst (g (k, o))) -> In n (three (nth k fnames ""%string))) as G3.
  { intros k o n. rewrite Hg. destruct (_ =? 1)%nat; [|auto]. intros [<-|[]]. apply three_in. auto. }
  assert (forall n, In n (map fst ws) <-> exists k, (k < length fnames)%nat /\ absent s (nth k fnames ""%string) = true /\
     (if (ntiles t =? 1)%nat then n = nth k fnames ""%string else In n (three (nth k fnames ""%string)))) as Names.
  { intros n. split.
    - intros I. apply in_map_iff in I as (w & <- & I). rewrite Hw in I. apply in_flat_map in I as ([k o] & J & I). apply in_combine_l in J. apply missing_lt in J as [B Ab].
      exists k. split; [auto|]. split; [auto|]. apply (in_map fst) in I. rewrite Hg in I. destruct (_ =? 1)%nat; [destruct I as [<-|[]]; auto|auto].
    - intros (k & B & Ab & I). assert (In k (missing_bands s fnames)) as M by now apply missing_lt. apply (In_nth _ _ O) in M as (j & Bj & Ej).
      destruct (nth_error outs j) as [o|] eqn:Eo; [|apply nth_error_None in Eo; lia].
      assert (In (k, o) (combine (missing_bands s fnames) outs)) as J.
      { replace (k, o) with (nth j (combine (missing_bands s fnames) outs) (O, o)); [apply nth_In; rewrite combine_length; lia|]. rewrite combine_nth by auto. rewrite Ej. f_equal. now apply nth_error_nth. }
      rewrite Hw, flat_map_concat_map, concat_map, map_map. apply in_concat. exists (map fst (g (k, o))). split; [now apply (in_map (fun x => map fst (g x)))|]. rewrite Hg.
      destruct (_ =? 1)%nat; [left; auto|auto]. }
  assert (length fnames = length (e_ifgs e)) as Len by (rewrite (proj1 (outputs_pairs e fnames Ho)); now rewrite !map_length).
  split; [exact Len|]. split; [|split; [exact Names|]].
  - rewrite Hw. clear -Nd Lo Hg G3. assert (NoDup (missing_bands s fnames)) as Nm by apply NoDup_filter, seq_NoDup.
    assert (forall k, In k (missing_bands s fnames) -> (k < length fnames)%nat) as Bm by (intros k I; now apply missing_lt in I).
    revert outs Lo. induction (missing_bands s fnames) as [|k l IH]; intros [|o outs] Lo; cbn [combine flat_map]; try constructor; try discriminate.
    apply NoDup_cons_iff in Nm as [Nk Nm]. rewrite map_app. apply NoDup_app_intro.
    + rewrite Hg. destruct (_ =? 1)%nat; [repeat constructor; intros []|]. apply (nodup_part three fnames); [auto|apply nth_In, Bm; now left].
    + apply IH; auto. intros j I. apply Bm. now right.
    + intros n I J. apply G3 in I. rewrite flat_map_concat_map, concat_map, map_map in J. apply in_concat in J as (x & Jx & J). apply in_map_iff in Jx as ([j o'] & <- & Jc).
      apply G3 in J. apply in_combine_l in Jc. apply Nk. replace k with j; [auto|]. eapply three_disjoint; eauto; apply Bm; [now right|now left].
  - assert (forall n, ~ In n (map fst ws) -> apply_writes s ws n = s n) as Same by (intros n; apply apply_notin). split; [exact Same|]. split.
    + intros fname n I P J. apply Same. rewrite Names. intros (k & B & Ab & J').
      assert (In n (three (nth k fnames ""%string))) as J2 by (destruct (_ =? 1)%nat; [subst n; apply three_in; auto|auto]).
      apply (In_nth _ _ ""%string) in I as (j & Bj & Ej). rewrite <- Ej in J. assert (j = k) as E by (eapply three_disjoint; eauto). subst j. congruence.
    + intros fname I. apply (In_nth _ _ ""%string) in I as (j & Bj & <-). now apply Done.
Qed.

(** The content of one file depends on its own band only: whatever other files
    existed and however the bands were batched. *)
Theorem C43_own_band e s s' fnames ws ws' k sched ptiles pifgs :
  names_ok e -> sound e s -> (forall n, tmp_names e n -> s n = s' n) ->
  run (merge_tiles e) s = (ws, Ok fnames) ->
  run (merge_tiles (reschedule e sched ptiles pifgs)) s' = (ws', Ok fnames) ->
  (k < length fnames)%nat -> absent s (nth k fnames ""%string) = true -> absent s' (nth k fnames ""%string) = true ->
  forall n, In n (map fst ws) -> In n (three (nth k fnames ""%string)) -> apply_writes s ws n = apply_writes s' ws' n.
Proof.
  intros Hn Hs Hss R R' Bk Ak Ak' n In_ws I3.
  assert (sound e s') as Hs'.
  { intros t files f T L Fl O. apply (Hs t); [|auto| |].
    - eapply tileset_ext; [|exact T]. symmetry. apply Hss. left. auto.
    - intros i f0 E. rewrite Hss by (right; left; eauto). now apply Fl.
    - rewrite Hss by (right; right; left; auto). auto. }
  pose proof R as R0. apply C43_exact in R as (_ & Ho & t & files & T & L & Fl & W); auto.
  assert (NoDup (map fst ws)) as Nw by (eapply (C43_files e s fnames ws t); eauto).
  pose proof R' as R0'. apply C43_exact in R' as (_ & Ho' & t' & files' & T' & L' & Fl' & W'); [|exact Hn|exact Hs'].
  assert (NoDup (map fst ws')) as Nw' by (eapply (C43_files (reschedule e sched ptiles pifgs) s' fnames ws' t'); eauto).
  assert (t' = t) as -> by (eapply (tileset_fun e s); [|exact T]; eapply tileset_ext; [|exact T']; symmetry; apply Hss; left; auto).
  assert (files' = files) as ->.
  { eapply (tile_files_fun e s); [congruence| |exact Fl]. intros i f E. rewrite Hss by (right; left; eauto). now apply Fl'. }
  pose proof (outputs_nodup e Hn fnames Ho) as Nd.
  assert (forall {A} (out : A -> list write) (g : nat -> res A) miss outs j o, map_res g miss = Ok outs -> In (j, o) (combine miss outs) -> g j = Ok o) as Val.
  { clear. intros A out g miss. induction miss as [|x miss IH]; intros outs j o E I; [destruct I|]. cbn [map_res] in E. destruct (g x) as [y|] eqn:Ey; [|discriminate]. cbn [bind] in E.
    destruct (map_res g miss) as [ys|] eqn:Es; [|discriminate]. cbn in E. injection E as <-. destruct I as [I|I]; [injection I as <- <-; auto|]. eauto. }
  assert (forall {A} (g : nat -> res A) miss outs j, map_res g miss = Ok outs -> In j miss -> exists o, In (j, o) (combine miss outs)) as Ex.
  { clear. intros A g miss. induction miss as [|x miss IH]; intros outs j E I; [destruct I|]. cbn [map_res] in E. destruct (g x) as [y|] eqn:Ey; [|discriminate]. cbn [bind] in E.
    destruct (map_res g miss) as [ys|] eqn:Es; [|discriminate]. cbn in E. injection E as <-. destruct I as [->|I]; [exists y; now left|]. destruct (IH ys j eq_refl I) as (o & J). exists o. now right. }
  assert (In k (missing_bands s fnames)) as M by now apply missing_lt. assert (In k (missing_bands s' fnames)) as M' by now apply missing_lt.
  apply in_map_iff in In_ws as ([n' c] & E & I). cbn in E. subst n'. rewrite (apply_in ws s n c Nw I). symmetry. apply (apply_in ws' s' n c Nw').
  destruct W as [(N & outs & E & ->)|(N & f & omap & m & bulk & r & outs & Of & Om & Md & Ob & _ & E & ->)];
  destruct W' as [(N' & outs' & E' & ->)|(N' & f' & omap' & m' & bulk' & r' & outs' & Of' & Om' & Md' & Ob' & _ & E' & ->)]; try contradiction.
  - apply in_map_iff in I as ([j o] & Ej & I). cbn [fst snd] in Ej. injection Ej as En Ec.
    assert (j = k) as ->. { eapply three_disjoint; eauto; [eapply missing_lt, in_combine_l; eauto|]. apply three_in. auto. }
    destruct (Ex _ _ _ _ k E' M') as (o' & I'). apply in_map_iff. exists (k, o'). split; [|auto]. cbn [fst snd].
    pose proof (Val _ (fun _ => []) _ _ _ k o E I) as V. pose proof (Val _ (fun _ => []) _ _ _ k o' E' I') as V'. congruence.
  - apply in_flat_map in I as ([j o] & I & Ij). cbn [fst snd] in Ij.
    assert (j = k) as ->.
    { eapply three_disjoint; eauto; [eapply missing_lt, in_combine_l; eauto|]. rewrite <- (rasters_names _ o). now apply (in_map fst) in Ij. }
    destruct (Ex _ _ _ _ k E' M') as (o' & I'). apply in_flat_map. exists (k, o'). split; [auto|]. cbn [fst snd].
    pose proof (Val _ (fun _ => []) _ _ _ k o E I) as V. pose proof (Val _ (fun _ => []) _ _ _ k o' E' I') as V'.
    cbn [e_tmp reschedule] in Of', Ob'. rewrite <- Hss in Of', Ob' by (right; right; auto). rewrite Of in Of'. injection Of' as <-. rewrite Ob in Ob'. injection Ob' as <-.
    rewrite Om in Om'. injection Om' as <-. rewrite Md in Md'. injection Md' as <-. unfold alone in V, V'. cbn [e_cg e_ilu e_triangles reschedule] in V'. congruence.
Qed.

(** After a run from an empty intermediate folder the files fit together. *)
Theorem C43_sound e s ws fn h w : names_ok e -> sched_ok e -> fresh e s -> unwrap_ok e h w -> (h * w <= 2 ^ 32)%Z ->
  (forall n l, length (e_components e n l) = n) -> run (main e) s = (ws, Ok fn) -> sound e (apply_writes s ws).
Proof.
  intros Hn Hsch Hf Hu Hh Hc R. apply main_done in R as (w1 & w2 & w3 & w4 & w5 & t & R1 & R2 & R3 & R4 & R5 & T & _ & ->).
  eapply fresh_sound; eauto.
Qed.

(** * C44 *)

(** A second run, with any settings, schedule and solvers, as long as folders,
    dates and interferograms are the same, writes nothing. *)
Theorem C44_quiet e e' s ws fn : names_ok e -> sched_ok e -> sched_ok e' ->
  e_tmp e' = e_tmp e -> e_out e' = e_out e -> e_dates e' = e_dates e -> e_ifgs e' = e_ifgs e ->
  run (main e) s = (ws, Ok fn) -> fst (run (main e') (apply_writes s ws)) = [].
Proof.
  intros Hn Hsch Hsch' Et Eo Ed Ei R. apply main_done in R as (w1 & w2 & w3 & w4 & w5 & t & R1 & R2 & R3 & R4 & R5 & T & _ & ->).
  apply (quiet_main e' _ t); [auto|..].
  - pose proof (tsF e Hn s w1 w2 w3 w4 w5 fn R2 R3 R4 R5 t T) as (x & X & P). exists x. split; [now rewrite Et|auto].
  - intros i B. rewrite Et. destruct (done_tile e Hn Hsch s w1 w2 w3 w4 w5 fn R1 R2 R3 R4 R5 t T i) as [_ D]. now destruct (D B).
  - intros N. rewrite Et. destruct (done_over e Hn s w1 w2 w3 w4 w5 fn R1 R2 R3 R4 R5 t T) as [_ D]. destruct (done_bulk e Hn s w1 w2 w3 w4 w5 fn R1 R2 R3 R4 R5 t T) as [_ B].
    now destruct (D N), (B N).
  - intros fn' k Ho B. pose proof (outputs e s w1 w2 w3 w4 w5 fn R5) as O. unfold output_files in Ho, O. rewrite Eo, Ed, Ei in Ho. assert (fn' = fn) as -> by congruence.
    now apply (merge_done e _ _ _ R5).
Qed.

(** With the same settings, or other parallelism, it succeeds with the same
    result. *)
Theorem C44_again e s ws fn sched ptiles pifgs : names_ok e -> sched_ok e -> (forall l, Permutation (sched l) l) -> (0 < ptiles)%Z ->
  run (main e) s = (ws, Ok fn) -> sound e (apply_writes s ws) ->
  run (main (reschedule e sched ptiles pifgs)) (apply_writes s ws) = ([], Ok fn).
Proof.
  intros Hn Hsch Hs Hp R So. pose proof (C44_quiet e (reschedule e sched ptiles pifgs) s ws fn Hn Hsch Hs eq_refl eq_refl eq_refl eq_refl R) as Qt.
  apply main_done in R as (w1 & w2 & w3 & w4 & w5 & t & R1 & R2 & R3 & R4 & R5 & T & _ & E). rewrite E in *.
  destruct (resume e Hn Hsch s w1 w2 w3 w4 w5 fn R1 R2 R3 R4 R5 t T So sched ptiles pifgs Hs Hp _ (fun n => or_intror eq_refl)) as (v & V & _).
  rewrite V in Qt |- *. cbn in Qt. now rewrite Qt.
Qed.

(** * C45 *)

(** Run again from any state in which every file is either as before the first
    run or as after it. The second run succeeds, with any parallelism, and leaves
    the files of the first run. Missing: the difference and model rasters of an
    interferogram whose phase raster was already there; they are not redone. *)
Theorem C45_resume_partial e s c ws fn sched ptiles pifgs : names_ok e -> sched_ok e -> (forall l, Permutation (sched l) l) -> (0 < ptiles)%Z ->
  run (main e) s = (ws, Ok fn) -> sound e (apply_writes s ws) ->
  (forall n, c n = s n \/ c n = apply_writes s ws n) ->
  exists v, run (main (reschedule e sched ptiles pifgs)) c = (v, Ok fn) /\
    (forall n, apply_writes c v n = apply_writes s ws n \/ apply_writes c v n = s n /\ c n = s n /\ interrupted s c fn n) /\
    ((forall n, interrupted s c fn n -> c n = apply_writes s ws n) -> same_files (apply_writes c v) (apply_writes s ws)).
Proof.
  intros Hn Hsch Hs Hp R So Hc. apply main_done in R as (w1 & w2 & w3 & w4 & w5 & t & R1 & R2 & R3 & R4 & R5 & T & _ & E). rewrite E in *.
  destruct (resume e Hn Hsch s w1 w2 w3 w4 w5 fn R1 R2 R3 R4 R5 t T So sched ptiles pifgs Hs Hp c Hc) as (v & V & D).
  exists v. split; [auto|]. split; [auto|]. intros H n. destruct (D n) as [|(A & B & I)]; [auto|]. rewrite A, <- B. now apply H.
Qed.

(** A run that stops between two writes, other than those of the overlap file:
    the second run succeeds and leaves the files of an uninterrupted run, except
    for the difference and model rasters of at most one interferogram. *)
Theorem C45_crash_partial e s pre suf fn sched ptiles pifgs :
  let c := apply_writes s pre in let done := apply_writes s (pre ++ suf) in
  names_ok e -> sched_ok e -> (forall l, Permutation (sched l) l) -> (0 < ptiles)%Z ->
  run (main e) s = (pre ++ suf, Ok fn) -> sound e done ->
  c (overlap_filename (e_tmp e)) = s (overlap_filename (e_tmp e)) \/ (exists f, c (overlap_filename (e_tmp e)) = Some (COverlaps f)) ->
  exists v b, run (main (reschedule e sched ptiles pifgs)) c = (v, Ok fn) /\ (length b <= 1)%nat /\
    forall n, apply_writes c v n = done n \/
      apply_writes c v n = s n /\ exists fname, In fname b /\ In fname fn /\ absent s fname = true /\ (n = diff_filename fname \/ n = model_filename fname).
Proof.
  intros c done Hn Hsch Hs Hp R So Ho. unfold done in *. pose proof (main_done _ _ _ _ R) as (w1 & w2 & w3 & w4 & w5 & t & R1 & R2 & R3 & R4 & R5 & T & Ew & E). rewrite E in *.
  assert (forall n, c n = s n \/ c n = apply_writes s (pre ++ suf) n) as Hc.
  { rewrite E. exact (crash_between e Hn Hsch s w1 w2 w3 w4 w5 fn R1 R2 R3 R4 R5 t T So pre suf (eq_sym Ew) Ho). }
  destruct (crash_one e Hn Hsch s w1 w2 w3 w4 w5 fn R1 R2 R3 R4 R5 t T So pre suf (eq_sym Ew) Ho) as (b & Lb & B).
  rewrite <- E in So. destruct (C45_resume_partial e s c _ fn sched ptiles pifgs Hn Hsch Hs Hp R So Hc) as (v & V & D & _). rewrite E in D.
  exists v, (filter (fun n => absent s n) b). split; [auto|]. split; [clear -Lb; induction b as [|x [|y b] _]; cbn in *; [lia|destruct (absent s x); cbn; lia|lia]|]. intros n. destruct (D n) as [|(A & Ac & I)]; [auto|].
  destruct (B n I) as [Y|(fname & I1 & I2 & I3)]; [left; now rewrite A, <- Ac|]. right. split; [auto|]. exists fname.
  destruct I as (f' & J1 & J2 & _ & J4). assert (f' = fname) as ->.
  { pose proof (outputs_nodup e Hn fn (outputs e s w1 w2 w3 w4 w5 fn R5)) as Nd.
    apply (In_nth _ _ ""%string) in J1 as (i & Bi & Ei). apply (In_nth _ _ ""%string) in I2 as (j & Bj & Ej). rewrite <- Ei, <- Ej. f_equal.
    apply (three_disjoint fn Nd i j n); auto; apply three_in; [rewrite Ei|rewrite Ej]; tauto. }
  split; [apply filter_In; auto|]. auto.
Qed.

(** One tile: the run can be resumed from every point. *)
Theorem C45_single e s pre suf fn t sched ptiles pifgs :
  let c := apply_writes s pre in let done := apply_writes s (pre ++ suf) in
  names_ok e -> sched_ok e -> (forall l, Permutation (sched l) l) -> (0 < ptiles)%Z ->
  run (main e) s = (pre ++ suf, Ok fn) -> sound e done -> tileset_of e done t -> ntiles t = 1%nat ->
  exists v, run (main (reschedule e sched ptiles pifgs)) c = (v, Ok fn) /\ same_files (apply_writes c v) done.
Proof.
  intros c done Hn Hsch Hs Hp R So Ht N1. unfold done in *. pose proof (main_done _ _ _ _ R) as (w1 & w2 & w3 & w4 & w5 & t' & R1 & R2 & R3 & R4 & R5 & T & Ew & E). rewrite E in *.
  assert (t' = t) as -> by (eapply tileset_fun; [|exact Ht]; eapply tsF; eauto).
  assert (forall n fname, In fname fn -> n = diff_filename fname \/ n = model_filename fname -> apply_writes (apply_writes (apply_writes (apply_writes (apply_writes s w1) w2) w3) w4) w5 n = s n) as Fr.
  { intros n fname I D. pose proof (outputs_nodup e Hn fn (outputs e s w1 w2 w3 w4 w5 fn R5)) as Nd.
    destruct (tilesets e Hn s w1 w2 w3 w4 w5 fn R2 R3 R4 R5 t T) as (_ & _ & _ & T4).
    destruct (C43_files e _ fn w5 t Hn (sound4 e Hn s w1 w2 w3 w4 w5 fn R1 R2 R3 R4 R5 t T So) T4 R5) as (_ & _ & Names & Same & _).
    rewrite Same.
    - apply (other_same e s w1 w2 w3 w4 R1 R2 R3 R4). apply (outputs_tmp e Hn fn (outputs e s w1 w2 w3 w4 w5 fn R5)). apply in_flat_map. exists fname. split; [auto|]. apply three_in. tauto.
    - rewrite Names, N1. cbn [Nat.eqb]. intros (k & Bk & _ & En). apply (In_nth _ _ ""%string) in I as (j & Bj & Ej).
      assert (k = j) as -> by (apply (three_disjoint fn Nd k j n); auto; apply three_in; [auto|rewrite Ej; tauto]).
      pose proof (nodup_part three fn _ Nd (nth_In fn ""%string Bj)) as N3. rewrite En, Ej in *. unfold three in N3. apply NoDup_cons_iff in N3 as [N3 _]. apply N3. cbn. destruct D; auto. }
  assert (c (overlap_filename (e_tmp e)) = s (overlap_filename (e_tmp e))) as Ho.
  { apply apply_notin. intros I. assert (In (overlap_filename (e_tmp e)) (map fst (w1 ++ w2 ++ w3 ++ w4 ++ w5))) as J by (rewrite <- Ew, map_app; apply in_or_app; auto).
    destruct (over_same e Hn s w1 w2 w3 w4 w5 fn R1 R2 R4 R5) as (_ & _ & Es2). destruct (tilesets e Hn s w1 w2 w3 w4 w5 fn R2 R3 R4 R5 t T) as (_ & T2 & _).
    assert (w3 = []) as W3.
    { destruct (overlaps_inv e _ _ R3) as [(_ & ->)|(_ & t0 & T0 & [(_ & ->)|(N & _)])]; auto. exfalso. apply N. now rewrite (tileset_fun _ _ _ _ T0 T2). }
    apply in_map_iff in J as (x & Ex & J). rewrite W3 in *. cbn [app] in J. destruct (tmp_distinct e 0) as (_ & _ & _ & D4 & _ & D6).
    apply in_app_or in J as [J|J].
    { apply D4. rewrite <- Ex. symmetry. apply (only_run _ _ s (frame_tiles e)). now rewrite R1. }
    apply in_app_or in J as [J|J].
    { assert (exists i, fst x = tile_filename (e_tmp e) i) as (i & Ei) by (apply (only_run _ _ (apply_writes s w1) (frame_unwrap e)); now rewrite R2).
      apply (proj1 (proj2 (tmp_distinct e i))). congruence. }
    apply in_app_or in J as [J|J].
    { apply D6. rewrite <- Ex. eapply (only_run _ _ _ (frame_offsets e)). now rewrite R4. }
    pose proof (only_run _ _ (apply_writes (apply_writes (apply_writes (apply_writes s w1) w2) []) w4) (frame_merge e s w1 w2 [] w4 w5 fn R5) x) as K. rewrite R5 in K. cbn [fst] in K. specialize (K J). rewrite Ex in K.
    destruct K as [K|K]; [|now apply (tmp_nonempty e _ (tmp_over e) K)]. apply (outputs_tmp e Hn fn (outputs e s w1 w2 [] w4 w5 fn R5) _ K), tmp_over. }
  destruct (C45_resume_partial e s c _ fn sched ptiles pifgs Hn Hsch Hs Hp R) as (v & V & D & _); [now rewrite E|rewrite E; exact (crash_between e Hn Hsch s w1 w2 w3 w4 w5 fn R1 R2 R3 R4 R5 t T So pre suf (eq_sym Ew) (or_introl Ho))|].
  exists v. split; [auto|]. intros n. destruct (D n) as [X|(X & _ & (fname & I & _ & _ & Dn))]; [rewrite X; now rewrite E|]. rewrite X. symmetry. now apply (Fr n fname).
Qed.

(** * C46 *)

(** Bad number of processes. *)
Theorem C46_invalid e s t : tileset_of e s t -> (e_parallel_tiles e <= 0)%Z -> run (unwrap_tiles e) s = ([], Err ValueError).
Proof. intros T P. rewrite (unwrap_run e s t T). now destruct (Z.leb_spec (e_parallel_tiles e) 0); [|lia]. Qed.

(** What is on disk afterwards, whether or not some tiles failed: the files that
    were there, and the file of every missing tile that could be unwrapped. It
    does not depend on the schedule. *)
Theorem C46_files e s t : sched_ok e -> tileset_of e s t -> (0 < e_parallel_tiles e)%Z ->
  let after := apply_writes s (fst (run (unwrap_tiles e) s)) in
  (forall i, (i < ntiles t)%nat -> s (tile_filename (e_tmp e) i) = None ->
     after (tile_filename (e_tmp e) i) = match e_unwrap e (tile_at t i) with Ok f => Some (CTile f) | Err _ => None end) /\
  (forall n, s n <> None -> after n = s n) /\
  (forall n, (forall i, (i < ntiles t)%nat -> n <> tile_filename (e_tmp e) i) -> after n = s n) /\
  (snd (run (unwrap_tiles e) s) = Ok tt <-> forall i, (i < ntiles t)%nat -> s (tile_filename (e_tmp e) i) = None -> exists f, e_unwrap e (tile_at t i) = Ok f) /\
  (forall x, snd (run (unwrap_tiles e) s) = Err x -> exists i, (i < ntiles t)%nat /\ s (tile_filename (e_tmp e) i) = None /\ e_unwrap e (tile_at t i) = Err x).
Proof.
  intros Hs T P. rewrite (unwrap_run e s t T). destruct (Z.leb_spec (e_parallel_tiles e) 0) as [|_]; [lia|]. cbn [fst snd].
  destruct (sched_missing e Hs t s) as [Nd Im]. set (order := e_sched e (missing_tiles e s t)) in *.
  assert (forall i, In i order <-> (i < ntiles t)%nat /\ s (tile_filename (e_tmp e) i) = None) as Io.
  { intros i. rewrite Im, missing_tile_in, absent_true. tauto. }
  assert (forall n, (forall i, (i < ntiles t)%nat -> s n = None -> n <> tile_filename (e_tmp e) i) -> apply_writes s (finished e t order) n = s n) as Oth.
  { intros n H. apply finished_other. intros i f I _ E. apply Io in I as [B I]. apply (H i B); congruence. }
  assert (forall l x, In x (flat_map (fun i => match task e t i with Ok _ => [] | Err x => [x] end) l) <-> exists i, In i l /\ task e t i = Err x) as Er.
  { intros l x. rewrite in_flat_map. split; intros (i & I & H); exists i; (split; [auto|]).
    - destruct (task e t i); [destruct H|]. destruct H as [->|[]]. auto.
    - rewrite H. now left. }
  split; [|split; [|split; [|split]]].
  - intros i B A. change (e_unwrap e (tile_at t i)) with (task e t i). destruct (task e t i) as [f|x] eqn:E.
    + apply finished_at; [exact Nd|now apply Io|exact E].
    + rewrite finished_other; [exact A|]. intros j f I Ej En. apply tile_name_inj in En. congruence.
  - intros n H. apply Oth. intros i _ A. contradiction.
  - intros n H. apply Oth. intros i B _. now apply H.
  - unfold first_error. specialize (Er order). destruct (flat_map _ order) as [|x l] eqn:El; cbn [hd_error].
    + split; [|auto]. intros _ i B A. change (e_unwrap e (tile_at t i)) with (task e t i). destruct (task e t i) as [f|x] eqn:E; [eauto|]. exfalso. apply (proj2 (Er x)). exists i. split; [now apply Io|auto].
    + split; [discriminate|]. intros H. exfalso. destruct (proj1 (Er x) (or_introl eq_refl)) as (i & I & E). apply Io in I as [B A]. destruct (H i B A) as (f & Ef). unfold task in E. unfold tile_at in Ef. congruence.
  - intros x. unfold first_error. specialize (Er order). destruct (flat_map _ order) as [|y l] eqn:El; cbn [hd_error]; [discriminate|]. intros H. injection H as ->.
    destruct (proj1 (Er x) (or_introl eq_refl)) as (i & I & E). apply Io in I as [B A]. exists i. auto.
Qed.

(** Two schedules or two numbers of processes: the same files, and either both
    fail or both succeed. *)
Theorem C46_schedule e s t sched ptiles pifgs : sched_ok e -> (forall l, Permutation (sched l) l) -> tileset_of e s t ->
  (0 < e_parallel_tiles e)%Z -> (0 < ptiles)%Z ->
  same_files (apply_writes s (fst (run (unwrap_tiles e) s))) (apply_writes s (fst (run (unwrap_tiles (reschedule e sched ptiles pifgs)) s))) /\
  (snd (run (unwrap_tiles e) s) = Ok tt <-> snd (run (unwrap_tiles (reschedule e sched ptiles pifgs)) s) = Ok tt).
Proof.
  intros Hs Hs' T P P'. destruct (C46_files e s t Hs T P) as (A & B & C & D & _).
  destruct (C46_files (reschedule e sched ptiles pifgs) s t Hs' T P') as (A' & B' & C' & D' & _). cbn [e_tmp e_unwrap reschedule] in A', C', D'.
  split; [|rewrite D, D'; reflexivity]. intros n. destruct (s n) as [x|] eqn:E; [rewrite B, B' by congruence; reflexivity|].
  destruct (find (fun i => String.eqb n (tile_filename (e_tmp e) i)) (seq 0 (ntiles t))) as [i|] eqn:Ef.
  - apply find_some in Ef as [I En]. apply String.eqb_eq in En. subst n. apply in_seq in I. rewrite A, A' by (auto; lia). reflexivity.
  - assert (forall i, (i < ntiles t)%nat -> n <> tile_filename (e_tmp e) i) as H.
    { intros i L En. assert (String.eqb n (tile_filename (e_tmp e) i) = false) as K by (apply (find_none _ _ Ef); apply in_seq; lia). rewrite <- En, String.eqb_refl in K. discriminate. }
    rewrite C, C' by auto. reflexivity.
Qed.

(** * Cases *)
(** Eight rows cut into four tiles, which are then grown; the two that
    share points differ by a cycle in the second band. The solvers are stubs. *)
Definition wf_points (b : bbox) : list (Z * Z) :=
  map (fun c => ((if xmax b =? 2 then 0 else if xmax b =? 8 then 4 else 3 - xmin b) + Z.of_nat c mod 2, Z.of_nat c)%Z) (seq 0 12).
Definition wf_unwrap (b : bbox) : res tile_file :=
  Ok (TileFile (wf_points b) b [map (fun x => inject_Z (snd x)) (wf_points b); map (fun x => inject_Z (snd x) + (if (xmax b =? 7)%Z then twopi else 0))%Q (wf_points b)] [0; 0]%Q).
Definition wf_triangles (p : list (Z * Z)) : res (list (nat * nat * nat)) :=
  Ok (map (fun i => (i, i + 1, i + 2)%nat) (seq 0 (length p - 2))).
Definition wf_env (use : bool) (ifgs : list (nat * nat)) : env :=
  Env "tmp" "out" ["20200101"; "20200113"; "20200125"]%string ifgs (repeat (repeat true 12) 8) wf_unwrap (@rev nat)
      use (TilerSettings 12 16 100 1%Q) 2 11 "dirichlet" "L2" 1 pick_rows (fun _ => 2%Z) (fun n _ => firstn n ([0; 1; 1; 2] ++ seq 0 n)%nat)
      (fun _ => None) (fun _ b => [0; 0; nth 0 b 0; 0]%Q) (fun _ b => map (fun _ => 1 # 3)%Q b) (fun _ => true) wf_triangles.
Definition wf_empty : fs := fun _ => None.

Example wf_names use : names_ok (wf_env use [(0, 1); (1, 2)]%nat).
Proof.
  split; [|split; [|split]].
  - repeat constructor; cbn; intuition discriminate.
  - repeat constructor; cbn; intuition discriminate.
  - intros d I. cbn in I. destruct I as [<-|[<-|[<-|[]]]]; reflexivity.
  - intros d1 d2 I1 I2. cbn in I1, I2. destruct I1 as [<-|[<-|[<-|[]]]], I2 as [<-|[<-|[<-|[]]]]; reflexivity.
Qed.

Example wf_sched use ifgs : sched_ok (wf_env use ifgs).
Proof. intros l. apply Permutation_sym, Permutation_rev. Qed.
Example wf_comps use ifgs n l : length (e_components (wf_env use ifgs) n l) = n.
Proof. cbn [e_components wf_env]. rewrite firstn_length, app_length, seq_length. lia. Qed.
Example wf_fresh use ifgs : fresh (wf_env use ifgs) wf_empty.
Proof. intros n _. reflexivity. Qed.
Lemma wf_tile_ok b f : In b [BBox 0 0 2 12; BBox 0 0 5 12; BBox 1 0 7 12; BBox 2 0 8 12; BBox 0 0 8 12]%Z -> wf_unwrap b = Ok f ->
  tf_tile f = b /\ file_ok f /\ NoDup (tf_points f) /\ in_grid 8 12 (file_coords f).
Proof.
  intros I E. unfold wf_unwrap in E. injection E as <-. split; [reflexivity|]. split; [|split].
  - intros r [<-|[<-|[]]]; reflexivity.
  - cbn [tf_points]. unfold wf_points. apply FinFun.Injective_map_NoDup; [|apply seq_NoDup]. intros x y H. injection H as _ H. lia.
  - intros r c J. destruct I as [<-|[<-|[<-|[<-|[<-|[]]]]]]; cbn in J; repeat (destruct J as [J|J]; [injection J as <- <-; lia|]); destruct J.
Qed.
Example wf_unwrap_ok use ifgs : unwrap_ok (wf_env use ifgs) 8 12.
Proof.
  intros t b f G I E. apply (wf_tile_ok b f); [|exact E]. destruct use; vm_compute in G; injection G as <-; cbn [tiles] in I; cbn in I |- *; tauto.
Qed.
Definition wf_outs : list string := ["out/20200101_20200113.unw.tif"; "out/20200113_20200125.unw.tif"]%string.
Definition wf_ifgs : list (nat * nat) := [(0, 1); (1, 2)]%nat.
Definition wf_ws (use : bool) : list write := fst (run (main (wf_env use wf_ifgs)) wf_empty).
Lemma wf_runs use : run (main (wf_env use wf_ifgs)) wf_empty = (wf_ws use, Ok wf_outs).
Proof.
  assert (snd (run (main (wf_env use wf_ifgs)) wf_empty) = Ok wf_outs) as H by (destruct use; vm_compute; reflexivity).
  rewrite <- H. apply surjective_pairing.
Qed.

(** A run with four tiles and a run with one succeed from nothing, and their
    files fit together: the hypotheses of C43 - C45 hold. *)
Example C45_witness use : run (main (wf_env use wf_ifgs)) wf_empty = (wf_ws use, Ok wf_outs) /\ sound (wf_env use wf_ifgs) (apply_writes wf_empty (wf_ws use)) /\
  length (wf_ws use) = (if use then 14 else 4)%nat.
Proof.
  split; [apply wf_runs|]. split; [|destruct use; vm_compute; reflexivity].
  apply (C43_sound _ _ _ wf_outs 8 12); [apply wf_names|apply wf_sched|apply wf_fresh|apply wf_unwrap_ok|lia|apply wf_comps|apply wf_runs].
Qed.
Example C43_witness : exists ws, run (merge_tiles (wf_env true wf_ifgs)) (apply_writes wf_empty (firstn 9 (wf_ws true))) = (ws, Ok wf_outs) /\
  map fst ws = three "out/20200113_20200125.unw.tif".
Proof.
  assert (snd (run (merge_tiles (wf_env true wf_ifgs)) (apply_writes wf_empty (firstn 9 (wf_ws true)))) = Ok wf_outs) as H by (vm_compute; reflexivity).
  exists (fst (run (merge_tiles (wf_env true wf_ifgs)) (apply_writes wf_empty (firstn 9 (wf_ws true))))). split; [rewrite <- H; apply surjective_pairing|vm_compute; reflexivity].
Qed.
Example C44_witness use : run (main (reschedule (wf_env use wf_ifgs) (fun l => l) 7 0)) (apply_writes wf_empty (wf_ws use)) = ([], Ok wf_outs).
Proof.
  apply (C44_again _ _ _ _ _ _ _ (wf_names use) (wf_sched _ _)); [auto|lia|apply wf_runs|apply C45_witness].
Qed.

(** Stopping while the overlap file is being written: the next run takes the
    file for complete and fails. *)
Theorem C45_overlap_refuted : exists e s pre suf fn, names_ok e /\ sched_ok e /\ fresh e s /\
  run (main e) s = (pre ++ suf, Ok fn) /\ sound e (apply_writes s (pre ++ suf)) /\
  snd (run (main e) (apply_writes s pre)) = Err KeyError.
Proof.
  exists (wf_env true wf_ifgs), wf_empty, (firstn 6 (wf_ws true)), (skipn 6 (wf_ws true)), wf_outs. rewrite firstn_skipn.
  split; [apply wf_names|]. split; [apply wf_sched|]. split; [apply wf_fresh|]. split; [apply wf_runs|]. split; [apply C45_witness|]. vm_compute. reflexivity.
Qed.
(** Stopping between the rasters of an interferogram: the next run succeeds but
    leaves out the difference raster. *)
Theorem C45_raster_refuted : exists e s pre suf fn n, names_ok e /\ sched_ok e /\ fresh e s /\
  run (main e) s = (pre ++ suf, Ok fn) /\ sound e (apply_writes s (pre ++ suf)) /\
  snd (run (main e) (apply_writes s pre)) = Ok fn /\
  apply_writes s (pre ++ suf) n <> None /\
  apply_writes (apply_writes s pre) (fst (run (main e) (apply_writes s pre))) n = None.
Proof.
  exists (wf_env true wf_ifgs), wf_empty, (firstn 9 (wf_ws true)), (skipn 9 (wf_ws true)), wf_outs, "out/20200101_20200113.unw_diff.tif"%string. rewrite firstn_skipn.
  split; [apply wf_names|]. split; [apply wf_sched|]. split; [apply wf_fresh|]. split; [apply wf_runs|]. split; [apply C45_witness|].
  split; [vm_compute; reflexivity|]. split; [|vm_compute; reflexivity].
  assert (absent (apply_writes wf_empty (wf_ws true)) "out/20200101_20200113.unw_diff.tif"%string = false) as H by (vm_compute; reflexivity).
  unfold absent in H. destruct (apply_writes _ _ _); [discriminate|discriminate].
Qed.

(** Tile 1 exists, tile 2 fails; the others are written. *)
Definition wf_state : fs := store (store wf_empty ("tmp/tiles.json"%string, CText (to_json (TileSet (8, 12)%Z [BBox 0 0 2 12; BBox 0 0 5 12; BBox 1 0 7 12; BBox 2 0 8 12]%Z))))
  ("tmp/uw_tile_01.h5"%string, CGroups []).
Definition wf_fails : env :=
  let e := wf_env true wf_ifgs in
  Env (e_tmp e) (e_out e) (e_dates e) (e_ifgs e) (e_valid e) (fun b => if (xmin b =? 1)%Z then Err RuntimeError else wf_unwrap b) (e_sched e) (e_use_tiles e) (e_tiler e) 3
      (e_min_overlap e) (e_method e) (e_bulk_method e) 0 (e_pick e) (e_root e) (e_components e) (e_mip e) (e_lsq e) (e_cg e) (e_ilu e) (e_triangles e).
Example C46_witness : sched_ok wf_fails /\ tileset_of wf_fails wf_state (TileSet (8, 12)%Z [BBox 0 0 2 12; BBox 0 0 5 12; BBox 1 0 7 12; BBox 2 0 8 12]%Z) /\
  (0 < e_parallel_tiles wf_fails)%Z /\ map fst (fst (run (unwrap_tiles wf_fails) wf_state)) = ["tmp/uw_tile_03.h5"; "tmp/uw_tile_00.h5"]%string /\
  snd (run (unwrap_tiles wf_fails) wf_state) = Err RuntimeError.
Proof.
  split; [apply (wf_sched true wf_ifgs)|]. split; [eexists; split; [reflexivity|apply C31_roundtrip]|]. split; [reflexivity|]. split; vm_compute; reflexivity.
Qed.

Print Assumptions C43_exact.
Print Assumptions C43_files.
Print Assumptions C43_own_band.
Print Assumptions C43_sound.
Print Assumptions C44_quiet.
Print Assumptions C44_again.
Print Assumptions C45_resume_partial.
Print Assumptions C45_crash_partial.
Print Assumptions C45_single.
Print Assumptions C45_overlap_refuted.
Print Assumptions C45_raster_refuted.
Print Assumptions C46_invalid.
Print Assumptions C46_files.
Print Assumptions C46_schedule.
