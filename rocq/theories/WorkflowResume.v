(** Running the workflow again on top of part of its own results. *)
From Verif Require Import Base BaseLemmas PoolProofs TileModel JsonModel NamesModel NamesProofs OverlapModel BulkModel BulkProofs MergeModel MergeSpec
  AdjustProofs MergeBatchProofs WorkflowModel WorkflowSpec WorkflowProofs WorkflowSteps WorkflowMerge WorkflowMain.
From Coq Require Import List ZifyBool Permutation.
Import ListNotations.
Set Default Goal Selector "!".

Lemma NoDup_app_disj {A} (a b : list A) x : NoDup (a ++ b) -> In x a -> In x b -> False.
Proof.
  induction a as [|y a IH]; cbn; intros N H K; [auto|]. apply NoDup_cons_iff in N as [N1 N2]. destruct H as [->|H]; [|auto]. apply N1, in_or_app. auto.
Qed.
Lemma map_res_sub {A B} (g : A -> res B) (p : A -> bool) l bs : map_res g l = Ok bs ->
  map_res g (filter p l) = Ok (map snd (filter (fun ab => p (fst ab)) (combine l bs))).
Proof.
  revert bs. induction l as [|a l IH]; intros bs H; cbn [map_res] in H; [injection H as <-; reflexivity|].
  destruct (g a) as [b|] eqn:E; [|discriminate]. cbn [bind] in H. destruct (map_res g l) as [bs'|]; [|discriminate]. cbn in H. injection H as <-.
  cbn [filter combine fst]. destruct (p a); cbn [map_res map snd]; rewrite ?E, (IH bs' eq_refl); reflexivity.
Qed.
Lemma combine_sub {A B} (p : A -> bool) (l : list A) (bs : list B) : length bs = length l ->
  combine (filter p l) (map snd (filter (fun ab => p (fst ab)) (combine l bs))) = filter (fun ab => p (fst ab)) (combine l bs).
Proof.
  revert bs. induction l as [|a l IH]; intros [|b bs] L; try discriminate; [reflexivity|]. cbn [filter combine fst].
  destruct (p a); cbn [map snd combine]; rewrite IH by (cbn in L; lia); reflexivity.
Qed.

Section Resume.
  Context (e : env).
  Hypothesis Hn : names_ok e.
  Hypothesis Hsch : sched_ok e.
  Notation json := (tiles_jsonname (e_tmp e)).
  Notation tname := (tile_filename (e_tmp e)).
  Notation oname := (overlap_filename (e_tmp e)).
  Notation bname := (offsets_filename (e_tmp e)).
  Variables (s : fs) (w1 w2 w3 w4 w5 : list write) (fn : list string).
  Notation s1 := (apply_writes s w1).
  Notation s2 := (apply_writes s1 w2).
  Notation s3 := (apply_writes s2 w3).
  Notation s4 := (apply_writes s3 w4).
  Notation F := (apply_writes s4 w5).
  Hypothesis R1 : run (get_tiles_step e) s = (w1, Ok tt).
  Hypothesis R2 : run (unwrap_tiles e) s1 = (w2, Ok tt).
  Hypothesis R3 : run (overlaps_step e) s2 = (w3, Ok tt).
  Hypothesis R4 : run (offsets_step e) s3 = (w4, Ok tt).
  Hypothesis R5 : run (merge_tiles e) s4 = (w5, Ok fn).
  Variable t : tileset.
  Hypothesis Ht : tileset_of e s1 t.
  Hypothesis Hso : sound e F.

  Variables (sched : list nat -> list nat) (ptiles pifgs : Z).
  Hypothesis Hsched : forall l, Permutation (sched l) l.
  Hypothesis Hpt : (0 < ptiles)%Z.
  Notation e' := (reschedule e sched ptiles pifgs).
  Variable c : fs.
  Hypothesis Hc : forall n, c n = s n \/ c n = F n.

  Notation DJ := (done_json e Hn s w1 w2 w3 w4 w5 fn R1 R2 R3 R4 R5 t Ht).
  Notation DT := (done_tile e Hn Hsch s w1 w2 w3 w4 w5 fn R1 R2 R3 R4 R5 t Ht).
  Notation DO := (done_over e Hn s w1 w2 w3 w4 w5 fn R1 R2 R3 R4 R5 t Ht).
  Notation DB := (done_bulk e Hn s w1 w2 w3 w4 w5 fn R1 R2 R3 R4 R5 t Ht).

  Lemma tsF : tileset_of e F t.
  Proof using Hn R2 R3 R4 R5 Ht. apply (tilesets e Hn s w1 w2 w3 w4 w5 fn R2 R3 R4 R5 t Ht). Qed.

  Lemma again1 : exists v, run (get_tiles_step e') c = (v, Ok tt) /\ apply_writes c v json = F json.
  Proof using Hn R1 R2 R3 R4 R5 Ht Hc.
    destruct DJ as (A & B & C). rewrite get_tiles_run. cbn [e_tmp e_pick e_root e_use_tiles e_tiler e_valid reschedule].
    destruct (absent c json) eqn:E.
    - assert (absent s json = true) as As.
      { destruct (Hc json) as [X|X]; [now rewrite <- (absent_ext _ _ _ X)|]. rewrite (absent_ext _ _ _ X) in E. congruence. }
      destruct (C As) as (t' & G & X). rewrite G. eexists. split; [reflexivity|]. rewrite X. cbn. unfold store. cbn. now rewrite String.eqb_refl.
    - eexists. split; [reflexivity|]. cbn. destruct (Hc json) as [X|X]; [|auto]. rewrite X. symmetry. apply B. now rewrite <- (absent_ext _ _ _ X).
  Qed.

  Lemma again2 c1 : c1 json = F json -> (forall n, n <> json -> c1 n = c n) ->
    exists v, run (unwrap_tiles e') c1 = (v, Ok tt) /\ (forall i, (i < ntiles t)%nat -> apply_writes c1 v (tname i) = F (tname i)) /\
      forall n, (forall i, (i < ntiles t)%nat -> n <> tname i) -> apply_writes c1 v n = c1 n.
  Proof using Hn Hsch R1 R2 R3 R4 R5 Ht Hc Hsched Hpt.
    intros J Fr. assert (tileset_of e' c1 t) as T by (eapply tileset_ext; [symmetry; exact J|apply tsF]).
    assert (forall i, c1 (tname i) = c (tname i)) as Fi by (intros i; apply Fr, (tmp_distinct e i)).
    assert (forall i, In i (missing_tiles e' c1 t) -> (i < ntiles t)%nat /\ exists f, task e' t i = Ok f /\ F (tname i) = Some (CTile f)) as M.
    { intros i I. apply missing_tile_in in I as [L A]. change (e_tmp e') with (e_tmp e) in A. rewrite (absent_ext _ _ _ (Fi i)) in A. split; [auto|].
      destruct (DT i) as [_ D]. destruct (D L) as [D1 D2]. apply D2.
      destruct (Hc (tname i)) as [X|X]; [now rewrite <- (absent_ext _ _ _ X)|]. rewrite (absent_ext _ _ _ X) in A. congruence. }
    assert (forall i, In i (e_sched e' (missing_tiles e' c1 t)) <-> In i (missing_tiles e' c1 t)) as P.
    { intros i. split; apply Permutation_in; [apply Hsched|apply Permutation_sym, Hsched]. }
    assert (NoDup (e_sched e' (missing_tiles e' c1 t))) as Nd by (eapply Permutation_NoDup; [apply Permutation_sym, Hsched|]; apply NoDup_filter, seq_NoDup).
    assert (first_error e' t (e_sched e' (missing_tiles e' c1 t)) = None) as Er.
    { unfold first_error. assert (forall l, (forall i, In i l -> exists f, task e' t i = Ok f) ->
        flat_map (fun i => match task e' t i with Ok _ => [] | Err x => [x] end) l = []) as K.
      { induction l as [|i l IH]; intros H; [auto|]. cbn [flat_map]. destruct (H i (or_introl eq_refl)) as (f & ->). apply IH. intros j I. apply H. now right. }
      rewrite K; [auto|]. intros i I. apply P, M in I as (_ & f & X & _). eauto. }
    eexists. split.
    - rewrite (unwrap_run e' c1 t T), Er. cbn [e_parallel_tiles reschedule]. destruct (Z.leb_spec ptiles 0); [lia|]. reflexivity.
    - split; [|intros n H; apply finished_other; intros i f Ii _; apply H, M, P, Ii]. intros i L. destruct (in_dec Nat.eq_dec i (missing_tiles e' c1 t)) as [I|I].
      + destruct (M i I) as (_ & f & Tf & X). rewrite X. apply (finished_at e'); auto. now apply P.
      + rewrite finished_other.
        * rewrite Fi. destruct (Hc (tname i)) as [X|X]; [|auto]. rewrite X. symmetry. apply (DT i). left. rewrite <- (absent_ext _ _ _ X), <- (absent_ext _ _ _ (Fi i)).
          destruct (absent c1 (tname i)) eqn:A; [|auto]. exfalso. apply I. apply missing_tile_in. auto.
        * intros j f Ij _ X. change (e_tmp e') with (e_tmp e) in X. apply tile_name_inj in X as <-. apply I, P, Ij.
  Qed.

  Lemma again3 c2 : c2 json = F json -> (forall i, (i < ntiles t)%nat -> c2 (tname i) = F (tname i)) -> c2 oname = c oname ->
    exists v, run (overlaps_step e') c2 = (v, Ok tt) /\ apply_writes c2 v oname = F oname.
  Proof using Hn R1 R2 R3 R4 R5 Ht Hc.
    intros J T O. assert (tileset_of e' c2 t) as Ts by (eapply tileset_ext; [symmetry; exact J|apply tsF]). destruct DO as [D1 D2].
    destruct (absent c2 oname) eqn:A.
    - assert (c oname = None) as Ac by (rewrite <- O; now apply absent_true).
      destruct (Nat.eq_dec (ntiles t) 1) as [N|N].
      + exists []. split.
        * unfold overlaps_step. rewrite (then_pure _ _ _ _ (run_is_file _ _)). cbn [e_tmp reschedule]. rewrite A. cbn [negb].
          rewrite (then_pure _ _ _ t) by now apply read_tileset_iff. now rewrite (proj2 (Nat.eqb_eq _ _) N).
        * cbn. rewrite O. destruct (Hc oname) as [X|X]; [|auto]. rewrite X. symmetry. auto.
      + destruct (D2 N) as [P Q]. assert (absent s oname = true) as As.
        { destruct (Hc oname) as [X|X]; [apply absent_true; congruence|]. rewrite <- (absent_ext _ _ _ X) in P. unfold absent in P. now rewrite Ac in P. }
        destruct (Q As) as (files & f & L & Hf & Cf & X).
        destruct (overlaps_run e' c2 t files f A Ts N L) as (gw & Rn & _); auto.
        { eapply files_ext; [|exact Hf]. intros i B. symmetry. apply T. lia. }
        eexists. split; [exact Rn|]. rewrite apply_app. cbn. unfold store. cbn. now rewrite String.eqb_refl, X.
    - exists []. split.
      + unfold overlaps_step. rewrite (then_pure _ _ _ _ (run_is_file _ _)). cbn [e_tmp reschedule]. now rewrite A.
      + cbn. rewrite O. destruct (Hc oname) as [X|X]; [|auto]. rewrite X. symmetry. apply D1. left. now rewrite <- (absent_ext _ _ _ X), <- (absent_ext _ _ _ O).
  Qed.

  Lemma again4 c3 : c3 json = F json -> c3 oname = F oname -> c3 bname = c bname ->
    exists v, run (offsets_step e') c3 = (v, Ok tt) /\ apply_writes c3 v bname = F bname.
  Proof using Hn R1 R2 R3 R4 R5 Ht Hc.
    intros J T O. assert (tileset_of e' c3 t) as Ts by (eapply tileset_ext; [symmetry; exact J|apply tsF]). destruct DB as [D1 D2].
    destruct (absent c3 bname) eqn:A.
    - assert (c bname = None) as Ac by (rewrite <- O; now apply absent_true).
      destruct (Nat.eq_dec (ntiles t) 1) as [N|N].
      + exists []. split.
        * unfold offsets_step. rewrite (then_pure _ _ _ _ (run_is_file _ _)). cbn [e_tmp reschedule]. rewrite A. cbn [negb].
          rewrite (then_pure _ _ _ t) by now apply read_tileset_iff. now rewrite (proj2 (Nat.eqb_eq _ _) N).
        * cbn. rewrite O. destruct (Hc bname) as [X|X]; [|auto]. rewrite X. symmetry. auto.
      + destruct (D2 N) as [P Q]. assert (absent s bname = true) as As.
        { destruct (Hc bname) as [X|X]; [apply absent_true; congruence|]. rewrite <- (absent_ext _ _ _ X) in P. unfold absent in P. now rewrite Ac in P. }
        destruct (Q As) as (f & r & Hf & Cf & X).
        eexists. split; [apply (offsets_run e' c3 t f r A Ts N); [change (c3 oname = Some (COverlaps f)); congruence|exact Cf]|]. rewrite X. cbn. unfold store. cbn. now rewrite String.eqb_refl.
    - exists []. split.
      + unfold offsets_step. rewrite (then_pure _ _ _ _ (run_is_file _ _)). cbn [e_tmp reschedule]. now rewrite A.
      + cbn. rewrite O. destruct (Hc bname) as [X|X]; [|auto]. rewrite X. symmetry. apply D1. left. now rewrite <- (absent_ext _ _ _ X), <- (absent_ext _ _ _ O).
  Qed.

  Notation name k := (nth k fn ""%string).
  Lemma name_three k : (k < length fn)%nat -> In (name k) (flat_map three fn).
  Proof using. intros L. apply in_flat_map. exists (name k). split; [now apply nth_In|]. apply three_in. auto. Qed.
  Lemma outs_nodup : NoDup (flat_map three fn).
  Proof using Hn R5. apply (outputs_nodup e Hn fn), (outputs e s w1 w2 w3 w4 w5 fn R5). Qed.
  Lemma out_other n : In n (flat_map three fn) -> s4 n = s n /\ ~ tmp_names e n.
  Proof using Hn R1 R2 R3 R4 R5.
    intros I. assert (~ tmp_names e n) as T by exact (outputs_tmp e Hn fn (outputs e s w1 w2 w3 w4 w5 fn R5) n I).
    split; [|auto]. exact (other_same e s w1 w2 w3 w4 R1 R2 R3 R4 n T).
  Qed.

  Section Rasters.
    Variables (A : Type) (g : nat * A -> list write) (outs : list A).
    Notation M := (missing_bands s fn).
    Hypothesis Hg : forall k o, map fst (g (k, o)) = [name k] \/ map fst (g (k, o)) = three (name k).
    Hypothesis Hl : length outs = length M.
    Hypothesis Hw : w5 = flat_map g (combine M outs).
    Variable c4 : fs.
    Hypothesis H4 : forall n, In n (flat_map three fn) -> c4 n = c n.
    Notation rest := (filter (fun ko : nat * A => absent c (name (fst ko))) (combine M outs)).

    Lemma g_head k o : In (name k) (map fst (g (k, o))).
    Proof using Hg. destruct (Hg k o) as [-> | ->]; [now left|]. apply three_in. auto. Qed.
    Lemma g_three k o n : In n (map fst (g (k, o))) -> In n (three (name k)).
    Proof using Hg. destruct (Hg k o) as [-> | ->]; [intros [<-|[]]; apply three_in; auto|auto]. Qed.
    Lemma g_sub k o : exists r, three (name k) = map fst (g (k, o)) ++ r.
    Proof using Hg. destruct (Hg k o) as [-> | ->]; [exists [diff_filename (name k); model_filename (name k)]; reflexivity|exists []; now rewrite app_nil_r]. Qed.

    Lemma w5_nodup : NoDup (map fst w5).
    Proof using Hn R5 Hg Hl Hw.
      rewrite Hw. pose proof (picked_nodup fn outs_nodup M) as P. specialize (P (NoDup_filter _ (seq_NoDup _ _))).
      assert (forall k, In k M -> (k < length fn)%nat) as B by (intros k I; now apply missing_lt in I). specialize (P B). clear -P Hl Hg.
      revert outs Hl. induction M as [|k l IH]; intros [|o os] L; try discriminate; [constructor|]. cbn [map flat_map] in P. cbn [combine flat_map]. rewrite map_app.
      destruct (g_sub k o) as (r & Er). rewrite Er in P. apply NoDup_app_intro.
      - rewrite <- app_assoc in P. now apply NoDup_app_remove_r in P.
      - apply IH; [now apply NoDup_app_remove_l in P|cbn in L; lia].
      - intros x X Y. apply in_map_iff in Y as (w & <- & Y). apply in_flat_map in Y as ([j o'] & J & Y). apply in_combine_l in J.
        assert (In (fst w) (flat_map three (map (fun k => name k) l))) as Z.
        { apply in_flat_map. exists (name j). split; [apply in_map_iff; eauto|]. apply (g_three j o'). now apply in_map. }
        rewrite <- app_assoc in P. apply (NoDup_app_disj _ _ _ P X), in_or_app. auto.
    Qed.
    Lemma in_w5 k : (k < length fn)%nat -> absent F (name k) = false.
    Proof using Hn R1 R2 R3 R4 R5 Hg Hl Hw.
      intros L. destruct (absent s (name k)) eqn:E.
      - assert (In k M) as I by now apply missing_lt. apply (In_nth _ _ O) in I as (i & Bi & Ei).
        destruct (nth_error outs i) as [o|] eqn:Eo; [|apply nth_error_None in Eo; lia].
        assert (In (k, o) (combine M outs)) as J. { rewrite <- Ei, <- (nth_error_nth _ _ o Eo). rewrite <- combine_nth by auto. apply nth_In. rewrite combine_length. lia. }
        pose proof (g_head k o) as G. apply in_map_iff in G as ([x y] & Ex & G). cbn in Ex. subst x.
        eapply absent_some. apply apply_in; [apply w5_nodup|]. rewrite Hw. apply in_flat_map. eauto.
      - destruct (apply_cases w5 s4 (name k)) as [X|(y & X & _)]; [|now rewrite (absent_some _ _ _ X)].
        rewrite (absent_ext _ _ _ X), (absent_ext _ _ _ (proj1 (out_other _ (name_three k L)))). exact E.
    Qed.
    Lemma left_missing : missing_bands c4 fn = filter (fun k => absent c (name k)) M.
    Proof using Hn R1 R2 R3 R4 R5 Hg Hl Hw Hc H4.
      unfold missing_bands. assert (forall (p q : nat -> bool) l, filter p (filter q l) = filter (fun x => q x && p x)%bool l) as FF.
      { intros p q l. induction l as [|x l IH]; [auto|]. cbn. destruct (q x); cbn; destruct (p x); cbn; rewrite ?IH; auto. }
      rewrite FF. apply filter_ext_in. intros k I. apply in_seq in I. assert (k < length fn)%nat as L by lia. rewrite (absent_ext _ _ _ (H4 _ (name_three k L))).
      destruct (absent s (name k)) eqn:E; [reflexivity|]. cbn [andb]. destruct (Hc (name k)) as [X|X]; rewrite (absent_ext _ _ _ X); [exact E|]. now apply in_w5.
    Qed.
    Lemma left_final n : apply_writes c4 (flat_map g rest) n = F n \/
      apply_writes c4 (flat_map g rest) n = c4 n /\ (In n (flat_map three fn) -> c4 n = s n /\ interrupted s c fn n) /\ (~ In n (flat_map three fn) -> F n = s4 n).
    Proof using Hn R1 R2 R3 R4 R5 Hg Hl Hw Hc H4.
      assert (forall w, In w (flat_map g rest) -> In w w5) as Sub.
      { intros w I. rewrite Hw. apply in_flat_map in I as (x & J & I). apply filter_In in J as [J _]. apply in_flat_map. eauto. }
      assert (NoDup (map fst (flat_map g rest))) as Ndl.
      { pose proof w5_nodup as P. rewrite Hw in P. clear -P. induction (combine M outs) as [|x l IH]; [constructor|]. cbn [flat_map filter] in *. rewrite map_app in P.
        pose proof (NoDup_app_remove_l _ _ P) as P2. destruct (absent c (name (fst x))); [|auto]. cbn [flat_map]. rewrite map_app. apply NoDup_app_intro; [now apply NoDup_app_remove_r in P|auto|].
        intros z Z1 Z2. apply in_map_iff in Z2 as (w & <- & Z2). apply in_flat_map in Z2 as (q & Q & Z2). apply filter_In in Q as [Q _].
        assert (In (fst w) (map fst (flat_map g l))) as Z3 by (apply in_map, in_flat_map; eauto). exact (NoDup_app_disj _ _ _ P Z1 Z3). }
      destruct (in_dec string_dec n (map fst (flat_map g rest))) as [I|Iv].
      { left. apply in_map_iff in I as ([x y] & Ex & I). cbn in Ex. subst x. rewrite (apply_in _ c4 _ _ Ndl I). symmetry. apply apply_in; [apply w5_nodup|]. auto. }
      pose proof (apply_notin _ c4 n Iv) as X.
      destruct (in_dec string_dec n (flat_map three fn)) as [T|T].
      2:{ right. split; [auto|]. split; [contradiction|]. intros _. apply apply_notin. intros I. apply T. apply in_map_iff in I as (w & <- & I).
          rewrite Hw in I. apply in_flat_map in I as ([k o] & J & I). apply in_combine_l in J. apply missing_lt in J as [L _].
          apply in_flat_map. exists (name k). split; [now apply nth_In|]. apply (g_three k o). now apply in_map. }
      rewrite X, (H4 n T). destruct (Hc n) as [E|E]; [|now left].
      destruct (in_dec string_dec n (map fst w5)) as [I|I].
      2:{ left. rewrite (apply_notin w5 s4 n I), (proj1 (out_other n T)). exact E. }
      apply in_map_iff in I as (w & Ew & I). rewrite Hw in I. apply in_flat_map in I as ([k o] & J & I).
      pose proof (in_combine_l _ _ _ _ J) as Jk. apply missing_lt in Jk as [L As].
      destruct (absent c (name k)) eqn:Ac.
      - exfalso. apply Iv, in_map_iff. exists w. split; [auto|]. apply in_flat_map. exists (k, o). split; [apply filter_In; auto|auto].
      - assert (In n (three (name k))) as T3 by (apply (g_three k o), in_map_iff; exists w; auto). apply three_in in T3 as [->|T3].
        + unfold absent in As, Ac. rewrite E in Ac. destruct (s (name k)); discriminate.
        + right. split; [auto|]. split; [|contradiction]. intros _. split; [auto|]. exists (name k). split; [now apply nth_In|]. auto.
    Qed.
  End Rasters.

  Lemma again5 c4 : c4 json = F json -> (forall i, (i < ntiles t)%nat -> c4 (tname i) = F (tname i)) -> c4 oname = F oname -> c4 bname = F bname ->
    (forall n, ~ tmp_names e n -> c4 n = c n) ->
    exists v, run (merge_tiles e') c4 = (v, Ok fn) /\ forall n, apply_writes c4 v n = F n \/
      apply_writes c4 v n = c4 n /\ (In n (flat_map three fn) -> c4 n = s n /\ interrupted s c fn n) /\ (~ In n (flat_map three fn) -> F n = s4 n).
  Proof using Hn R1 R2 R3 R4 R5 Ht Hso Hc.
    intros J T O B Fr. assert (forall n, In n (flat_map three fn) -> c4 n = c n) as H4 by (intros n I; apply Fr, (out_other n I)).
    assert (sound e' c4) as S4. { change (sound e c4). apply (sound_ext e F c4 t tsF); auto. intros i L. symmetry. auto. }
    assert (forall f', output_files e' = Ok f' -> NoDup (flat_map three f')) as Nd' by (intros f' Hf'; exact (outputs_nodup e Hn f' Hf')).
    assert (tileset_of e' c4 t) as T4 by (eapply tileset_ext; [symmetry; exact J|apply tsF]).
    destruct (done_merge e Hn s w1 w2 w3 w4 w5 fn R1 R2 R3 R4 R5 t Ht Hso) as [Me (t' & files & T' & L & Hf & W)].
    destruct (tilesets e Hn s w1 w2 w3 w4 w5 fn R2 R3 R4 R5 t Ht) as (_ & _ & _ & Ts4). rewrite (tileset_fun e s4 t' t T' Ts4) in *. clear t' T'.
    assert (tile_files e' c4 files) as Hf4.
    { change (tile_files e c4 files). eapply files_ext; [|exact Hf]. intros i Bi. rewrite T by lia. destruct (tile_same e Hn s w1 w2 w3 w4 w5 fn R1 R3 R4 R5 i) as (E1 & _ & E2 & _). congruence. }
    rewrite (out_missing e Hn s w1 w2 w3 w4 w5 fn R1 R2 R3 R4 R5) in W.
    destruct W as [(N & outs & E & Hw)|(N & f & omap & m & bulk & r & outs & Ef & Eo & Em & Eb & Ne & E & Hw)].
    - pose proof (map_res_nth _ _ _ E) as [Lo _].
      set (g := fun ko : nat * raster => [(name (fst ko), CRaster (snd ko))]).
      assert (forall l, map (fun ko : nat * raster => (name (fst ko), CRaster (snd ko))) l = flat_map g l) as Mg by (intros l; induction l as [|x l IH]; [auto|cbn; now rewrite IH]).
      rewrite Mg in Hw. assert (forall k o, map fst (g (k, o)) = [name k] \/ map fst (g (k, o)) = three (name k)) as Hg by (left; reflexivity).
      pose proof (left_missing _ g outs Hg Lo Hw c4 H4) as Lm. pose proof (left_final _ g outs Hg Lo Hw c4 H4) as Lf.
      eexists. split; [|exact Lf]. apply merge_tiles_iff; auto. split; [exact Me|]. split; [exact (outputs e s w1 w2 w3 w4 w5 fn R5)|].
      exists t, files. split; [auto|]. split; [auto|]. split; [auto|]. left. split; [auto|]. rewrite Lm. eexists. split; [apply (map_res_sub _ _ _ _ E)|].
      rewrite combine_sub by auto. symmetry. apply Mg.
    - pose proof (map_res_nth _ _ _ E) as [Lo _].
      set (g := fun ko : nat * (raster * raster * raster) => rasters (name (fst ko)) (snd ko)).
      assert (forall k o, map fst (g (k, o)) = [name k] \/ map fst (g (k, o)) = three (name k)) as Hg by (intros k o; right; apply rasters_names).
      pose proof (left_missing _ g outs Hg Lo Hw c4 H4) as Lm. pose proof (left_final _ g outs Hg Lo Hw c4 H4) as Lf.
      eexists. split; [|exact Lf]. apply merge_tiles_iff; auto. split; [exact Me|]. split; [exact (outputs e s w1 w2 w3 w4 w5 fn R5)|].
      exists t, files. split; [auto|]. split; [auto|]. split; [auto|]. right. split; [auto|].
      destruct (over_same e Hn s w1 w2 w3 w4 w5 fn R1 R2 R4 R5) as (O1 & O2 & _). destruct (bulk_same e Hn s w1 w2 w3 w4 w5 fn R1 R2 R3 R5) as (B1 & _).
      exists f, omap, m, bulk, r. rewrite Lm. eexists. split; [change (c4 oname = Some (COverlaps f)); congruence|]. split; [auto|]. split; [auto|].
      split; [change (c4 bname = Some (COffsets (e_bulk_method e) bulk r)); congruence|]. split; [auto|].
      split; [apply (map_res_sub _ _ _ _ E)|]. rewrite combine_sub by auto. reflexivity.
  Qed.

  Lemma resume : exists v, run (main e') c = (v, Ok fn) /\
    forall n, apply_writes c v n = F n \/ apply_writes c v n = s n /\ c n = s n /\ interrupted s c fn n.
  Proof using Hn Hsch R1 R2 R3 R4 R5 Ht Hso Hc Hsched Hpt.
    destruct again1 as (v1 & Q1 & J1).
    pose proof (fr1 e' c v1 Q1) as G1.
    destruct (again2 (apply_writes c v1) J1 G1) as (v2 & Q2 & T2 & X2). set (c1 := apply_writes c v1) in *.
    pose proof (fr2 e' c v1 v2 Q2) as G2. fold c1 in G2. set (c2 := apply_writes c1 v2) in *. change (e_tmp e') with (e_tmp e) in *.
    assert (c2 json = F json) as J2 by (rewrite G2; [auto|intros i E; apply (proj1 (tmp_distinct e i)); auto]).
    assert (c2 oname = c oname) as O2.
    { rewrite G2, G1; [auto| |]; [intros E; symmetry in E; revert E; apply (tmp_distinct e 0)|intros i E; symmetry in E; revert E; apply (tmp_distinct e i)]. }
    destruct (again3 c2 J2 T2 O2) as (v3 & Q3 & O3). pose proof (fr3 e' c v1 v2 v3 Q3) as G3. fold c1 in G3. fold c2 in G3. change (e_tmp e') with (e_tmp e) in *.
    set (c3 := apply_writes c2 v3) in *.
    assert (c3 json = F json) as J3 by (rewrite G3; [auto|apply (tmp_distinct e 0)]).
    assert (c3 bname = c bname) as B3.
    { rewrite G3, G2, G1; [auto| | |].
      - intros E; symmetry in E; revert E; apply (tmp_distinct e 0).
      - intros i E; symmetry in E; revert E; apply (tmp_distinct e i).
      - intros E; symmetry in E; revert E; apply (tmp_distinct e 0). }
    destruct (again4 c3 J3 O3 B3) as (v4 & Q4 & B4). pose proof (fr4 e' c v1 v2 v3 v4 Q4) as G4. fold c1 in G4. fold c2 in G4. fold c3 in G4. change (e_tmp e') with (e_tmp e) in *.
    set (c4 := apply_writes c3 v4) in *.
    assert (c4 json = F json) as J4 by (rewrite G4; [auto|apply (tmp_distinct e 0)]).
    assert (c4 oname = F oname) as O4 by (rewrite G4; [auto|apply (tmp_distinct e 0)]).
    assert (forall i, c4 (tname i) = c2 (tname i)) as T34 by (intros i; rewrite G4, G3; [auto|apply (tmp_distinct e i)|apply (tmp_distinct e i)]).
    assert (forall i, (i < ntiles t)%nat -> c4 (tname i) = F (tname i)) as T4 by (intros i L; rewrite T34; auto).
    assert (forall n, ~ tmp_names e n -> c4 n = c n) as Fr.
    { intros n Hm. rewrite G4, G3, G2, G1; [auto|..].
      - intros ->. apply Hm, tmp_json.
      - intros i ->. apply Hm, tmp_tile.
      - intros ->. apply Hm, tmp_over.
      - intros ->. apply Hm, tmp_bulk. }
    destruct (again5 c4 J4 T4 O4 B4 Fr) as (v5 & Q5 & V).
    exists (v1 ++ v2 ++ v3 ++ v4 ++ v5). split.
    - unfold main. eapply then_intro; [exact Q1|]. eapply then_intro; [exact Q2|]. eapply then_intro; [exact Q3|]. eapply then_intro; [exact Q4|]. exact Q5.
    - intros n. rewrite !apply_app. fold c1. fold c2. fold c3. fold c4. destruct (V n) as [E|(E & Vi & Vo)]; [now left|].
      destruct (in_dec string_dec n (flat_map three fn)) as [I|I].
      { right. destruct (Vi I) as [V1 V2]. rewrite E. split; [exact V1|]. split; [|exact V2]. rewrite <- V1. symmetry. apply Fr, (out_other n I). }
      left. rewrite E, (Vo I).
      (* files outside the output folder *)
      destruct (string_dec n json) as [->|Nj]; [rewrite J4; now apply (fr5 e Hn s w1 w2 w3 w4 w5 fn R5), tmp_json|].
      destruct (string_dec n oname) as [->|No]; [rewrite O4; now apply (fr5 e Hn s w1 w2 w3 w4 w5 fn R5), tmp_over|].
      destruct (string_dec n bname) as [->|Nb]; [rewrite B4; now apply (fr5 e Hn s w1 w2 w3 w4 w5 fn R5), tmp_bulk|].
      destruct (in_dec string_dec n (map tname (seq 0 (ntiles t)))) as [It|It].
      { apply in_map_iff in It as (i & <- & It). apply in_seq in It. rewrite T4 by lia. apply (fr5 e Hn s w1 w2 w3 w4 w5 fn R5), tmp_tile. }
      assert (forall i, (i < ntiles t)%nat -> n <> tname i) as Nt by (intros i L ->; apply It, in_map, in_seq; lia).
      assert (c4 n = c n) as Ec by (rewrite G4, G3, X2, G1; auto).
      assert (s4 n = s n) as Es.
      { rewrite (fr4 e s w1 w2 w3 w4 R4), (fr3 e s w1 w2 w3 R3) by auto.
        destruct (done_unwrap e Hsch s w1 w2 R2 t Ht) as (_ & W2 & _). rewrite W2. rewrite finished_other; [now apply (fr1 e s w1 R1)|].
        intros i f Ii _. apply Nt. apply sched_missing in Ii; [|exact Hsch]. now apply missing_tile_in in Ii. }
      rewrite Ec, Es. destruct (Hc n) as [X|X]; [auto|]. rewrite X, (Vo I). exact Es.
  Qed.
End Resume.

(** ** Nothing left to do *)
Definition quiet {A} (p : prog A) (s : fs) : Prop := fst (run p s) = [].
Lemma quiet_then {A B} (p : prog A) (k : A -> prog B) s : quiet p s -> (forall a, run p s = ([], Ok a) -> quiet (k a) s) -> quiet (then_ p k) s.
Proof.
  unfold quiet. intros H K. rewrite run_then. destruct (run p s) as [ws [a|x]]; cbn [fst snd] in *; subst ws; [|reflexivity]. cbn. now apply K.
Qed.
Lemma quiet_only {A} (p : prog A) s : only (fun _ => False) p -> quiet p s.
Proof. intros H. unfold quiet. destruct (fst (run p s)) as [|w l] eqn:E; [auto|]. exfalso. apply (only_run _ p s H w). rewrite E. now left. Qed.
Lemma quiet_each {A} (f : A -> prog unit) l s : (forall a, In a l -> quiet (f a) s) -> quiet (each f l) s.
Proof.
  induction l as [|a l IH]; intros H; [reflexivity|]. cbn [each]. apply quiet_then; [apply H; now left|]. intros _ _. apply IH. intros b I. apply H. now right.
Qed.

Section Quiet.
  Context (e : env) (s : fs) (t : tileset).
  Hypothesis Hsch : sched_ok e.
  Hypothesis Ht : tileset_of e s t.
  Hypothesis Htiles : forall i, (i < ntiles t)%nat -> absent s (tile_filename (e_tmp e) i) = false.
  Hypothesis Hover : ntiles t <> 1%nat -> absent s (overlap_filename (e_tmp e)) = false /\ absent s (offsets_filename (e_tmp e)) = false.
  Hypothesis Hout : forall fn k, output_files e = Ok fn -> (k < length fn)%nat -> absent s (nth k fn ""%string) = false.

  Lemma quiet_merge : quiet (merge_tiles e) s.
  Proof using Hout Hover e s t.
    unfold merge_tiles. destruct (negb _); [reflexivity|]. apply quiet_then; [apply quiet_only, only_read_tileset|]. intros t' _.
    apply quiet_then; [apply quiet_only, only_collect; intros; apply only_read_tile|]. intros files _.
    apply quiet_then; [apply quiet_only, only_lift|]. intros fn Hf. rewrite run_lift in Hf. injection Hf as Hf. specialize (Hout fn).
    destruct (_ =? 1)%nat.
    - apply quiet_then; [|intros; reflexivity]. apply quiet_each. intros [k n] I. apply quiet_then; [apply quiet_only, only_is_file|]. cbn [fst snd].
      intros b Hb. rewrite run_is_file in Hb. injection Hb as <-. apply in_combine_r in I. apply (In_nth _ _ ""%string) in I as (j & Bj & <-).
      rewrite Hout by auto. reflexivity.
    - apply quiet_then; [apply quiet_only, only_read_overlaps|]. intros f _. apply quiet_then; [apply quiet_only, only_lift|]. intros omap _.
      apply quiet_then; [apply quiet_only, only_lift|]. intros m _.
      apply quiet_then; [apply quiet_only; cbn; intros [[x|x|x|x|mm x r|x]|]; cbn; auto; destruct (String.eqb _ _); exact I|]. intros bulk _.
      destruct (batch_size _ _) as [|size]; [reflexivity|]. apply quiet_then; [|intros; reflexivity]. apply quiet_each. intros b Ib.
      apply quiet_then; [unfold quiet; now rewrite run_missing|]. intros ms Hms. rewrite run_missing in Hms. injection Hms as <-. rewrite concat_missing.
      assert (forall k, In k b -> (k < length fn)%nat) as Bb.
      { intros k Ik. assert (In k (concat (batches (S size) (length fn)))) as C by (apply in_concat; eauto). rewrite batches_concat in C by lia. apply in_seq in C. lia. }
      assert (filter (fun k => absent s (nth k fn ""%string)) b = []) as ->; [|reflexivity].
      induction b as [|k b IH] using list_ind in Bb |- *; [reflexivity|]. cbn [filter]. rewrite Hout by (auto; apply Bb; now left). apply IH. intros j Ij. apply Bb. now right.
  Qed.
  Lemma quiet_main : quiet (main e) s.
  Proof using Hsch Ht Htiles Hover Hout.
    assert (absent s (tiles_jsonname (e_tmp e)) = false) as J by (destruct Ht as (x & X & _); eapply absent_some; eauto).
    assert (missing_tiles e s t = []) as M.
    { unfold missing_tiles. destruct (filter _ _) as [|i l] eqn:E; [auto|]. assert (In i (missing_tiles e s t)) as I by (unfold missing_tiles; rewrite E; now left).
      apply missing_tile_in in I as [L A]. rewrite Htiles in A by auto. discriminate. }
    unfold main. apply quiet_then; [unfold quiet; rewrite get_tiles_run, J; reflexivity|]. intros _ _.
    apply quiet_then. { unfold quiet. rewrite (unwrap_run e s t Ht), M. destruct (_ <=? 0)%Z; [reflexivity|]. cbn [fst].
      assert (e_sched e [] = []) as -> by (apply Permutation_nil, Permutation_sym, Hsch). reflexivity. }
    intros _ _. apply quiet_then.
    { unfold overlaps_step. apply quiet_then; [apply quiet_only, only_is_file|]. intros b Hb. rewrite run_is_file in Hb. injection Hb as <-.
      destruct (absent s (overlap_filename (e_tmp e))) eqn:A; [|reflexivity]. cbn [negb]. apply quiet_then; [apply quiet_only, only_read_tileset|].
      intros t' Ht'. apply read_tileset_iff in Ht' as [_ Ht']. rewrite (tileset_fun e s t' t Ht' Ht). destruct (Nat.eqb_spec (ntiles t) 1) as [N|N]; [reflexivity|].
      destruct (Hover N). congruence. }
    intros _ _. apply quiet_then.
    { unfold offsets_step. apply quiet_then; [apply quiet_only, only_is_file|]. intros b Hb. rewrite run_is_file in Hb. injection Hb as <-.
      destruct (absent s (offsets_filename (e_tmp e))) eqn:A; [|reflexivity]. cbn [negb]. apply quiet_then; [apply quiet_only, only_read_tileset|].
      intros t' Ht'. apply read_tileset_iff in Ht' as [_ Ht']. rewrite (tileset_fun e s t' t Ht' Ht). destruct (Nat.eqb_spec (ntiles t) 1) as [N|N]; [reflexivity|].
      destruct (Hover N). congruence. }
    intros _ _. apply quiet_merge.
  Qed.
End Quiet.
