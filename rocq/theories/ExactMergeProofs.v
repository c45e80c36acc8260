(** Merging tiles that are all right up to whole cycles. *)
From Verif Require Import Base BaseLemmas PoolProofs GraphModel GraphSpec TileModel OverlapModel OverlapSpec BulkModel BulkSpec BulkProofs
  DirichletModel MergeModel MergeSpec TileStateProofs AdjustProofs FixedProofs MergeBatchProofs DescribeProofs WorkflowModel WorkflowSpec Props_Overlap Props_Bulk Props_Merge.
From Coq Require Import List ZifyBool Lqa Permutation.
Import ListNotations.
Set Default Goal Selector "!".
Local Open Scope Q_scope.
Opaque twopi.
Local Notation tl ts i := (nth i ts dtile).

Lemma whole_zero (z : Z) : - (twopi / 2) <= twopi * inject_Z z <= twopi / 2 -> z = 0%Z.
Proof.
  intros [A B]. pose proof twopi_pos as T. assert (twopi / 2 == twopi * (1 # 2)) as Eh by field. rewrite Eh in A, B. clear Eh.
  destruct (Z.lt_trichotomy z 0) as [L|[E|L]]; [exfalso|exact E|exfalso].
  - assert (inject_Z z <= -1) as K by (change (-1) with (inject_Z (-1)); rewrite <- Zle_Qle; lia).
    assert (twopi * inject_Z z <= twopi * -1) as K2 by (apply Qmult_le_l; auto).
    revert A K2. generalize (twopi * inject_Z z). intros q A K2. lra.
  - assert (1 <= inject_Z z) as K by (change 1 with (inject_Z 1); rewrite <- Zle_Qle; lia).
    assert (twopi * 1 <= twopi * inject_Z z) as K2 by (apply Qmult_le_l; auto).
    revert B K2. generalize (twopi * inject_Z z). intros q B K2. lra.
Qed.

Section Merge.
  Context (e : env) (f : overlap_file) (omap : list (list nat)) (m : nat) (bulk : list (list Q)) (sh : Z * Z)
          (files : list tile_file) (k : nat) (arr diff model : raster).
  Hypothesis Hfiles : forall fl, In fl files -> file_ok fl /\ NoDup (tf_points fl).
  Hypothesis Hom : overlap_map f = Ok omap.
  Hypothesis Hrec : recorded_files f files.
  Hypothesis Hout : alone e f omap m bulk sh files k = Ok (arr, diff, model).
  Context (D : Z * Z -> Q) (M : nat -> Z).
  Hypothesis Hright : forall j p x, found files x j p -> MergeSpec.phase_of (nth j files dfile) k p == D x + twopi * inject_Z (M j).
  Let o (j : nat) : Q := nth j (nth k bulk []) 0.
  Hypothesis Hbulk : forall i j, In (i, j) (of_overlaps f) -> o j - o i == inject_Z (M j) - inject_Z (M i).

  Lemma exact_pixel x c : in_shape sh x = true -> (exists j p, found files x j p) ->
    (forall j p, found files x j p -> inject_Z (M j) - o j == inject_Z c) ->
    exists v w, pixel arr x = Some v /\ v == D x + twopi * inject_Z c /\ pixel model x = Some w /\ w == D x + twopi * inject_Z c.
  Proof using Hfiles Hom Hrec Hout Hright Hbulk.
    intros S (j0 & p0 & F0) Hc. unfold alone in Hout.
    destruct (start_tiles files bulk [k]) as [ts|] eqn:Es; [|discriminate]. cbn [bind] in Hout.
    destruct (adjust_tiles _ _ _ f omap m ts) as [ts'|] eqn:Ea; [|discriminate]. cbn [bind] in Hout.
    apply (started bulk files Hfiles) in Es as (F & R & K0).
    assert (recorded f ts) as Hd by now apply Hrec. assert (length ts = length files) as Lt by (rewrite <- F; now rewrite map_length).
    assert (forall t, In t ts -> ready 1 t) as Hr by (intros t I; apply (R t I)).
    assert (forall j, (j < length files)%nat -> coords (tl ts j) = file_coords (nth j files dfile)) as Cts.
    { intros j Bj. unfold coords. f_equal. rewrite <- F. symmetry. apply map_nth'. lia. }
    assert (forall y j p, (j < length files)%nat -> point_of (tl ts j) y p -> found files y j p) as Pf.
    { intros y j p Bj P. exists (nth j files dfile). split; [now apply nth_error_nth'|]. unfold point_of in P. now rewrite Cts in P. }
    assert (forall y j p, (j < length files)%nat -> point_of (tl ts j) y p ->
      at_ (t_raw (tl ts j)) 0 p == D y + twopi * inject_Z (M j) /\
      at_ (uw_phase (tl ts j)) 0 p == D y + twopi * (inject_Z (M j) - o j)) as V.
    { intros y j p Bj P. pose proof (Hright _ _ _ (Pf y j p Bj P)) as E.
      destruct (Hfiles (nth j files dfile)) as [Fo Np]; [now apply nth_In|].
      destruct (start_ok _ j bulk Fo [k] _ (K0 j Bj) Np) as (_ & _ & _ & St).
      assert (p < length (tf_points (nth j files dfile)))%nat as Bp.
      { pose proof (point_lt _ _ _ P) as Pl. unfold npoints in Pl. rewrite Cts in Pl by auto. unfold file_coords in Pl. now rewrite map_length in Pl. }
      destruct (St O p) as [V1 V2]; [cbn; lia|exact Bp|]. cbn [nth] in V1, V2. unfold MergeSpec.phase_of in E.
      split; [now rewrite V1|]. rewrite V2, E. unfold o. ring. }
    assert (agree_recorded f 1 ts) as Ha.
    { intros i j b y I Hb Ci Cj. assert (b = O) as -> by lia. destruct Hd as (_ & _ & Ho & _). destruct (Ho _ _ I) as (B1 & B2 & _).
      apply contains_spec in Ci as (p & Pi), Cj as (q & Pj).
      assert (ready 1 (tl ts i)) as (_ & _ & _ & _ & Ni) by (apply Hr, nth_In; lia).
      assert (ready 1 (tl ts j)) as (_ & _ & _ & _ & Nj) by (apply Hr, nth_In; lia).
      rewrite (phase_point _ _ _ _ Ni Pi), (phase_point _ _ _ _ Nj Pj).
      destruct (V y i p) as [_ ->]; [lia|exact Pi|]. destruct (V y j q) as [_ ->]; [lia|exact Pj|].
      specialize (Hbulk _ _ I). assert (inject_Z (M i) - o i == inject_Z (M j) - o j) as -> by lra. reflexivity. }
    unfold adjust_tiles in Ea.
    pose proof (adjust_same (e_cg e) (e_ilu e) (e_triangles e) f 1 (fun _ => seq 0 (length ts)) ts omap m ts' Hd Hr Hom (fun _ => Permutation_refl _) Ha Ea) as Same.
    apply (adjust_kept (e_cg e) (e_ilu e) (e_triangles e) f 1) in Ea as (Kp & Hr'); auto.
    pose proof (kept_idx_mergeable [k] ts ts' Kp (fun t I => proj2 (R t I)) Hr') as Mg. destruct Kp as [Lk Kj].
    assert (forall t, In t (holders ts' x) -> phase_at t 0 x == D x + twopi * inject_Z c /\ exists j, raw_at t 0 x == D x + twopi * inject_Z (M j)) as Hv.
    { intros t I. destruct (phase_index 1 ts' 0 x t Hr' I) as (j & p & Bj & -> & P & ->). rewrite Lk, Lt in Bj.
      assert (point_of (tl ts j) x p) as P' by (unfold point_of in *; rewrite <- (kept_coords _ _ (Kj j)); exact P).
      destruct (V x j p Bj P') as [V1 V2]. split.
      - rewrite Same; [|lia|lia|eapply point_lt; eauto]. rewrite V2. rewrite (Hc j p); [reflexivity|now apply Pf].
      - exists j. unfold raw_at. assert (ready 1 (tl ts' j)) as (_ & _ & _ & _ & N) by (apply Hr', nth_In; lia).
        rewrite (position_spec _ _ _ N P). destruct (Kj j) as (_ & _ & ->). exact V1. }
    assert (holders ts' x <> []) as Ne.
    { assert (j0 < length files)%nat as B0 by (destruct F0 as (fl & E & _); apply nth_error_Some; congruence).
      intros E. assert (In (tl ts' j0) (holders ts' x)) as I; [|rewrite E in I; destruct I]. apply filter_In. split; [apply nth_In; lia|].
      apply contains_spec. exists p0. unfold point_of. rewrite (kept_coords _ _ (Kj j0)), Cts by auto.
      destruct F0 as (fl & E1 & E2). now rewrite (nth_error_nth _ _ _ E1). }
    assert (average_at ts' 0 x == D x + twopi * inject_Z c) as Av.
    { unfold average_at. apply average_same; [destruct (holders ts' x); [contradiction|discriminate]|].
      intros u I. apply in_map_iff in I as (t & <- & I). apply Hv, I. }
    destruct (C41_merged [k] O k ts' sh arr diff model x) as (_ & _ & _ & (N1 & N2) & Va & Vm); auto; [repeat constructor; intros []|].
    destruct (pixel arr x) as [v|] eqn:Ev; [|exfalso; apply Ne; now apply N1]. destruct (pixel model x) as [w|] eqn:Ew; [|exfalso; apply Ne; now apply N2].
    exists v, w. split; [auto|]. destruct (Va v eq_refl) as (t & I & (z & Cz) & B). pose proof (Vm w eq_refl) as Aw. rewrite Av in *.
    split; [|auto]. destruct (Hv t I) as (_ & j & Er). rewrite Er in Cz.
    assert (v - (D x + twopi * inject_Z c) == twopi * inject_Z (M j + z - c)) as Ed.
    { rewrite inject_Z_sub, inject_Z_plus. lra. }
    rewrite Ed in B. apply whole_zero in B. rewrite B in Ed. change (inject_Z 0) with 0 in Ed. lra.
  Qed.
End Merge.
