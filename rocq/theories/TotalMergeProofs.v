(** Merging that cannot fail. *)
From Verif Require Import Base BaseLemmas PoolProofs GraphModel GraphSpec TileModel OverlapModel OverlapSpec BulkModel BulkProofs
  DirichletModel MergeModel MergeSpec AdjustProofs MergeBatchProofs DescribeProofs LaplacianProofs WorkflowModel WorkflowSpec Props_Merge PipelineProofs.
From Coq Require Import List ZifyBool Permutation.
Import ListNotations.
Set Default Goal Selector "!".
Local Notation tl ts i := (nth i ts dtile).

(** A planar graph uses all its points. *)
Lemma planar_lap_n g : planar g -> g_links g <> [] /\ lap_n (g_links g) = g_npoints g.
Proof.
  intros Hp. assert (exists a b, In (a, b) (g_links g)) as (a & b & I).
  { pose proof (pl_cycles g Hp) as Nc. destruct (g_cycles g) as [|c cs] eqn:Ec; [contradiction|].
    pose proof (pl_poly g Hp c ltac:(rewrite Ec; now left)) as L3. destruct c as [|u [|v c]]; cbn in L3; try lia.
    assert (In (u, v) (all_sides g)) as S by (unfold all_sides; rewrite Ec; apply in_flat_map; exists (u :: v :: c); split; [now left|now left]).
    destruct (pl_side g Hp _ _ S); eauto. }
  split; [intros X; rewrite X in I; destruct I|]. pose proof (pl_lt g Hp a b I) as B.
  assert (forall x, In x (lap_cols (g_links g)) -> (x < g_npoints g)%nat) as U.
  { intros x X. unfold lap_cols in X. apply in_flat_map in X as ([c d] & J & X). pose proof (pl_lt g Hp c d J). cbn in X. lia. }
  assert (list_max (lap_cols (g_links g)) <= g_npoints g - 1)%nat as Up by (apply list_max_le, Forall_forall; intros x X; specialize (U x X); lia).
  set (v := (g_npoints g - 1)%nat) in *. pose proof (pl_conn g Hp v ltac:(lia)) as R.
  assert (In v (lap_cols (g_links g))) as Iv.
  { inversion R as [E|v0 v1 R' [J|J]]; [lia| |].
    - apply in_flat_map. exists (v0, v). split; [exact J|cbn; auto].
    - apply in_flat_map. exists (v, v0). split; [exact J|cbn; auto]. }
  pose proof (proj1 (list_max_le (lap_cols (g_links g)) (list_max (lap_cols (g_links g)))) (Nat.le_refl _)) as M. rewrite Forall_forall in M. specialize (M v Iv).
  unfold lap_n. lia.
Qed.

Lemma planar_laplacian triangles t tri : triangles (coords t) = Ok tri -> planar (delaunay (npoints t) tri) ->
  exists lap, tile_laplacian triangles t = Ok lap /\ is_square lap = true /\ length lap = npoints t.
Proof.
  intros Et Hp. destruct (planar_lap_n _ Hp) as [Ne L]. cbn [g_links g_npoints delaunay] in *. unfold tile_laplacian. rewrite Et. cbn [bind].
  rewrite (laplacian_ok _ Ne). cbn [bind]. eexists. split; [reflexivity|]. rewrite L. split.
  - unfold is_square. apply forallb_forall. intros row I. apply in_map_iff in I as (r & <- & I). apply in_map_iff in I as (i & <- & _).
    rewrite !map_length, !seq_length. apply Nat.eqb_refl.
  - now rewrite !map_length, seq_length.
Qed.

Section Alone.
  Variables (e : env) (f : overlap_file) (omap : list (list nat)) (m : nat) (bulk : list (list Q)) (sh : Z * Z) (files : list tile_file) (bands k : nat).
  Hypothesis Hs : sound_files f files.
  Hypothesis Hom : overlap_map f = Ok omap.
  Hypothesis Hb : forall fl, In fl files -> tile_bands bands fl.
  Hypothesis Hk : (k < bands)%nat.
  Hypothesis Hbulk : (k < length bulk)%nat /\ length (nth k bulk []) = length files.
  Hypothesis Hsh : forall fl x, In fl files -> In x (file_coords fl) -> in_shape sh x = true.
  Hypothesis Htri : forall fl, In fl files -> exists tri, e_triangles e (file_coords fl) = Ok tri /\ planar (delaunay (length (file_coords fl)) tri).
  Hypothesis Hilu : forall a, a <> [] -> e_ilu e a = true.
  Hypothesis Hown : e_ilu e [] = true \/
    forall i, (i < length files)%nat -> exists x, In x (file_coords (nth i files dfile)) /\
      forall j, (j < length files)%nat -> j <> i -> ~ In x (file_coords (nth j files dfile)).

  Lemma start_total : exists ts, start_tiles files bulk [k] = Ok ts.
  Proof using Hb Hbulk Hk Hown bands bulk e files k.
    apply map_res_total. intros [j fl] I. cbn [fst snd]. pose proof (in_combine_l _ _ _ _ I) as Ij. pose proof (in_combine_r _ _ _ _ I) as If.
    apply in_seq in Ij. destruct (Hb fl If) as (B1 & B2 & B3). unfold start_tile, reset_band_index. cbn [increasing negb forallb].
    rewrite B1, B2. replace ((k <? bands) && (k <? bands) && true)%nat with true by lia. cbn [negb bind].
    destruct Hbulk as [K1 K2]. rewrite K2. replace ((k <? length bulk) && (j <? length files) && true)%nat with true by lia. cbn [negb map].
    unfold add_correction. cbn [broadcast bind]. eauto.
  Qed.

  Lemma alone_total : exists o, alone e f omap m bulk sh files k = Ok o.
  Proof using Hs Hom Hb Hk Hbulk Hsh Htri Hilu Hown.
    destruct Hs as (Ne & Hfiles & Hrec). unfold alone. destruct start_total as (ts & Es). rewrite Es. cbn [bind].
    apply (started bulk files Hfiles) in Es as (F & R & K0).
    assert (recorded f ts) as Hd by now apply Hrec. assert (length ts = length files) as Lt by (rewrite <- F; now rewrite map_length).
    assert (forall t, In t ts -> ready 1 t) as Hr by (intros t I; apply (R t I)).
    assert (forall t, In t ts -> exists fl, In fl files /\ coords t = file_coords fl) as Hc.
    { intros t I. exists (t_file t). split; [rewrite <- F; now apply in_map|reflexivity]. }
    assert (forall j, (j < length files)%nat -> coords (tl ts j) = file_coords (nth j files dfile)) as Cts.
    { intros j Bj. unfold coords. f_equal. rewrite <- F. symmetry. apply map_nth'. lia. }
    assert (forall j x, (j < length files)%nat -> (contains (tl ts j) x = true <-> In x (file_coords (nth j files dfile)))) as Ct.
    { intros j x Bj. rewrite contains_spec. unfold point_of. rewrite Cts by auto. split; [intros (p & E); eapply nth_error_In; eauto|apply In_nth_error]. }
    destruct (C39_total (e_cg e) (e_ilu e) (e_triangles e) f omap 1 ts m Hd Hr Hom) as (ts' & Ea).
    - intros t I. destruct (Hc t I) as (fl & If & Ef). destruct (Htri fl If) as (tri & Et & Pt). rewrite <- Ef in *. eapply planar_laplacian; eauto.
    - exact Hilu.
    - destruct Hown as [H0|H0]; [now left|right]. intros i Bi. rewrite Lt in Bi. destruct (H0 i Bi) as (x & X1 & X2). exists x. cbv zeta. fold dtile.
      split; [now apply Ct|]. intros j Bj Nj. rewrite Lt in Bj. apply not_true_iff_false. rewrite Ct by auto. auto.
    - rewrite Ea. cbn [bind]. unfold adjust_tiles in Ea.
      apply (adjust_kept (e_cg e) (e_ilu e) (e_triangles e) f 1) in Ea as (Kp & Hr'); auto.
      pose proof (kept_idx_mergeable [k] ts ts' Kp (fun t I => proj2 (R t I)) Hr') as Mg. destruct Kp as [Lk Kj].
      apply (C41_total [k] O k); auto.
      + intros X. rewrite X in Lk. cbn in Lk. rewrite Lt in Lk. destruct files; [contradiction|discriminate].
      + repeat constructor; intros [].
      + intros t x I C. apply (In_nth _ _ dtile) in I as (j & Bj & <-). rewrite Lk, Lt in Bj. rewrite (kept_contains _ _ _ (Kj j)) in C. apply Ct in C; [|auto].
        apply (Hsh _ _ (nth_In _ _ Bj) C).
  Qed.
End Alone.

Lemma single_total_band fl k sh bands : tile_bands bands fl -> (k < bands)%nat -> (forall x, In x (file_coords fl) -> in_shape sh x = true) ->
  exists r, single_band fl k sh = Ok r.
Proof.
  intros (B1 & B2 & B3) Bk Hs. unfold single_band, reset_band_index. cbn [increasing negb forallb]. rewrite B1, B2.
  replace ((k <? bands) && (k <? bands) && true)%nat with true by lia. cbn [negb bind].
  rewrite (proj2 (forallb_forall _ _)); [cbn [negb]; eauto|]. intros x I. apply Hs, I.
Qed.

Lemma max_degree_total files sh : (forall fl x, In fl files -> In x (file_coords fl) -> in_shape sh x = true) -> (0 < fst sh)%Z -> (0 < snd sh)%Z ->
  exists m, get_max_degree (map file_coords files) sh = Ok m.
Proof.
  intros Hs P1 P2. unfold get_max_degree. rewrite (proj2 (forallb_forall _ _)).
  - cbn [negb]. destruct (Z.eqb_spec (fst sh * snd sh) 0); [nia|eauto].
  - intros c I. apply in_map_iff in I as (fl & <- & I). apply forallb_forall. intros x J. eapply Hs; eauto.
Qed.
