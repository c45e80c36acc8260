(** Tiles that agree wherever their overlap is recorded are left alone by the
    adjustment, even if some overlaps are not recorded. *)
From Verif Require Import Base BaseLemmas PoolProofs GraphModel TileModel OverlapModel BulkModel BulkProofs
  DirichletModel DirichletSpec DirichletProofs MergeModel MergeSpec TileStateProofs AdjustProofs.
From Coq Require Import List ZifyBool Lqa Permutation.
Import ListNotations.
Set Default Goal Selector "!".
Local Open Scope Q_scope.
Local Notation tl ts i := (nth i ts dtile).

Section Fixed.
  Variables (cg : list (list Q) -> list Q -> list Q) (ilu : list (list Q) -> bool)
            (triangles : list (Z * Z) -> res (list (nat * nat * nat)))
            (f : overlap_file) (nb : nat).

  Definition agree_recorded (ts : list tile) : Prop :=
    forall i j b x, In (i, j) (of_overlaps f) -> (b < nb)%nat -> contains (tl ts i) x = true -> contains (tl ts j) x = true ->
      phase_at (tl ts i) b x == phase_at (tl ts j) b x.

  Lemma sum_same {A} (g : A -> Q) l v : (forall a, In a l -> g a == v) -> sumQ (map g l) == inject_Z (Z.of_nat (length l)) * v.
  Proof using.
    induction l as [|u l IH]; intros H; [cbn; ring|]. change (sumQ (map g (u :: l))) with (g u + sumQ (map g l)).
    rewrite IH by (intros; apply H; now right). rewrite (H u) by now left. cbn [length]. rewrite Nat2Z.inj_succ, <- Z.add_1_r, inject_Z_plus. ring.
  Qed.

  Lemma delta_zero ts degree ii m : recorded f ts -> (forall t, In t ts -> ready nb t) -> agree_recorded ts -> (ii < length ts)%nat ->
    delta cg ilu triangles f (map (neighbours f) (seq 0 (length ts))) degree ts ii = Ok (Some m) ->
    forall b p, (b < nb)%nat -> (p < npoints (tl ts ii))%nat -> at_ m b p == 0.
  Proof using.
    intros Hd Hready Ha Bi H. assert (ready nb (tl ts ii)) as Hrd by (apply Hready, nth_In, Bi).
    unfold delta in H. rewrite (nth_error_nth' ts dtile Bi) in H.
    destruct Hrd as (Tok & Enb & Lv & Lc1 & Nd). rewrite Lv in H. cbn [Nat.eqb negb] in H.
    assert (nth_error (map (neighbours f) (seq 0 (length ts))) ii = Some (neighbours f ii)) as Eo.
    { rewrite nth_error_map, (nth_error_nth' _ O) by now rewrite seq_length. cbn. now rewrite seq_nth. }
    rewrite Eo in H.
    assert (has_shape (uw_phase (tl ts ii)) nb (npoints (tl ts ii))) as Su by (apply uw_ready, Hready, nth_In, Bi).
    destruct (add_neighbours_ok f ts nb Hd Hready ii (neighbours f ii)) with (c := repeat 1%nat (npoints (tl ts ii))) (s := uw_phase (tl ts ii))
      as (c & s & Ef & Lc & Ss & V); [intros j; now apply (neighbours_link f ts)|apply repeat_length|exact Su|].
    rewrite Ef in H. cbn [bind fst snd] in H. destruct (negb _); [discriminate|].
    destruct (tile_laplacian _ _) as [lap|]; [|discriminate]. cbn [bind] in H.
    destruct (raw_corr_ok c s _ nb _ Lc Ss Su) as [[Lrc Hrc] Vr]. set (rc := raw_corr c s (uw_phase (tl ts ii))) in *.
    destruct (dirichlet_graph _ _ _ _ _ _ _) as [corr|] eqn:Eg; [|discriminate]. cbn [bind] in H.
    apply graph_ok in Eg as (Hsq & Ln & Lcr & Hrow).
    assert (length (mask_of degree c) = npoints (tl ts ii)) as Lmk by (unfold mask_of; now rewrite map_length).
    assert (has_shape corr nb (npoints (tl ts ii))) as Sc.
    { split; [lia|]. intros row I. apply (In_nth _ _ []) in I as (k & Hk & <-). rewrite Lcr in Hk. specialize (Hrow k Hk).
      apply row_ok in Hrow as (L & _); [lia|]. rewrite Lmk. apply Hrc, nth_In, Hk. }
    rewrite Enb, broadcast_full in H by auto. cbn [bind] in H. injection H as <-.
    intros b p Hb Hp. rewrite <- Lmk in Hp. rewrite <- Lrc in Hb. unfold at_.
    apply (dirichlet_row_zero cg lap (mask_of degree c) (nth b rc []) (nth b corr [])); auto; [lia|rewrite Lmk; apply Hrc, nth_In, Hb|].
    intros i Mi. pose proof (masked_lt _ _ Mi) as Li. rewrite Lmk in Li. destruct (point_exists _ _ Li) as (x & P).
    change (nth i (nth b rc []) 0) with (at_ rc b i). rewrite Lrc in Hb. rewrite Vr by auto.
    destruct (V x i P) as [Vc Vs]. rewrite Vs, Vc by auto. rewrite nth_repeat_lt by auto.
    rewrite (sum_same (fun j => phase_at (tl ts j) b x) _ (at_ (uw_phase (tl ts ii)) b i)).
    - rewrite Nat2Z.inj_add, inject_Z_plus. change (inject_Z (Z.of_nat 1)) with 1. field.
      intros E. set (n := length _) in E. assert (0 <= inject_Z (Z.of_nat n)) by (change 0 with (inject_Z 0); rewrite <- Zle_Qle; lia). lra.
    - intros j I. apply filter_In in I as [I C]. apply (neighbours_link f ts) in I; [|auto]. unfold link in I.
      assert (contains (tl ts ii) x = true) as Ci by (apply contains_spec; eauto).
      rewrite <- (phase_point _ b _ _ Nd P). destruct (Nat.le_ge_cases ii j).
      + rewrite Nat.min_l, Nat.max_r in I by auto. symmetry. now apply Ha.
      + rewrite Nat.min_r, Nat.max_l in I by auto. now apply Ha.
  Qed.

  Lemma pass_same ts order degree ts' : recorded f ts -> (forall t, In t ts -> ready nb t) ->
    Permutation order (seq 0 (length ts)) -> agree_recorded ts ->
    adjust_pass cg ilu triangles order f (map (neighbours f) (seq 0 (length ts))) ts degree = Ok ts' ->
    forall i b p, (i < length ts)%nat -> (b < nb)%nat -> (p < npoints (tl ts i))%nat ->
      at_ (uw_phase (tl ts' i)) b p == at_ (uw_phase (tl ts i)) b p.
  Proof using.
    intros Hd Hr P Ha H i b p Bi Hb Hp. apply (pass_ok cg ilu triangles f nb) in H as ([L K] & Hr' & Hv); auto.
    destruct (Hv i Bi) as (o & Eo & Q). rewrite Q by auto. destruct o as [m|]; [|ring].
    rewrite (delta_zero ts degree i m Hd Hr Ha Bi Eo) by auto. ring.
  Qed.

  Variable orders : nat -> list nat.
  Lemma passes_same l : forall ts ts', recorded f ts -> (forall t, In t ts -> ready nb t) ->
    (forall d, Permutation (orders d) (seq 0 (length ts))) -> agree_recorded ts ->
    fold_res (fun ts d => adjust_pass cg ilu triangles (orders d) f (map (neighbours f) (seq 0 (length ts))) ts d) ts l = Ok ts' ->
    forall i b p, (i < length ts)%nat -> (b < nb)%nat -> (p < npoints (tl ts i))%nat ->
      at_ (uw_phase (tl ts' i)) b p == at_ (uw_phase (tl ts i)) b p.
  Proof using.
    induction l as [|d l IH]; intros ts ts' Hd Hr P Ha H i b p Bi Hb Hp.
    - cbn in H. injection H as <-. reflexivity.
    - cbn [fold_res] in H. destruct (adjust_pass _ _ _ _ _ _ _ _) as [ts1|] eqn:E; [|discriminate]. cbn [bind] in H.
      pose proof E as E0. apply (pass_ok cg ilu triangles f nb) in E as (K & Hr1 & _); auto.
      assert (forall i b p, (i < length ts)%nat -> (b < nb)%nat -> (p < npoints (tl ts i))%nat ->
        at_ (uw_phase (tl ts1 i)) b p == at_ (uw_phase (tl ts i)) b p) as F by (eapply pass_same; eauto).
      rewrite <- (F i b p) by auto. pose proof K as [L Kt]. apply (IH ts1 ts'); auto; try lia.
      + eapply recorded_kept; eauto.
      + intros d'. rewrite L. auto.
      + intros i' j' b' x I Hb' C C'. destruct Hd as (_ & _ & Ho & _). destruct (Ho _ _ I) as (B1 & B2 & _).
        rewrite (kept_contains _ _ _ (Kt _)) in C. rewrite (kept_contains _ _ _ (Kt _)) in C'.
        assert (forall u, (u < length ts)%nat -> contains (tl ts u) x = true -> phase_at (tl ts1 u) b' x == phase_at (tl ts u) b' x) as G.
        { intros u Bu Cu. apply contains_spec in Cu as (q & Q).
          assert (ready nb (tl ts u)) as (_ & _ & _ & _ & N) by (apply Hr, nth_In, Bu).
          assert (ready nb (tl ts1 u)) as (_ & _ & _ & _ & N1) by (apply Hr1, nth_In; lia).
          assert (point_of (tl ts1 u) x q) as Q1 by (unfold point_of; rewrite (kept_coords _ _ (Kt u)); exact Q).
          rewrite (phase_point _ _ _ _ N Q), (phase_point _ _ _ _ N1 Q1). apply F; auto. eapply point_lt; eauto. }
        rewrite !G by (auto; lia). now apply Ha.
      + unfold npoints. now rewrite (kept_coords _ _ (Kt i)).
  Qed.

  Lemma adjust_same ts omap m ts' : recorded f ts -> (forall t, In t ts -> ready nb t) -> overlap_map f = Ok omap ->
    (forall d, Permutation (orders d) (seq 0 (length ts))) -> agree_recorded ts ->
    adjust_tiles_in cg ilu triangles orders f omap m ts = Ok ts' ->
    forall i b p, (i < length ts)%nat -> (b < nb)%nat -> (p < npoints (tl ts i))%nat ->
      at_ (uw_phase (tl ts' i)) b p == at_ (uw_phase (tl ts i)) b p.
  Proof using. intros Hd Hr Ho P Ha. rewrite (adjust_fold cg ilu triangles f orders ts omap Hd Ho). now apply passes_same. Qed.
End Fixed.
