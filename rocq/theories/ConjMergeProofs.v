(** Negating all tiles and offsets negates the merge. *)
From Verif Require Import Base BaseLemmas PoolProofs GraphModel TileModel TileSpec OverlapModel OverlapSpec OverlapProofs BulkModel BulkProofs
  DirichletModel DirichletSpec DirichletProofs MergeModel MergeSpec TileStateProofs AdjustProofs BandProofs MergeBatchProofs DescribeProofs
  Props_Overlap Props_Merge ShiftSpec ShiftProofs ShiftMergeProofs PerturbSpec FieldProofs ConjSpec.
From Verif Require Props_Tile.
From Coq Require Import List ZifyBool Lqa Permutation.
Import ListNotations.
Set Default Goal Selector "!".
Local Open Scope Q_scope.
Local Notation tl ts i := (nth i ts dtile).
Local Notation negs := (fun x y : Q => y == - x).

(** ** The linear solver *)
Lemma dotQ_neg u : forall v v', Forall2 negs v v' -> dotQ u v' == - dotQ u v.
Proof.
  induction u as [|x u IH]; intros v v' F; [reflexivity|]. destruct F as [|a b v v' E F]; [reflexivity|].
  rewrite !dotQ_cons, E, (IH _ _ F). ring.
Qed.
Lemma all_zero_neg l l' : Forall2 negs l l' -> all_zero l = all_zero l'.
Proof.
  induction 1 as [|x y l l' E F IH]; [auto|]. unfold all_zero in *. cbn [forallb]. rewrite IH. f_equal.
  apply eq_true_iff_eq. rewrite !Qeq_bool_iff. split; intros Z; lra.
Qed.
Lemma row_neg cg logging a mask xf xf' x : odd_solver cg -> Forall2 negs xf xf' -> dirichlet_row cg logging a mask xf = Ok x ->
  exists x', dirichlet_row cg logging a mask xf' = Ok x' /\ Forall2 negs x x'.
Proof.
  intros Hcg F. unfold dirichlet_row. cbv zeta.
  assert (Forall2 negs (sel (off mask) (map (fun row => - dotQ (sel mask row) (sel mask xf)) a))
                      (sel (off mask) (map (fun row => - dotQ (sel mask row) (sel mask xf')) a))) as Fb.
  { apply sel_comp. induction a as [|r a IH]; cbn [map]; constructor; auto. now rewrite (dotQ_neg _ _ _ (sel_comp negs mask _ _ F)). }
  rewrite <- (all_zero_neg _ _ Fb), <- (Forall2_len _ _ _ Fb). destruct (negb _); [discriminate|].
  destruct (_ && _); intros E; injection E as <-; eexists; (split; [reflexivity|]).
  - apply put_comp; [|exact F]. generalize (length (free_block mask a)). intros n. induction n; cbn [repeat]; constructor; auto. reflexivity.
  - apply put_comp; [apply Hcg, Fb|exact F].
Qed.
Lemma graph_neg cg ilu logging a n xf xf' mask c : odd_solver cg -> Forall2 (Forall2 negs) xf xf' ->
  dirichlet_graph cg ilu logging a n xf mask = Ok c ->
  exists c', dirichlet_graph cg ilu logging a n xf' mask = Ok c' /\ Forall2 (Forall2 negs) c c'.
Proof.
  intros Hcg F. unfold dirichlet_graph. destruct (negb _); [discriminate|]. destruct (negb _); [discriminate|]. destruct (negb _); [discriminate|].
  revert c. induction F as [|r r' xf xf' E F IH]; intros c H; cbn [map_res] in *; [injection H as <-; exists []; split; [reflexivity|constructor]|].
  destruct (dirichlet_row _ _ _ _ r) as [x|] eqn:Er; [|discriminate]. cbn [bind] in H. destruct (map_res _ xf) as [c0|]; [|discriminate]. cbn [bind] in H.
  injection H as <-. destruct (row_neg _ _ _ _ _ _ _ Hcg E Er) as (x' & -> & Fx). destruct (IH c0 eq_refl) as (c' & -> & Fc).
  exists (x' :: c'). split; [reflexivity|]. now constructor.
Qed.
Lemma sum_neg {A} (g g' : A -> Q) l : (forall a, In a l -> g' a == - g a) -> sumQ (map g' l) == - sumQ (map g l).
Proof.
  induction l as [|a l IH]; intros K; [reflexivity|]. cbn [map]. unfold sumQ in *. cbn [fold_right].
  rewrite K, IH by (auto with datatypes). ring.
Qed.
Lemma matrix_rel (R : Q -> Q -> Prop) m m' nb np : has_shape m nb np -> has_shape m' nb np ->
  (forall b p, (b < nb)%nat -> (p < np)%nat -> R (at_ m b p) (at_ m' b p)) <-> Forall2 (Forall2 R) m m'.
Proof.
  intros [L H] [L' H']. rewrite (Forall2_nth_iff _ m m' [] []). split.
  - intros K. split; [lia|]. intros b Bb. apply (Forall2_nth_iff _ _ _ 0 0). rewrite H, H' by (apply nth_In; lia). split; [reflexivity|]. intros p Bp. apply K; lia.
  - intros [_ K] b p Bb Bp. specialize (K b ltac:(lia)). apply (Forall2_nth_iff _ _ _ 0 0) in K as [_ K]. apply K. rewrite H by (apply nth_In; lia). exact Bp.
Qed.
Definition matrix_neg := matrix_rel (fun x y => y == - x).
Lemma bulk_fits bulk bulk' j idx : opposite_rows bulk bulk' ->
  forallb (fun b => (b <? length bulk') && (j <? length (nth b bulk' [])))%nat idx = forallb (fun b => (b <? length bulk) && (j <? length (nth b bulk [])))%nat idx.
Proof.
  intros [L H]. induction idx as [|b idx IH]; [reflexivity|]. cbn [forallb]. rewrite IH, L. destruct (H b) as [-> _]. reflexivity.
Qed.

(** ** The adjustment *)
Section Neg.
  Variables (cg : list (list Q) -> list Q -> list Q) (ilu : list (list Q) -> bool)
            (triangles : list (Z * Z) -> res (list (nat * nat * nat))) (f f' : overlap_file) (nb : nat).
  Hypothesis Hcg : odd_solver cg.
  Hypothesis Hov : of_overlaps f' = of_overlaps f.

  Lemma nbrs_same i : neighbours f' i = neighbours f i.
  Proof using Hov. unfold neighbours. now rewrite Hov. Qed.

  Definition negd (ts ts' : list tile) : Prop :=
    length ts' = length ts /\ forall i, (i < length ts)%nat -> coords (tl ts' i) = coords (tl ts i) /\
      forall b p, (b < nb)%nat -> (p < npoints (tl ts i))%nat -> at_ (uw_phase (tl ts' i)) b p == - at_ (uw_phase (tl ts i)) b p.

  Lemma negd_phase ts ts' i b x : (forall t, In t ts -> ready nb t) -> negd ts ts' -> (i < length ts)%nat -> (b < nb)%nat ->
    contains (tl ts i) x = true -> phase_at (tl ts' i) b x == - phase_at (tl ts i) b x.
  Proof using.
    intros Hr [L K] Bi Bb C. destruct (K i Bi) as [Ec Ep]. unfold phase_at. rewrite Ec. apply contains_spec in C as (p & P).
    assert (ready nb (tl ts i)) as (_ & _ & _ & _ & Nd) by (apply Hr, nth_In, Bi). rewrite (position_spec _ _ _ Nd P).
    apply Ep; [exact Bb|]. exact (point_lt _ _ _ P).
  Qed.

  Lemma delta_negd ts ts' degree i o : recorded f ts -> recorded f' ts' ->
    (forall t, In t ts -> ready nb t) -> (forall t, In t ts' -> ready nb t) -> negd ts ts' -> (i < length ts)%nat ->
    delta cg ilu triangles f (map (neighbours f) (seq 0 (length ts))) degree ts i = Ok o ->
    exists o', delta cg ilu triangles f' (map (neighbours f') (seq 0 (length ts'))) degree ts' i = Ok o' /\
      match o, o' with
      | Some m, Some m' => forall b p, (b < nb)%nat -> (p < npoints (tl ts i))%nat -> at_ m' b p == - at_ m b p
      | None, None => True
      | _, _ => False
      end.
  Proof using Hcg Hov.
    intros Hd Hd' Hr Hr' Sh Bi H. pose proof Sh as [L K]. destruct (K i Bi) as [Ec Ep]. assert (i < length ts')%nat as Bi' by lia.
    assert (npoints (tl ts' i) = npoints (tl ts i)) as En by (unfold npoints; now rewrite Ec).
    assert (ready nb (tl ts i)) as Ri by (apply Hr, nth_In, Bi). assert (ready nb (tl ts' i)) as Ri' by (apply Hr', nth_In, Bi').
    unfold delta in *. rewrite (nth_error_nth' ts dtile Bi) in H. rewrite (nth_error_nth' ts' dtile Bi').
    pose proof Ri as (_ & Eb & Lv & _ & Nd). pose proof Ri' as (_ & Eb' & Lv' & _ & Nd'). rewrite Lv in H. rewrite Lv'. cbn [Nat.eqb negb] in *.
    assert (forall g n, (i < n)%nat -> nth_error (map (neighbours g) (seq 0 n)) i = Some (neighbours g i)) as En2.
    { intros g n B. rewrite nth_error_map, (nth_error_nth' _ O) by now rewrite seq_length. cbn. now rewrite seq_nth. }
    rewrite En2 in H by auto. rewrite En2 by auto.
    destruct (add_neighbours_ok f ts nb Hd Hr i (neighbours f i)) with (c := repeat 1%nat (npoints (tl ts i))) (s := uw_phase (tl ts i)) as (c & sm & Ef & Lc & Ss & V).
    { intros j. now apply (neighbours_link f ts). }
    { apply repeat_length. }
    { now apply uw_ready. }
    destruct (add_neighbours_ok f' ts' nb Hd' Hr' i (neighbours f' i)) with (c := repeat 1%nat (npoints (tl ts' i))) (s := uw_phase (tl ts' i)) as (c' & sm' & Ef' & Lc' & Ss' & V').
    { intros j I. now apply (neighbours_link f' ts') in I. }
    { apply repeat_length. }
    { now apply uw_ready. }
    rewrite nbrs_same in *.
    assert (forall j, In j (neighbours f i) -> (j < length ts)%nat) as Hj.
    { intros j I. apply (neighbours_link f ts) in I; [|exact Hd]. destruct Hd as (_ & _ & Ho & _). destruct (Ho _ _ I); lia. }
    assert (forall x, filter (fun j => contains (tl ts' j) x) (neighbours f i) = filter (fun j => contains (tl ts j) x) (neighbours f i)) as Efl.
    { intros x. apply filter_ext_in. intros j I. apply Hj in I. unfold contains. now rewrite (proj1 (K j I)). }
    assert (forall x p, point_of (tl ts i) x p -> point_of (tl ts' i) x p) as Pp by (unfold point_of; now rewrite Ec).
    assert (c' = c) as ->.
    { apply (nth_ext _ _ O O); [lia|]. intros p Bp. rewrite Lc', En in Bp. destruct (point_exists _ _ Bp) as (x & P).
      destruct (V x p P) as [-> _]. destruct (V' x p (Pp _ _ P)) as [-> _]. rewrite Efl, En. reflexivity. }
    rewrite Ef in H. rewrite Ef'. cbn [bind fst snd] in *. rewrite En in *.
    destruct (negb _); [injection H as <-; exists None; auto|].
    assert (tile_laplacian triangles (tl ts' i) = tile_laplacian triangles (tl ts i)) as -> by (unfold tile_laplacian; now rewrite Ec).
    destruct (tile_laplacian _ _) as [lap|]; [|discriminate]. cbn [bind] in *.
    pose proof (uw_ready nb _ Ri) as Su. pose proof (uw_ready nb _ Ri') as Su'. rewrite En in Su'.
    destruct (raw_corr_ok c sm _ nb _ Lc Ss Su) as [Sr Vr]. destruct (raw_corr_ok c sm' _ nb _ Lc Ss' Su') as [Sr' Vr'].
    set (rc := raw_corr c sm (uw_phase (tl ts i))) in *. set (rc' := raw_corr c sm' (uw_phase (tl ts' i))) in *.
    assert (forall b p, (b < nb)%nat -> (p < npoints (tl ts i))%nat -> at_ rc' b p == - at_ rc b p) as Erc.
    { intros b p Bb Bp. rewrite Vr, Vr' by auto. destruct (point_exists _ _ Bp) as (x & P).
      destruct (V x p P) as [Nc Vs]. destruct (V' x p (Pp _ _ P)) as [_ Vs']. rewrite (Vs b Bb), (Vs' b Bb), Efl, (Ep b p Bb Bp).
      set (l := filter _ _) in *. rewrite nth_repeat_lt in Nc by auto. rewrite Nc.
      rewrite (sum_neg (fun j => phase_at (tl ts j) b x) (fun j => phase_at (tl ts' j) b x) l).
      - rewrite Nat2Z.inj_add, inject_Z_plus. change (inject_Z (Z.of_nat 1)) with 1. set (k := inject_Z (Z.of_nat (length l))).
        assert (0 <= k) as Pk by (unfold k; change 0 with (inject_Z 0); rewrite <- Zle_Qle; lia).
        field. intros E. lra.
      - intros j I. apply filter_In in I as [I C]. exact (negd_phase ts ts' j b x Hr Sh (Hj j I) Bb C). }
    destruct (dirichlet_graph _ _ _ _ _ rc _) as [corr|] eqn:Eg; [|discriminate]. cbn [bind] in H.
    destruct (graph_any _ _ _ _ _ _ _ _ rc' (or_nil _ _ (eq_trans (proj1 Sr') (eq_sym (proj1 Sr)))) Eg) as (corr' & Eg'). rewrite Eg'. cbn [bind].
    assert (length (mask_of degree c) = npoints (tl ts i)) as Lmk by (unfold mask_of; now rewrite map_length).
    assert (forall r cr, has_shape r nb (npoints (tl ts i)) -> dirichlet_graph cg ilu true lap (npoints (tl ts i)) r (mask_of degree c) = Ok cr ->
      has_shape cr nb (npoints (tl ts i))) as Sc.
    { intros r cr [Lr Hrr] E. apply graph_ok in E as (_ & _ & Lcr & Hrow). split; [lia|]. intros row I. apply (In_nth _ _ []) in I as (q & Hq & <-). rewrite Lcr in Hq. specialize (Hrow q Hq).
      apply row_ok in Hrow as (L1 & _); [lia|]. rewrite Lmk. apply Hrr, nth_In, Hq. }
    pose proof (Sc _ _ Sr Eg) as S1. pose proof (Sc _ _ Sr' Eg') as S2.
    rewrite Eb, broadcast_full in H by auto. rewrite Eb', broadcast_full by auto. cbn [bind] in *. injection H as <-. exists (Some corr'). split; [reflexivity|].
    intros b p Bb Bp. pose proof (proj1 (matrix_neg rc rc' nb _ Sr Sr') Erc) as Frc.
    destruct (graph_neg _ _ _ _ _ _ _ _ _ Hcg Frc Eg) as (corr2 & Eg2 & Fc). rewrite Eg' in Eg2. injection Eg2 as <-.
    now apply (proj2 (matrix_neg corr corr' nb _ S1 S2) Fc).
  Qed.

  Lemma pass_negd ts ts' order degree us : recorded f ts -> recorded f' ts' ->
    (forall t, In t ts -> ready nb t) -> (forall t, In t ts' -> ready nb t) -> negd ts ts' -> Permutation order (seq 0 (length ts)) ->
    adjust_pass cg ilu triangles order f (map (neighbours f) (seq 0 (length ts))) ts degree = Ok us ->
    exists us', adjust_pass cg ilu triangles order f' (map (neighbours f') (seq 0 (length ts'))) ts' degree = Ok us' /\ negd us us' /\
      all_kept ts us /\ all_kept ts' us' /\ (forall t, In t us -> ready nb t) /\ (forall t, In t us' -> ready nb t).
  Proof using Hcg Hov.
    intros Hd Hd' Hr Hr' Sh P H. pose proof Sh as [L K].
    destruct (pass_ok cg ilu triangles f nb ts order degree us Hd Hr P H) as (Kp & Ru & Dl).
    assert (Permutation order (seq 0 (length ts'))) as P' by now rewrite L.
    destruct (pass_total cg ilu triangles f' nb order degree ts' Hd' Hr' P') as (us' & H').
    { intros i Bi. rewrite L in Bi. destruct (Dl i Bi) as (o & Eo & _). destruct (delta_negd ts ts' degree i o Hd Hd' Hr Hr' Sh Bi Eo) as (o' & Eo' & _). eauto. }
    destruct (pass_ok cg ilu triangles f' nb ts' order degree us' Hd' Hr' P' H') as (Kp' & Ru' & Dl').
    exists us'. split; [exact H'|]. split; [|auto]. destruct Kp as [Lu Ku], Kp' as [Lu' Ku']. split; [lia|]. intros i Bi. rewrite Lu in Bi.
    destruct (K i Bi) as [Ec Ep]. split; [rewrite (kept_coords _ _ (Ku i)), (kept_coords _ _ (Ku' i)); exact Ec|].
    intros b p Bb Bp. unfold npoints in Bp. rewrite (kept_coords _ _ (Ku i)) in Bp. fold (npoints (tl ts i)) in Bp.
    assert (npoints (tl ts' i) = npoints (tl ts i)) as En by (unfold npoints; now rewrite Ec).
    destruct (Dl i Bi) as (o & Eo & Q1). destruct (Dl' i ltac:(lia)) as (o2 & Eo2 & Q2).
    destruct (delta_negd ts ts' degree i o Hd Hd' Hr Hr' Sh Bi Eo) as (o' & Eo' & M). rewrite Eo2 in Eo'. injection Eo' as ->.
    rewrite (Q1 b p Bb Bp), (Q2 b p Bb) by lia. rewrite (Ep b p Bb Bp).
    destruct o as [m|], o' as [m'|]; try contradiction; [rewrite (M b p Bb Bp)|]; ring.
  Qed.

  Lemma passes_negd l : forall orders ts ts' us, recorded f ts -> recorded f' ts' ->
    (forall t, In t ts -> ready nb t) -> (forall t, In t ts' -> ready nb t) -> negd ts ts' -> (forall d : nat, Permutation (orders d) (seq 0 (length ts))) ->
    fold_res (fun a d => adjust_pass cg ilu triangles (orders d) f (map (neighbours f) (seq 0 (length a))) a d) ts l = Ok us ->
    exists us', fold_res (fun a d => adjust_pass cg ilu triangles (orders d) f' (map (neighbours f') (seq 0 (length a))) a d) ts' l = Ok us' /\ negd us us'.
  Proof using Hcg Hov.
    induction l as [|d l IH]; intros orders ts ts' us Hd Hd' Hr Hr' Sh P H; cbn [fold_res] in *.
    - injection H as <-. eauto.
    - destruct (adjust_pass _ _ _ _ f _ ts d) as [us1|] eqn:E; [|discriminate]. cbn [bind] in H.
      destruct (pass_negd ts ts' (orders d) d us1 Hd Hd' Hr Hr' Sh (P d) E) as (us1' & -> & Sh1 & K1 & K1' & R1 & R1'). cbn [bind].
      apply (IH orders us1 us1' us); auto.
      + eapply recorded_kept; eauto.
      + eapply recorded_kept; eauto.
      + intros d'. destruct K1 as [-> _]. apply P.
  Qed.

  Lemma adjust_negd ts ts' omap m us : recorded f ts -> recorded f' ts' ->
    (forall t, In t ts -> ready nb t) -> (forall t, In t ts' -> ready nb t) -> negd ts ts' ->
    overlap_map f = Ok omap -> overlap_map f' = Ok omap ->
    adjust_tiles cg ilu triangles f omap m ts = Ok us ->
    exists us', adjust_tiles cg ilu triangles f' omap m ts' = Ok us' /\ negd us us' /\
      all_kept ts us /\ all_kept ts' us' /\ (forall t, In t us -> ready nb t) /\ (forall t, In t us' -> ready nb t).
  Proof using Hcg Hov.
    intros Hd Hd' Hr Hr' Sh Ho Ho' H. pose proof Sh as [L _]. unfold adjust_tiles in *.
    assert (exists us', adjust_tiles_in cg ilu triangles (fun _ => seq 0 (length ts')) f' omap m ts' = Ok us' /\ negd us us') as (us' & H' & Su).
    { rewrite (adjust_fold cg ilu triangles f (fun _ => seq 0 (length ts)) ts omap Hd Ho) in H.
      rewrite (adjust_fold cg ilu triangles f' (fun _ => seq 0 (length ts')) ts' omap Hd' Ho'). rewrite L.
      apply (passes_negd _ (fun _ => seq 0 (length ts)) ts ts' us); auto. }
    exists us'. split; [exact H'|]. split; [exact Su|].
    destruct (adjust_kept cg ilu triangles f nb (fun _ => seq 0 (length ts)) ts omap Hd Hr Ho (fun _ => Permutation_refl _) m us H) as [A1 A2].
    destruct (adjust_kept cg ilu triangles f' nb (fun _ => seq 0 (length ts')) ts' omap Hd' Hr' Ho' (fun _ => Permutation_refl _) m us' H') as [B1 B2]. auto.
  Qed.
End Neg.

(** ** One band *)
Section Band.
  Variables (nb : nat) (idx : list nat) (us us' : list tile) (sh : Z * Z) (n b : nat).
  Hypothesis Hi : length idx = nb.
  Hypothesis Nd : NoDup idx.
  Hypothesis Hr : forall t, In t us -> ready nb t.
  Hypothesis Hr' : forall t, In t us' -> ready nb t.
  Hypothesis Hm : forall t, In t us -> mergeable idx t.
  Hypothesis Hm' : forall t, In t us' -> mergeable idx t.
  Hypothesis Hb : nth_error idx n = Some b.
  Hypothesis Sh : negd nb us us'.
  Hypothesis Raw : forall i p, (i < length us)%nat -> (p < npoints (tl us i))%nat ->
    at_ (t_raw (tl us' i)) n p == - at_ (t_raw (tl us i)) n p.

  Let Bn : (n < nb)%nat.
  Proof using Hb Hi. rewrite <- Hi. apply nth_error_Some. congruence. Qed.
  Let inside x := filter (fun j => contains (tl us j) x) (seq 0 (length us)).
  Let same x : holders us x = map (fun j => tl us j) (inside x) /\ holders us' x = map (fun j => tl us' j) (inside x).
  Proof using Sh.
    destruct Sh as [L K]. split; [apply holders_index|]. rewrite holders_index, L. f_equal. apply filter_ext_in. intros j I. apply in_seq in I.
    unfold contains. now rewrite (proj1 (K j ltac:(lia))).
  Qed.
  Let inside_lt x j : In j (inside x) -> (j < length us)%nat /\ contains (tl us j) x = true.
  Proof using. intros I. apply filter_In in I as [I C]. apply in_seq in I. split; [lia|exact C]. Qed.

  Lemma band_negd arr diff model : merged_band us b sh = Ok (arr, diff, model) ->
    exists arr' diff' model', merged_band us' b sh = Ok (arr', diff', model') /\
      forall x, in_shape sh x = true ->
        neg_opt (pixel model x) (pixel model' x) /\ same_value (pixel diff x) (pixel diff' x) /\ neg_opt (pixel arr x) (pixel arr' x).
  Proof using Hi Nd Hr Hr' Hm Hm' Hb Sh Raw.
    intros H. destruct (merged_values idx us b n sh Nd Hm Hb arr diff model H) as (Ne & Hs & _). pose proof Sh as [L K].
    assert (us' <> []) as Ne' by (intros E; rewrite E in L; destruct us; [contradiction|cbn in L; lia]).
    assert (forall t x, In t us' -> contains t x = true -> in_shape sh x = true) as Hs'.
    { intros t x I C. apply (In_nth _ _ dtile) in I as (i & Bi & <-). rewrite L in Bi. apply (Hs (tl us i)); [now apply nth_In|].
      unfold contains in *. now rewrite <- (proj1 (K i Bi)). }
    pose proof (merged_total idx us' b sh n Ne' Nd Hm' Hs' Hb) as T. cbv zeta in T.
    destruct (merged_band us' b sh) as [[[arr' diff'] model']|] eqn:H'; [|discriminate]. clear T. exists arr', diff', model'. split; [reflexivity|].
    intros x S. destruct (same x) as [E E']. pose proof (inside_lt x) as Il.
    assert (forall j, In j (inside x) -> phase_at (tl us' j) n x == - phase_at (tl us j) n x) as Ph.
    { intros j I. destruct (Il j I) as [B C]. exact (negd_phase nb us us' j n x Hr Sh B Bn C). }
    revert E E' Il Ph. generalize (inside x). intros ins. destruct ins as [|j0 fl _] using rev_ind; intros E E' Il Ph.
    - destruct (merged_nan idx us b n sh Nd Hm Hb arr diff model H x S E) as (-> & -> & ->).
      destruct (merged_nan idx us' b n sh Nd Hm' Hb arr' diff' model' H' x S E') as (-> & -> & ->). cbn. auto.
    - rewrite !map_app in E, E'. cbn [map] in E, E'.
      destruct (merged_pixel idx us b n sh Nd Hm Hb arr diff model H x S _ _ E) as (w & v & Ew & Aw & Ev & Av).
      destruct (merged_pixel idx us' b n sh Nd Hm' Hb arr' diff' model' H' x S _ _ E') as (w' & v' & Ew' & Aw' & Ev' & Av').
      assert (average_at us' n x == - average_at us n x) as Avg.
      { unfold average_at, average. rewrite !map_length. rewrite E, E'. 
        change (map (fun j => tl us j) fl ++ [tl us j0]) with (map (fun j => tl us j) fl ++ map (fun j => tl us j) [j0]).
        change (map (fun j => tl us' j) fl ++ [tl us' j0]) with (map (fun j => tl us' j) fl ++ map (fun j => tl us' j) [j0]).
        rewrite <- !map_app, !map_map, !map_length.
        rewrite (sum_neg (fun j => phase_at (tl us j) n x) (fun j => phase_at (tl us' j) n x) (fl ++ [j0]) Ph).
        rewrite app_length. cbn [length]. rewrite Nat2Z.inj_add, inject_Z_plus. change (inject_Z (Z.of_nat 1)) with 1. set (q := inject_Z (Z.of_nat (length fl))).
        assert (0 <= q) as Pq by (unfold q; change 0 with (inject_Z 0); rewrite <- Zle_Qle; lia). field. intros X. lra. }
      rewrite Ew, Ew', Ev, Ev'. split; [|split].
      + cbn. now rewrite Aw', Aw, Avg.
      + destruct (merged_diff idx us b n sh Nd Hm Hb arr diff model H x S) as [D1 D2]. destruct (merged_diff idx us' b n sh Nd Hm' Hb arr' diff' model' H' x S) as [D1' D2'].
        assert (length (holders us' x) = length (holders us x)) as Lh by (rewrite E, E', !app_length, !map_length; reflexivity).
        destruct (Nat.lt_ge_cases (length (holders us x)) 2) as [C2|C2]; [rewrite D1, D1' by lia; exact I|].
        destruct (D2 C2) as (t & u & It & Iu & -> & Bd). destruct (D2' ltac:(lia)) as (t' & u' & It' & Iu' & -> & Bd'). cbn [same_value].
        change [tl us j0] with (map (fun j => tl us j) [j0]) in E. change [tl us' j0] with (map (fun j => tl us' j) [j0]) in E'. rewrite <- map_app in E, E'.
        assert (forall y, In y (holders us x) -> exists j, In j (fl ++ [j0]) /\ y = tl us j) as Hh by (intros y Iy; rewrite E in Iy; apply in_map_iff in Iy as (j & <- & Ij); eauto).
        assert (forall y, In y (holders us' x) -> exists j, In j (fl ++ [j0]) /\ y = tl us' j) as Hh' by (intros y Iy; rewrite E' in Iy; apply in_map_iff in Iy as (j & <- & Ij); eauto).
        destruct (Hh t It) as (a & Ia & ->). destruct (Hh u Iu) as (a2 & Ia2 & ->). destruct (Hh' t' It') as (a' & Ia' & ->). destruct (Hh' u' Iu') as (a2' & Ia2' & ->).
        assert (forall j, In j (fl ++ [j0]) -> In (tl us j) (holders us x) /\ In (tl us' j) (holders us' x)) as Hin.
        { intros j Ij. rewrite E, E'. split; apply in_map_iff; eauto. }
        destruct (Bd _ (proj1 (Hin _ Ia'))) as [P1 _]. destruct (Bd _ (proj1 (Hin _ Ia2'))) as [_ P2].
        destruct (Bd' _ (proj2 (Hin _ Ia))) as [P3 _]. destruct (Bd' _ (proj2 (Hin _ Ia2))) as [_ P4].
        rewrite (Ph _ Ia), (Ph _ Ia2') in P3. rewrite (Ph _ Ia2), (Ph _ Ia') in P4. rewrite (Ph _ Ia'), (Ph _ Ia2').
        lra.
      + assert (In j0 (fl ++ [j0])) as I0 by (apply in_or_app; right; now left). destruct (Il j0 I0) as [B0 C0].
        assert (raw_at (tl us' j0) n x == - raw_at (tl us j0) n x) as Er.
        { unfold raw_at. rewrite (proj1 (K j0 B0)). apply contains_spec in C0 as (p & P). assert (ready nb (tl us j0)) as (_ & _ & _ & _ & Nc) by (apply Hr, nth_In, B0).
          rewrite (position_spec _ _ _ Nc P). apply Raw; [exact B0|exact (point_lt _ _ _ P)]. }
        cbn [neg_opt]. rewrite Av', Av. pose proof twopi_pos as Tp.
        rewrite (wrap_around_comp _ _ _ _ Avg Er). unfold wrap_around. cbv zeta.
        rewrite (rint_comp ((- raw_at (tl us j0) n x - - average_at us n x) / twopi) (- ((raw_at (tl us j0) n x - average_at us n x) / twopi))) by (field; lra).
        rewrite rint_opp, inject_Z_opp. ring.
  Qed.
End Band.

(** ** A batch *)
Lemma start_negd files files' bulk bulk' idx bands ts : length files' = length files -> opposite_rows bulk bulk' ->
  (forall fl, In fl files -> tile_bands bands fl) -> (forall fl, In fl files' -> tile_bands bands fl) ->
  start_tiles files bulk idx = Ok ts -> exists ts', start_tiles files' bulk' idx = Ok ts'.
Proof.
  intros L Hbk Hb Hb' H. unfold start_tiles in *. apply map_res_nth in H as [_ K]. rewrite combine_length, seq_length, Nat.min_id in K.
  apply map_res_ok_iff. intros [j fl] I. cbn [fst snd].
  assert (j < length files)%nat as Bj by (apply in_combine_l, in_seq in I; lia). apply in_combine_r in I.
  specialize (K j (O, dfile) dtile Bj). rewrite nth_combine in K by (rewrite ?seq_length; auto). rewrite seq_nth in K by auto. cbn [fst snd Nat.add] in K.
  destruct (Hb (nth j files dfile)) as (A1 & A2 & _); [now apply nth_In|]. destruct (Hb' fl I) as (A1' & A2' & _).
  unfold start_tile, reset_band_index in *. rewrite A1, A2 in K. rewrite A1', A2'. destruct idx as [|i0 idx0] eqn:Ei; [discriminate|]. rewrite <- Ei in *. clear Ei i0 idx0.
  destruct (negb (increasing idx)); [discriminate|]. destruct (negb (forallb (fun b => (b <? bands) && (b <? bands))%nat idx)); [discriminate|]. cbn [bind] in *.
  rewrite <- (bulk_fits bulk bulk' j idx Hbk) in K. destruct (negb _); [discriminate|].
  unfold add_correction. cbn [t_idx t_file t_raw t_corr t_level]. rewrite broadcast_column by apply map_length. cbn [bind]. eauto.
Qed.

Section Batch.
  Variables (cg : list (list Q) -> list Q -> list Q) (ilu : list (list Q) -> bool) (triangles : list (Z * Z) -> res (list (nat * nat * nat)))
    (f f' : overlap_file) (omap : list (list nat)) (md : nat) (files files' : list tile_file) (bulk bulk' : list (list Q)) (bands : nat) (sh : Z * Z) (idx : list nat).
  Hypothesis Hcg : odd_solver cg.
  Hypothesis Hov : of_overlaps f' = of_overlaps f.
  Hypothesis Hbk : opposite_rows bulk bulk'.
  Hypothesis Hf : forall fl, In fl files -> NoDup (tf_points fl) /\ tile_bands bands fl.
  Hypothesis Hf' : forall fl, In fl files' -> NoDup (tf_points fl) /\ tile_bands bands fl.
  Hypothesis Ly : same_layout files files'.
  Hypothesis Mf : opposite_files bands files files'.
  Hypothesis Hrec : recorded_files f files.
  Hypothesis Hrec' : recorded_files f' files'.
  Hypothesis Hom : overlap_map f = Ok omap.
  Hypothesis Hom' : overlap_map f' = Ok omap.

  Lemma batch_negd outs : merge_batch cg ilu triangles f omap md bulk sh files idx = Ok outs ->
    exists outs', merge_batch cg ilu triangles f' omap md bulk' sh files' idx = Ok outs' /\
      length outs = length idx /\ length outs' = length idx /\
      forall n b arr diff model, nth_error idx n = Some b -> nth_error outs n = Some (arr, diff, model) ->
      exists arr' diff' model', nth_error outs' n = Some (arr', diff', model') /\
        forall x, in_shape sh x = true ->
        neg_opt (pixel model x) (pixel model' x) /\ same_value (pixel diff x) (pixel diff' x) /\ neg_opt (pixel arr x) (pixel arr' x).
  Proof using All.
    intros Hm. unfold merge_batch in *. destruct (start_tiles files bulk idx) as [ts|] eqn:Es; [|discriminate]. cbn [bind] in Hm.
    destruct (adjust_tiles _ _ _ f omap md ts) as [us|] eqn:Ea; [|discriminate]. cbn [bind] in Hm.
    assert (forall fl, In fl files -> file_ok fl /\ NoDup (tf_points fl)) as Ff by (intros fl I; destruct (Hf fl I) as (A & _ & _ & B); auto).
    assert (forall fl, In fl files' -> file_ok fl /\ NoDup (tf_points fl)) as Ff' by (intros fl I; destruct (Hf' fl I) as (A & _ & _ & B); auto).
    destruct (start_negd files files' bulk bulk' idx bands ts (proj1 Ly) Hbk (fun fl I => proj2 (Hf fl I)) (fun fl I => proj2 (Hf' fl I)) Es) as (ts' & Es').
    rewrite Es'. cbn [bind].
    assert (forall n j, (j < length files)%nat -> (n < length idx)%nat -> (nth n idx O < bands)%nat) as Bidx.
    { intros n j Bj Bn. destruct (started bulk files Ff idx ts Es) as (_ & _ & K0). specialize (K0 j Bj). unfold start_tile, reset_band_index in K0.
      destruct (Hf (nth j files dfile)) as (_ & A1 & A2 & _); [now apply nth_In|]. fold dfile in K0. rewrite A1, A2 in K0. destruct idx as [|i0 idx0] eqn:Ei; [discriminate|]. rewrite <- Ei in *. clear Ei i0 idx0.
      destruct (negb (increasing idx)); [discriminate|]. destruct (forallb (fun b => (b <? bands) && (b <? bands))%nat idx) eqn:Fb; [|discriminate]. rewrite forallb_forall in Fb.
      specialize (Fb _ (nth_In idx O Bn)). lia. }
    destruct (started bulk files Ff idx ts Es) as (F & Rt & K0). destruct (started bulk' files' Ff' idx ts' Es') as (F' & Rt' & K0'). fold dfile in K0, K0'.
    assert (length ts = length files) as Lt by (rewrite <- F; now rewrite map_length).
    assert (length ts' = length files') as Lt' by (rewrite <- F'; now rewrite map_length).
    pose proof (proj1 Ly) as Lf.
    assert (forall j, (j < length files)%nat -> coords (tl ts j) = file_coords (nth j files dfile)) as Cts.
    { intros j Bj. unfold coords. f_equal. rewrite <- F. symmetry. apply map_nth'. lia. }
    assert (forall j, (j < length files)%nat -> coords (tl ts' j) = file_coords (nth j files dfile)) as Cts'.
    { intros j Bj. rewrite <- (layout_coords files files' j Ly). unfold coords. f_equal. rewrite <- F'. symmetry. apply map_nth'. lia. }
    assert (forall j n p, (j < length files)%nat -> (n < length idx)%nat -> (p < npoints (tl ts j))%nat ->
      at_ (t_raw (tl ts' j)) n p == - at_ (t_raw (tl ts j)) n p /\
      at_ (uw_phase (tl ts' j)) n p == - at_ (uw_phase (tl ts j)) n p) as V.
    { intros j n p Bj Bn Bp. unfold npoints in Bp. rewrite Cts in Bp by auto. unfold file_coords in Bp. rewrite map_length in Bp.
      assert (nth n idx O < bands)%nat as Bb by eauto.
      destruct (Ff (nth j files dfile)) as [Fo Np]; [now apply nth_In|]. destruct (Ff' (nth j files' dfile)) as [Fo' Np']; [apply nth_In; lia|].
      destruct (start_ok _ j bulk Fo idx _ (K0 j Bj) Np) as (_ & _ & _ & St). destruct (start_ok _ j bulk' Fo' idx _ (K0' j ltac:(lia)) Np') as (_ & _ & _ & St').
      destruct (St n p Bn Bp) as [V1 V2]. destruct (St' n p Bn) as [V1' V2'].
      { destruct Ly as [_ Y]. destruct (Y j) as [Y1 _]. rewrite no_file_d in Y1. now rewrite Y1. }
      pose proof (Mf (nth n idx O) j p Bb) as E. rewrite no_file_d in E. specialize (E Bp). unfold MergeSpec.phase_of in E.
      cbv zeta in V1, V2, V1', V2'. split; [rewrite V1', V1; exact E|].
      rewrite V2', V2, E. destruct Hbk as [_ Hbk2]. destruct (Hbk2 (nth n idx O)) as [_ Hbk3]. rewrite (Hbk3 j). ring. }
    assert (negd (length idx) ts ts') as Sh.
    { split; [lia|]. intros j Bj. rewrite Lt in Bj. split; [rewrite Cts, Cts' by auto; reflexivity|]. intros n p Bn Bp. now apply V. }
    destruct (adjust_negd cg ilu triangles f f' (length idx) Hcg Hov) with (ts := ts) (ts' := ts') (omap := omap) (m := md) (us := us)
      as (us' & Ea' & Su & Kp & Kp' & Ru & Ru'); auto.
    { intros t0 I. apply Rt, I. }
    { intros t0 I. apply Rt', I. }
    rewrite Ea'. cbn [bind].
    pose proof (kept_idx_mergeable idx ts us Kp (fun t I => proj2 (Rt t I)) Ru) as Mg. pose proof (kept_idx_mergeable idx ts' us' Kp' (fun t I => proj2 (Rt' t I)) Ru') as Mg'.
    destruct Kp as [Lu Ku]. destruct Kp' as [Lu' Ku'].
    assert (forall n b arr diff model, nth_error idx n = Some b -> merged_band us b sh = Ok (arr, diff, model) ->
      exists arr' diff' model', merged_band us' b sh = Ok (arr', diff', model') /\
        forall x, in_shape sh x = true ->
        neg_opt (pixel model x) (pixel model' x) /\ same_value (pixel diff x) (pixel diff' x) /\ neg_opt (pixel arr x) (pixel arr' x)) as Each.
    { intros n b arr diff model Eb Em. assert (n < length idx)%nat as Bn by (apply nth_error_Some; congruence).
      assert (nth n idx O = b) as En by now apply nth_error_nth.
      destruct files as [|f0 fr] eqn:Ef.
      { exfalso. destruct us; [|cbn in Lu, Lt; lia]. cbn in Em. discriminate. }
      rewrite <- Ef in *.
      assert (0 < length files)%nat as Pf by (rewrite Ef; cbn; lia).
      assert (increasing idx = true) as Inc by (eapply start_bands; apply (K0 O Pf)).
      destruct (band_negd (length idx) idx us us' sh n b eq_refl (increasing_nodup _ Inc) Ru Ru' Mg Mg' Eb Su) with (arr := arr) (diff := diff) (model := model)
        as (arr' & diff' & model' & E' & P); auto.
      - intros i p Bi Bp. unfold npoints in Bp. rewrite (kept_coords _ _ (Ku i)) in Bp. fold (npoints (tl ts i)) in Bp. destruct (Ku i) as (_ & _ & ->). destruct (Ku' i) as (_ & _ & ->). apply V; auto. lia.
      - exists arr', diff', model'. split; [exact E'|]. intros x S. exact (P x S). }
    assert (exists outs', map_res (fun b => merged_band us' b sh) idx = Ok outs') as (outs' & Eo').
    { apply map_res_ok_iff. intros b I. apply In_nth_error in I as (n & En).
      assert (exists o, merged_band us b sh = Ok o) as ([[a d] m] & Eo) by (apply (proj1 (map_res_ok_iff _ _) (ex_intro _ outs Hm)); eapply nth_error_In; eauto).
      destruct (Each n b a d m En Eo) as (a' & d' & m' & -> & _). eauto. }
    exists outs'. split; [exact Eo'|]. apply map_res_nth in Hm as [Lo Ko]. pose proof Eo' as Eo2. apply map_res_nth in Eo2 as [Lo' Ko'].
    split; [exact Lo|]. split; [exact Lo'|]. intros n b arr diff model Eb Eq. assert (n < length idx)%nat as Bn by (apply nth_error_Some; congruence).
    assert (nth n idx O = b) as En by now apply nth_error_nth. pose proof (Ko n O (arr, diff, model) Bn) as Q. rewrite (nth_error_nth _ _ _ Eq), En in Q.
    destruct (Each n b arr diff model Eb Q) as (arr' & diff' & model' & E' & P). exists arr', diff', model'. split; [|exact P].
    specialize (Ko' n O (arr, diff, model) Bn). rewrite En, E' in Ko'. rewrite (nth_error_nth' outs' (arr, diff, model)) by lia. f_equal. congruence.
  Qed.
End Batch.
