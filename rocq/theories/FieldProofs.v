(** Adding a field to all tiles: the merge moves with it. *)
From Verif Require Import Base BaseLemmas PoolProofs GraphModel TileModel TileSpec OverlapModel OverlapSpec OverlapProofs BulkModel BulkProofs
  DirichletModel DirichletSpec DirichletProofs MergeModel MergeSpec TileStateProofs AdjustProofs BandProofs MergeBatchProofs DescribeProofs
  Props_Overlap Props_Merge ShiftSpec ShiftProofs ShiftMergeProofs PerturbSpec.
From Verif Require Props_Tile.
From Coq Require Import List ZifyBool Lqa Permutation.
Import ListNotations.
Set Default Goal Selector "!".
Local Open Scope Q_scope.
Local Notation tl ts i := (nth i ts dtile).

(** ** The adjustment *)
Section Field.
  Variables (cg : list (list Q) -> list Q -> list Q) (ilu : list (list Q) -> bool)
            (triangles : list (Z * Z) -> res (list (nat * nat * nat))) (f : overlap_file) (nb : nat).
  Hypothesis Hcg : respects cg.
  (** What is added in band [b] at a pixel. *)
  Variable s : nat -> Z * Z -> Q.

  Definition fielded (ts ts' : list tile) : Prop :=
    length ts' = length ts /\ forall i, (i < length ts)%nat -> coords (tl ts' i) = coords (tl ts i) /\
      forall b p x, (b < nb)%nat -> point_of (tl ts i) x p -> at_ (uw_phase (tl ts' i)) b p == at_ (uw_phase (tl ts i)) b p + s b x.

  Lemma fielded_phase ts ts' i b x : (forall t, In t ts -> ready nb t) -> fielded ts ts' -> (i < length ts)%nat -> (b < nb)%nat ->
    contains (tl ts i) x = true -> phase_at (tl ts' i) b x == phase_at (tl ts i) b x + s b x.
  Proof using.
    intros Hr [L K] Bi Bb C. destruct (K i Bi) as [Ec Ep]. unfold phase_at. rewrite Ec. apply contains_spec in C as (p & P).
    assert (ready nb (tl ts i)) as (_ & _ & _ & _ & Nd) by (apply Hr, nth_In, Bi). rewrite (position_spec _ _ _ Nd P).
    apply Ep; [exact Bb|exact P].
  Qed.

  Lemma delta_field ts ts' degree i o : recorded f ts -> recorded f ts' ->
    (forall t, In t ts -> ready nb t) -> (forall t, In t ts' -> ready nb t) -> fielded ts ts' -> (i < length ts)%nat ->
    delta cg ilu triangles f (map (neighbours f) (seq 0 (length ts))) degree ts i = Ok o ->
    exists o', delta cg ilu triangles f (map (neighbours f) (seq 0 (length ts'))) degree ts' i = Ok o' /\
      match o, o' with
      | Some m, Some m' => forall b p, (b < nb)%nat -> (p < npoints (tl ts i))%nat -> at_ m' b p == at_ m b p
      | None, None => True
      | _, _ => False
      end.
  Proof using Hcg.
    intros Hd Hd' Hr Hr' Sh Bi H. pose proof Sh as [L K]. destruct (K i Bi) as [Ec Ep]. assert (i < length ts')%nat as Bi' by lia.
    assert (npoints (tl ts' i) = npoints (tl ts i)) as En by (unfold npoints; now rewrite Ec).
    assert (ready nb (tl ts i)) as Ri by (apply Hr, nth_In, Bi). assert (ready nb (tl ts' i)) as Ri' by (apply Hr', nth_In, Bi').
    unfold delta in *. rewrite (nth_error_nth' ts dtile Bi) in H. rewrite (nth_error_nth' ts' dtile Bi').
    pose proof Ri as (_ & Eb & Lv & _ & Nd). pose proof Ri' as (_ & Eb' & Lv' & _ & Nd'). rewrite Lv in H. rewrite Lv'. cbn [Nat.eqb negb] in *.
    assert (forall g n, (i < n)%nat -> nth_error (map (neighbours g) (seq 0 n)) i = Some (neighbours g i)) as En2.
    { intros g n B. rewrite nth_error_map, (nth_error_nth' _ O) by now rewrite seq_length. cbn. now rewrite seq_nth. }
    rewrite En2 in H by auto. rewrite En2 by auto.
    destruct (add_neighbours_ok f ts nb Hd Hr i (neighbours f i)) with (c := repeat 1%nat (npoints (tl ts i))) (s := uw_phase (tl ts i)) as (c & sm & Ef & Lc & Ss & V).
    { intros j. now apply (neighbours_link f ts). }
    { apply repeat_length. }
    { now apply uw_ready. }
    destruct (add_neighbours_ok f ts' nb Hd' Hr' i (neighbours f i)) with (c := repeat 1%nat (npoints (tl ts' i))) (s := uw_phase (tl ts' i)) as (c' & sm' & Ef' & Lc' & Ss' & V').
    { intros j I. now apply (neighbours_link f ts') in I. }
    { apply repeat_length. }
    { now apply uw_ready. }
    assert (forall j, In j (neighbours f i) -> (j < length ts)%nat) as Hj.
    { intros j I. apply (neighbours_link f ts) in I; [|exact Hd]. destruct Hd as (_ & _ & Ho & _). destruct (Ho _ _ I); lia. }
    assert (forall x, filter (fun j => contains (tl ts' j) x) (neighbours f i) = filter (fun j => contains (tl ts j) x) (neighbours f i)) as Efl.
    { intros x. apply filter_ext_in. intros j I. apply Hj in I. unfold contains. now rewrite (proj1 (K j I)). }
    assert (forall x p, point_of (tl ts i) x p -> point_of (tl ts' i) x p) as Pp by (unfold point_of; now rewrite Ec).
    assert (c' = c) as ->.
    { apply (nth_ext _ _ O O); [lia|]. intros p Bp. rewrite Lc', En in Bp. destruct (point_exists _ _ Bp) as (x & P).
      destruct (V x p P) as [-> _]. destruct (V' x p (Pp _ _ P)) as [-> _]. rewrite Efl, En. reflexivity. }
    rewrite Ef in H. rewrite Ef'. cbn [bind fst snd] in *. rewrite En in *.
    destruct (negb _); [injection H as <-; exists None; auto|].
    assert (tile_laplacian triangles (tl ts' i) = tile_laplacian triangles (tl ts i)) as -> by (unfold tile_laplacian; now rewrite Ec).
    destruct (tile_laplacian _ _) as [lap|]; [|discriminate]. cbn [bind] in *.
    pose proof (uw_ready nb _ Ri) as Su. pose proof (uw_ready nb _ Ri') as Su'. rewrite En in Su'.
    destruct (raw_corr_ok c sm _ nb _ Lc Ss Su) as [Sr Vr]. destruct (raw_corr_ok c sm' _ nb _ Lc Ss' Su') as [Sr' Vr'].
    set (rc := raw_corr c sm (uw_phase (tl ts i))) in *. set (rc' := raw_corr c sm' (uw_phase (tl ts' i))) in *.
    assert (forall b p, (b < nb)%nat -> (p < npoints (tl ts i))%nat -> at_ rc b p == at_ rc' b p) as Erc.
    { intros b p Bb Bp. rewrite Vr, Vr' by auto. destruct (point_exists _ _ Bp) as (x & P).
      destruct (V x p P) as [Nc Vs]. destruct (V' x p (Pp _ _ P)) as [_ Vs']. rewrite (Vs b Bb), (Vs' b Bb), Efl, (Ep b p x Bb P).
      set (l := filter _ _) in *. rewrite nth_repeat_lt in Nc by auto. rewrite Nc.
      rewrite (sum_shift (fun j => phase_at (tl ts j) b x) (fun j => phase_at (tl ts' j) b x) (s b x) l).
      - rewrite Nat2Z.inj_add, inject_Z_plus. change (inject_Z (Z.of_nat 1)) with 1. set (k := inject_Z (Z.of_nat (length l))).
        assert (0 <= k) as Pk by (unfold k; change 0 with (inject_Z 0); rewrite <- Zle_Qle; lia).
        field. intros E. lra.
      - intros j I. apply filter_In in I as [I C]. exact (fielded_phase ts ts' j b x Hr Sh (Hj j I) Bb C). }
    destruct (dirichlet_graph _ _ _ _ _ rc _) as [corr|] eqn:Eg; [|discriminate]. cbn [bind] in H.
    destruct (graph_any _ _ _ _ _ _ _ _ rc' (or_nil _ _ (eq_trans (proj1 Sr') (eq_sym (proj1 Sr)))) Eg) as (corr' & Eg'). rewrite Eg'. cbn [bind].
    assert (length (mask_of degree c) = npoints (tl ts i)) as Lmk by (unfold mask_of; now rewrite map_length).
    assert (forall r cr, has_shape r nb (npoints (tl ts i)) -> dirichlet_graph cg ilu true lap (npoints (tl ts i)) r (mask_of degree c) = Ok cr ->
      has_shape cr nb (npoints (tl ts i))) as Sc.
    { intros r cr [Lr Hrr] E. apply graph_ok in E as (_ & _ & Lcr & Hrow). split; [lia|]. intros row I. apply (In_nth _ _ []) in I as (q & Hq & <-). rewrite Lcr in Hq. specialize (Hrow q Hq).
      apply row_ok in Hrow as (L1 & _); [lia|]. rewrite Lmk. apply Hrr, nth_In, Hq. }
    pose proof (Sc _ _ Sr Eg) as S1. pose proof (Sc _ _ Sr' Eg') as S2.
    rewrite Eb, broadcast_full in H by auto. rewrite Eb', broadcast_full by auto. cbn [bind] in *. injection H as <-. exists (Some corr'). split; [reflexivity|].
    intros b p Bb Bp. pose proof (proj1 (matrix_comp rc rc' nb _ Sr Sr') Erc) as Frc.
    destruct (graph_comp _ _ _ _ _ _ _ _ _ Hcg Frc Eg) as (corr2 & Eg2 & Fc). rewrite Eg' in Eg2. injection Eg2 as <-.
    symmetry. now apply (proj2 (matrix_comp corr corr' nb _ S1 S2) Fc).
  Qed.

  Lemma pass_field ts ts' order degree us : recorded f ts -> recorded f ts' ->
    (forall t, In t ts -> ready nb t) -> (forall t, In t ts' -> ready nb t) -> fielded ts ts' -> Permutation order (seq 0 (length ts)) ->
    adjust_pass cg ilu triangles order f (map (neighbours f) (seq 0 (length ts))) ts degree = Ok us ->
    exists us', adjust_pass cg ilu triangles order f (map (neighbours f) (seq 0 (length ts'))) ts' degree = Ok us' /\ fielded us us' /\
      all_kept ts us /\ all_kept ts' us' /\ (forall t, In t us -> ready nb t) /\ (forall t, In t us' -> ready nb t).
  Proof using Hcg.
    intros Hd Hd' Hr Hr' Sh P H. pose proof Sh as [L K].
    destruct (pass_ok cg ilu triangles f nb ts order degree us Hd Hr P H) as (Kp & Ru & Dl).
    assert (Permutation order (seq 0 (length ts'))) as P' by now rewrite L.
    destruct (pass_total cg ilu triangles f nb order degree ts' Hd' Hr' P') as (us' & H').
    { intros i Bi. rewrite L in Bi. destruct (Dl i Bi) as (o & Eo & _). destruct (delta_field ts ts' degree i o Hd Hd' Hr Hr' Sh Bi Eo) as (o' & Eo' & _). eauto. }
    destruct (pass_ok cg ilu triangles f nb ts' order degree us' Hd' Hr' P' H') as (Kp' & Ru' & Dl').
    exists us'. split; [exact H'|]. split; [|auto]. destruct Kp as [Lu Ku], Kp' as [Lu' Ku']. split; [lia|]. intros i Bi. rewrite Lu in Bi.
    destruct (K i Bi) as [Ec Ep]. split; [rewrite (kept_coords _ _ (Ku i)), (kept_coords _ _ (Ku' i)); exact Ec|].
    intros b p x Bb Px. unfold point_of in Px. rewrite (kept_coords _ _ (Ku i)) in Px. fold (point_of (tl ts i) x p) in Px. pose proof (point_lt _ _ _ Px) as Bp.
    assert (npoints (tl ts' i) = npoints (tl ts i)) as En by (unfold npoints; now rewrite Ec).
    destruct (Dl i Bi) as (o & Eo & Q1). destruct (Dl' i ltac:(lia)) as (o2 & Eo2 & Q2).
    destruct (delta_field ts ts' degree i o Hd Hd' Hr Hr' Sh Bi Eo) as (o' & Eo' & M). rewrite Eo2 in Eo'. injection Eo' as ->.
    rewrite (Q1 b p Bb Bp), (Q2 b p Bb) by lia. rewrite (Ep b p x Bb Px).
    destruct o as [m|], o' as [m'|]; try contradiction; [rewrite (M b p Bb Bp)|]; ring.
  Qed.

  Lemma passes_field l : forall orders ts ts' us, recorded f ts -> recorded f ts' ->
    (forall t, In t ts -> ready nb t) -> (forall t, In t ts' -> ready nb t) -> fielded ts ts' -> (forall d : nat, Permutation (orders d) (seq 0 (length ts))) ->
    fold_res (fun a d => adjust_pass cg ilu triangles (orders d) f (map (neighbours f) (seq 0 (length a))) a d) ts l = Ok us ->
    exists us', fold_res (fun a d => adjust_pass cg ilu triangles (orders d) f (map (neighbours f) (seq 0 (length a))) a d) ts' l = Ok us' /\ fielded us us'.
  Proof using Hcg.
    induction l as [|d l IH]; intros orders ts ts' us Hd Hd' Hr Hr' Sh P H; cbn [fold_res] in *.
    - injection H as <-. eauto.
    - destruct (adjust_pass _ _ _ _ f _ ts d) as [us1|] eqn:E; [|discriminate]. cbn [bind] in H.
      destruct (pass_field ts ts' (orders d) d us1 Hd Hd' Hr Hr' Sh (P d) E) as (us1' & -> & Sh1 & K1 & K1' & R1 & R1'). cbn [bind].
      apply (IH orders us1 us1' us); auto.
      + eapply recorded_kept; eauto.
      + eapply recorded_kept; eauto.
      + intros d'. destruct K1 as [-> _]. apply P.
  Qed.

  Lemma adjust_field ts ts' omap m us : recorded f ts -> recorded f ts' ->
    (forall t, In t ts -> ready nb t) -> (forall t, In t ts' -> ready nb t) -> fielded ts ts' ->
    overlap_map f = Ok omap ->
    adjust_tiles cg ilu triangles f omap m ts = Ok us ->
    exists us', adjust_tiles cg ilu triangles f omap m ts' = Ok us' /\ fielded us us' /\
      all_kept ts us /\ all_kept ts' us' /\ (forall t, In t us -> ready nb t) /\ (forall t, In t us' -> ready nb t).
  Proof using Hcg.
    intros Hd Hd' Hr Hr' Sh Ho H. pose proof Sh as [L _]. unfold adjust_tiles in *.
    assert (exists us', adjust_tiles_in cg ilu triangles (fun _ => seq 0 (length ts')) f omap m ts' = Ok us' /\ fielded us us') as (us' & H' & Su).
    { rewrite (adjust_fold cg ilu triangles f (fun _ => seq 0 (length ts)) ts omap Hd Ho) in H.
      rewrite (adjust_fold cg ilu triangles f (fun _ => seq 0 (length ts')) ts' omap Hd' Ho). rewrite L.
      apply (passes_field _ (fun _ => seq 0 (length ts)) ts ts' us); auto. }
    exists us'. split; [exact H'|]. split; [exact Su|].
    destruct (adjust_kept cg ilu triangles f nb (fun _ => seq 0 (length ts)) ts omap Hd Hr Ho (fun _ => Permutation_refl _) m us H) as [A1 A2].
    destruct (adjust_kept cg ilu triangles f nb (fun _ => seq 0 (length ts')) ts' omap Hd' Hr' Ho (fun _ => Permutation_refl _) m us' H') as [B1 B2]. auto.
  Qed.
End Field.

(** ** One band *)
Section Band.
  Variables (nb : nat) (idx : list nat) (us us' : list tile) (s : nat -> Z * Z -> Q) (sh : Z * Z) (n b : nat).
  Hypothesis Hi : length idx = nb.
  Hypothesis Nd : NoDup idx.
  Hypothesis Hr : forall t, In t us -> ready nb t.
  Hypothesis Hr' : forall t, In t us' -> ready nb t.
  Hypothesis Hm : forall t, In t us -> mergeable idx t.
  Hypothesis Hm' : forall t, In t us' -> mergeable idx t.
  Hypothesis Hb : nth_error idx n = Some b.
  Hypothesis Sh : fielded nb s us us'.
  Hypothesis Raw : forall i p x, (i < length us)%nat -> point_of (tl us i) x p ->
    at_ (t_raw (tl us' i)) n p == at_ (t_raw (tl us i)) n p + s n x.

  Let Bn : (n < nb)%nat.
  Proof using Hb Hi. rewrite <- Hi. apply nth_error_Some. congruence. Qed.
  Let inside x := filter (fun j => contains (tl us j) x) (seq 0 (length us)).
  Let same x : holders us x = map (fun j => tl us j) (inside x) /\ holders us' x = map (fun j => tl us' j) (inside x).
  Proof using Sh.
    destruct Sh as [L K]. split; [apply holders_index|]. rewrite holders_index, L. f_equal. apply filter_ext_in. intros j I. apply in_seq in I.
    unfold contains. now rewrite (proj1 (K j ltac:(lia))).
  Qed.
  Let inside_lt x j : In j (inside x) -> (j < length us)%nat /\ contains (tl us j) x = true.
  Proof using. intros I. apply filter_In in I as [I C]. apply in_seq in I. split; [lia|exact C]. Qed.

  Lemma band_field arr diff model : merged_band us b sh = Ok (arr, diff, model) ->
    exists arr' diff' model', merged_band us' b sh = Ok (arr', diff', model') /\
      forall x, in_shape sh x = true ->
        plus_opt (s n x) (pixel model x) (pixel model' x) /\ same_value (pixel diff x) (pixel diff' x) /\ plus_opt (s n x) (pixel arr x) (pixel arr' x).
  Proof using Hi Nd Hr Hr' Hm Hm' Hb Sh Raw.
    intros H. destruct (merged_values idx us b n sh Nd Hm Hb arr diff model H) as (Ne & Hs & _). pose proof Sh as [L K].
    assert (us' <> []) as Ne' by (intros E; rewrite E in L; destruct us; [contradiction|cbn in L; lia]).
    assert (forall t x, In t us' -> contains t x = true -> in_shape sh x = true) as Hs'.
    { intros t x I C. apply (In_nth _ _ dtile) in I as (i & Bi & <-). rewrite L in Bi. apply (Hs (tl us i)); [now apply nth_In|].
      unfold contains in *. now rewrite <- (proj1 (K i Bi)). }
    pose proof (merged_total idx us' b sh n Ne' Nd Hm' Hs' Hb) as T. cbv zeta in T.
    destruct (merged_band us' b sh) as [[[arr' diff'] model']|] eqn:H'; [|discriminate]. clear T. exists arr', diff', model'. split; [reflexivity|].
    intros x S. destruct (same x) as [E E']. pose proof (inside_lt x) as Il. set (c := s n x).
    assert (forall j, In j (inside x) -> phase_at (tl us' j) n x == phase_at (tl us j) n x + c) as Ph.
    { intros j I. destruct (Il j I) as [B C]. exact (fielded_phase nb s us us' j n x Hr Sh B Bn C). }
    revert E E' Il Ph. generalize (inside x). intros ins. destruct ins as [|j0 fl _] using rev_ind; intros E E' Il Ph.
    - destruct (merged_nan idx us b n sh Nd Hm Hb arr diff model H x S E) as (-> & -> & ->).
      destruct (merged_nan idx us' b n sh Nd Hm' Hb arr' diff' model' H' x S E') as (-> & -> & ->). cbn. auto.
    - rewrite !map_app in E, E'. cbn [map] in E, E'.
      destruct (merged_pixel idx us b n sh Nd Hm Hb arr diff model H x S _ _ E) as (w & v & Ew & Aw & Ev & Av).
      destruct (merged_pixel idx us' b n sh Nd Hm' Hb arr' diff' model' H' x S _ _ E') as (w' & v' & Ew' & Aw' & Ev' & Av').
      assert (average_at us' n x == average_at us n x + c) as Avg.
      { unfold average_at, average. rewrite !map_length. rewrite E, E'. 
        change (map (fun j => tl us j) fl ++ [tl us j0]) with (map (fun j => tl us j) fl ++ map (fun j => tl us j) [j0]).
        change (map (fun j => tl us' j) fl ++ [tl us' j0]) with (map (fun j => tl us' j) fl ++ map (fun j => tl us' j) [j0]).
        rewrite <- !map_app, !map_map, !map_length.
        rewrite (sum_shift (fun j => phase_at (tl us j) n x) (fun j => phase_at (tl us' j) n x) c (fl ++ [j0]) Ph).
        rewrite app_length. cbn [length]. rewrite Nat2Z.inj_add, inject_Z_plus. change (inject_Z (Z.of_nat 1)) with 1. set (q := inject_Z (Z.of_nat (length fl))).
        assert (0 <= q) as Pq by (unfold q; change 0 with (inject_Z 0); rewrite <- Zle_Qle; lia). field. intros X. lra. }
      rewrite Ew, Ew', Ev, Ev'. split; [|split].
      + cbn. now rewrite Aw', Aw, Avg.
      + destruct (merged_diff idx us b n sh Nd Hm Hb arr diff model H x S) as [D1 D2]. destruct (merged_diff idx us' b n sh Nd Hm' Hb arr' diff' model' H' x S) as [D1' D2'].
        assert (length (holders us' x) = length (holders us x)) as Lh by (rewrite E, E', !app_length, !map_length; reflexivity).
        destruct (Nat.lt_ge_cases (length (holders us x)) 2) as [C2|C2]; [rewrite D1, D1' by lia; exact I|].
        destruct (D2 C2) as (t & u & It & Iu & -> & Bd). destruct (D2' ltac:(lia)) as (t' & u' & It' & Iu' & -> & Bd'). cbn [same_value].
        change [tl us j0] with (map (fun j => tl us j) [j0]) in E. change [tl us' j0] with (map (fun j => tl us' j) [j0]) in E'. rewrite <- map_app in E, E'.
        assert (forall y, In y (holders us x) -> exists j, In j (fl ++ [j0]) /\ y = tl us j) as Hh by (intros y Iy; rewrite E in Iy; apply in_map_iff in Iy as (j & <- & Ij); eauto).
        assert (forall y, In y (holders us' x) -> exists j, In j (fl ++ [j0]) /\ y = tl us' j) as Hh' by (intros y Iy; rewrite E' in Iy; apply in_map_iff in Iy as (j & <- & Ij); eauto).
        destruct (Hh t It) as (a & Ia & ->). destruct (Hh u Iu) as (a2 & Ia2 & ->). destruct (Hh' t' It') as (a' & Ia' & ->). destruct (Hh' u' Iu') as (a2' & Ia2' & ->).
        assert (forall j, In j (fl ++ [j0]) -> In (tl us j) (holders us x) /\ In (tl us' j) (holders us' x)) as Hin.
        { intros j Ij. rewrite E, E'. split; apply in_map_iff; eauto. }
        destruct (Bd _ (proj1 (Hin _ Ia'))) as [_ P1]. destruct (Bd _ (proj1 (Hin _ Ia2'))) as [P2 _].
        destruct (Bd' _ (proj2 (Hin _ Ia))) as [_ P3]. destruct (Bd' _ (proj2 (Hin _ Ia2))) as [P4 _].
        rewrite (Ph _ Ia), (Ph _ Ia') in P3. rewrite (Ph _ Ia2), (Ph _ Ia2') in P4. rewrite (Ph _ Ia'), (Ph _ Ia2').
        clearbody c. lra.
      + assert (In j0 (fl ++ [j0])) as I0 by (apply in_or_app; right; now left). destruct (Il j0 I0) as [B0 C0].
        assert (raw_at (tl us' j0) n x == raw_at (tl us j0) n x + c) as Er.
        { unfold raw_at. rewrite (proj1 (K j0 B0)). apply contains_spec in C0 as (p & P). assert (ready nb (tl us j0)) as (_ & _ & _ & _ & Nc) by (apply Hr, nth_In, B0).
          rewrite (position_spec _ _ _ Nc P). now apply Raw. }
        cbn [plus_opt]. rewrite Av', Av. pose proof twopi_pos as Tp.
        rewrite (wrap_around_comp _ _ _ _ Avg Er). unfold wrap_around. cbv zeta.
        rewrite (rint_comp ((raw_at (tl us j0) n x + c - (average_at us n x + c)) / twopi) ((raw_at (tl us j0) n x - average_at us n x) / twopi)) by (field; lra). ring.
  Qed.
End Band.

(** ** A batch *)
Lemma start_field files files' bulk idx bands ts : length files' = length files ->
  (forall fl, In fl files -> tile_bands bands fl) -> (forall fl, In fl files' -> tile_bands bands fl) ->
  start_tiles files bulk idx = Ok ts -> exists ts', start_tiles files' bulk idx = Ok ts'.
Proof.
  intros L Hb Hb' H. unfold start_tiles in *. apply map_res_nth in H as [_ K]. rewrite combine_length, seq_length, Nat.min_id in K.
  apply map_res_ok_iff. intros [j fl] I. cbn [fst snd].
  assert (j < length files)%nat as Bj by (apply in_combine_l, in_seq in I; lia). apply in_combine_r in I.
  specialize (K j (O, dfile) dtile Bj). rewrite nth_combine in K by (rewrite ?seq_length; auto). rewrite seq_nth in K by auto. cbn [fst snd Nat.add] in K.
  destruct (Hb (nth j files dfile)) as (A1 & A2 & _); [now apply nth_In|]. destruct (Hb' fl I) as (A1' & A2' & _).
  unfold start_tile, reset_band_index in *. rewrite A1, A2 in K. rewrite A1', A2'. destruct idx as [|i0 idx0] eqn:Ei; [discriminate|]. rewrite <- Ei in *. clear Ei i0 idx0.
  destruct (negb (increasing idx)); [discriminate|]. destruct (negb (forallb (fun b => (b <? bands) && (b <? bands))%nat idx)); [discriminate|]. cbn [bind] in *.
  destruct (negb _); [discriminate|].
  unfold add_correction. cbn [t_idx t_file t_raw t_corr t_level]. rewrite broadcast_column by apply map_length. cbn [bind]. eauto.
Qed.

Section Batch.
  Variables (cg : list (list Q) -> list Q -> list Q) (ilu : list (list Q) -> bool) (triangles : list (Z * Z) -> res (list (nat * nat * nat)))
    (f : overlap_file) (omap : list (list nat)) (md : nat) (files files' : list tile_file) (bulk : list (list Q)) (bands : nat) (fd : nat -> Z * Z -> Q) (sh : Z * Z) (idx : list nat).
  Hypothesis Hcg : respects cg.
  Hypothesis Hf : forall fl, In fl files -> NoDup (tf_points fl) /\ tile_bands bands fl.
  Hypothesis Hf' : forall fl, In fl files' -> NoDup (tf_points fl) /\ tile_bands bands fl.
  Hypothesis Ly : same_layout files files'.
  Hypothesis Mf : same_field bands fd files files'.
  Hypothesis Hrec : recorded_files f files.
  Hypothesis Hrec' : recorded_files f files'.
  Hypothesis Hom : overlap_map f = Ok omap.

  Lemma batch_field outs : merge_batch cg ilu triangles f omap md bulk sh files idx = Ok outs ->
    exists outs', merge_batch cg ilu triangles f omap md bulk sh files' idx = Ok outs' /\
      length outs = length idx /\ length outs' = length idx /\
      forall n b arr diff model, nth_error idx n = Some b -> nth_error outs n = Some (arr, diff, model) ->
      exists arr' diff' model', nth_error outs' n = Some (arr', diff', model') /\
        forall x, in_shape sh x = true ->
        plus_opt (fd b x) (pixel model x) (pixel model' x) /\ same_value (pixel diff x) (pixel diff' x) /\ plus_opt (fd b x) (pixel arr x) (pixel arr' x).
  Proof using All.
    intros Hm. unfold merge_batch in *. destruct (start_tiles files bulk idx) as [ts|] eqn:Es; [|discriminate]. cbn [bind] in Hm.
    destruct (adjust_tiles _ _ _ f omap md ts) as [us|] eqn:Ea; [|discriminate]. cbn [bind] in Hm.
    assert (forall fl, In fl files -> file_ok fl /\ NoDup (tf_points fl)) as Ff by (intros fl I; destruct (Hf fl I) as (A & _ & _ & B); auto).
    assert (forall fl, In fl files' -> file_ok fl /\ NoDup (tf_points fl)) as Ff' by (intros fl I; destruct (Hf' fl I) as (A & _ & _ & B); auto).
    destruct (start_field files files' bulk idx bands ts (proj1 Ly) (fun fl I => proj2 (Hf fl I)) (fun fl I => proj2 (Hf' fl I)) Es) as (ts' & Es').
    rewrite Es'. cbn [bind].
    assert (forall n j, (j < length files)%nat -> (n < length idx)%nat -> (nth n idx O < bands)%nat) as Bidx.
    { intros n j Bj Bn. destruct (started bulk files Ff idx ts Es) as (_ & _ & K0). specialize (K0 j Bj). unfold start_tile, reset_band_index in K0.
      destruct (Hf (nth j files dfile)) as (_ & A1 & A2 & _); [now apply nth_In|]. fold dfile in K0. rewrite A1, A2 in K0. destruct idx as [|i0 idx0] eqn:Ei; [discriminate|]. rewrite <- Ei in *. clear Ei i0 idx0.
      destruct (negb (increasing idx)); [discriminate|]. destruct (forallb (fun b => (b <? bands) && (b <? bands))%nat idx) eqn:Fb; [|discriminate]. rewrite forallb_forall in Fb.
      specialize (Fb _ (nth_In idx O Bn)). lia. }
    destruct (started bulk files Ff idx ts Es) as (F & Rt & K0). destruct (started bulk files' Ff' idx ts' Es') as (F' & Rt' & K0'). fold dfile in K0, K0'.
    assert (length ts = length files) as Lt by (rewrite <- F; now rewrite map_length).
    assert (length ts' = length files') as Lt' by (rewrite <- F'; now rewrite map_length).
    pose proof (proj1 Ly) as Lf.
    assert (forall j, (j < length files)%nat -> coords (tl ts j) = file_coords (nth j files dfile)) as Cts.
    { intros j Bj. unfold coords. f_equal. rewrite <- F. symmetry. apply map_nth'. lia. }
    assert (forall j, (j < length files)%nat -> coords (tl ts' j) = file_coords (nth j files dfile)) as Cts'.
    { intros j Bj. rewrite <- (layout_coords files files' j Ly). unfold coords. f_equal. rewrite <- F'. symmetry. apply map_nth'. lia. }
    set (s := fun n x => fd (nth n idx O) x).
    assert (forall j n p x, (j < length files)%nat -> (n < length idx)%nat -> point_of (tl ts j) x p ->
      at_ (t_raw (tl ts' j)) n p == at_ (t_raw (tl ts j)) n p + s n x /\
      at_ (uw_phase (tl ts' j)) n p == at_ (uw_phase (tl ts j)) n p + s n x) as V.
    { intros j n p x Bj Bn Px. pose proof (point_lt _ _ _ Px) as Bp. unfold npoints in Bp. rewrite Cts in Bp by auto. unfold file_coords in Bp. rewrite map_length in Bp.
      assert (nth n idx O < bands)%nat as Bb by eauto.
      destruct (Ff (nth j files dfile)) as [Fo Np]; [now apply nth_In|]. destruct (Ff' (nth j files' dfile)) as [Fo' Np']; [apply nth_In; lia|].
      destruct (start_ok _ j bulk Fo idx _ (K0 j Bj) Np) as (_ & _ & _ & St). destruct (start_ok _ j bulk Fo' idx _ (K0' j ltac:(lia)) Np') as (_ & _ & _ & St').
      destruct (St n p Bn Bp) as [V1 V2]. destruct (St' n p Bn) as [V1' V2'].
      { destruct Ly as [_ Y]. destruct (Y j) as [Y1 _]. rewrite no_file_d in Y1. now rewrite Y1. }
      unfold point_of in Px. rewrite Cts in Px by auto. pose proof (Mf (nth n idx O) j p x Bb) as E. rewrite no_file_d in E. specialize (E Px). unfold MergeSpec.phase_of in E.
      cbv zeta in V1, V2, V1', V2'. split; [rewrite V1', V1; exact E|].
      rewrite V2', V2, E. unfold s. ring. }
    assert (fielded (length idx) s ts ts') as Sh.
    { split; [lia|]. intros j Bj. rewrite Lt in Bj. split; [rewrite Cts, Cts' by auto; reflexivity|]. intros n p x Bn Px. now apply V. }
    destruct (adjust_field cg ilu triangles f (length idx) Hcg s) with (ts := ts) (ts' := ts') (omap := omap) (m := md) (us := us)
      as (us' & Ea' & Su & Kp & Kp' & Ru & Ru'); auto.
    { intros t0 I. apply Rt, I. }
    { intros t0 I. apply Rt', I. }
    rewrite Ea'. cbn [bind].
    pose proof (kept_idx_mergeable idx ts us Kp (fun t I => proj2 (Rt t I)) Ru) as Mg. pose proof (kept_idx_mergeable idx ts' us' Kp' (fun t I => proj2 (Rt' t I)) Ru') as Mg'.
    destruct Kp as [Lu Ku]. destruct Kp' as [Lu' Ku'].
    assert (forall n b arr diff model, nth_error idx n = Some b -> merged_band us b sh = Ok (arr, diff, model) ->
      exists arr' diff' model', merged_band us' b sh = Ok (arr', diff', model') /\
        forall x, in_shape sh x = true ->
        plus_opt (fd b x) (pixel model x) (pixel model' x) /\ same_value (pixel diff x) (pixel diff' x) /\ plus_opt (fd b x) (pixel arr x) (pixel arr' x)) as Each.
    { intros n b arr diff model Eb Em. assert (n < length idx)%nat as Bn by (apply nth_error_Some; congruence).
      assert (nth n idx O = b) as En by now apply nth_error_nth.
      destruct files as [|f0 fr] eqn:Ef.
      { exfalso. destruct us; [|cbn in Lu, Lt; lia]. cbn in Em. discriminate. }
      rewrite <- Ef in *.
      assert (0 < length files)%nat as Pf by (rewrite Ef; cbn; lia).
      assert (increasing idx = true) as Inc by (eapply start_bands; apply (K0 O Pf)).
      destruct (band_field (length idx) idx us us' s sh n b eq_refl (increasing_nodup _ Inc) Ru Ru' Mg Mg' Eb Su) with (arr := arr) (diff := diff) (model := model)
        as (arr' & diff' & model' & E' & P); auto.
      - intros i p x Bi Px. destruct (Ku i) as (_ & _ & ->). destruct (Ku' i) as (_ & _ & ->). unfold point_of in Px. rewrite (kept_coords _ _ (Ku i)) in Px. apply V; auto. lia.
      - exists arr', diff', model'. split; [exact E'|]. intros x S. specialize (P x S). unfold s in P. rewrite En in P. exact P. }
    assert (exists outs', map_res (fun b => merged_band us' b sh) idx = Ok outs') as (outs' & Eo').
    { apply map_res_ok_iff. intros b I. apply In_nth_error in I as (n & En).
      assert (exists o, merged_band us b sh = Ok o) as ([[a d] m] & Eo) by (apply (proj1 (map_res_ok_iff _ _) (ex_intro _ outs Hm)); eapply nth_error_In; eauto).
      destruct (Each n b a d m En Eo) as (a' & d' & m' & -> & _). eauto. }
    exists outs'. split; [exact Eo'|]. apply map_res_nth in Hm as [Lo Ko]. pose proof Eo' as Eo2. apply map_res_nth in Eo2 as [Lo' Ko'].
    split; [exact Lo|]. split; [exact Lo'|]. intros n b arr diff model Eb Eq. assert (n < length idx)%nat as Bn by (apply nth_error_Some; congruence).
    assert (nth n idx O = b) as En by now apply nth_error_nth. pose proof (Ko n O (arr, diff, model) Bn) as Q. rewrite (nth_error_nth _ _ _ Eq), En in Q.
    destruct (Each n b arr diff model Eb Q) as (arr' & diff' & model' & E' & P). exists arr', diff', model'. split; [|exact P].
    specialize (Ko' n O (arr, diff, model) Bn). rewrite En, E' in Ko'. rewrite (nth_error_nth' outs' (arr, diff, model)) by lia. f_equal. congruence.
  Qed.
End Batch.

(** ** The recorded overlaps *)
Definition cycles_of (b1 b2 : list (list Q)) : list (list Q) :=
  map (fun r => map (fun xy => cycle_diff (fst xy) (snd xy)) (combine (fst r) (snd r))) (combine b1 b2).

Lemma deciles_comp b1 b2 b1' b2' : nd_shape b1' = nd_shape b1 -> nd_shape b2' = nd_shape b2 ->
  Forall2 (Forall2 Qeq) (cycles_of (nd_rows b1) (nd_rows b2)) (cycles_of (nd_rows b1') (nd_rows b2')) ->
  pairwise_unwrapped_diff_deciles b1' b2' = pairwise_unwrapped_diff_deciles b1 b2.
Proof.
  intros E1 E2 F. unfold pairwise_unwrapped_diff_deciles. cbv zeta. rewrite E1, E2.
  fold (cycles_of (nd_rows b1) (nd_rows b2)). fold (cycles_of (nd_rows b1') (nd_rows b2')).
  destruct (negb (if list_eq_dec _ _ _ then _ else _)); [reflexivity|]. destruct (negb _); [reflexivity|]. destruct (Nat.ltb _ _); [reflexivity|].
  revert F. generalize (cycles_of (nd_rows b1) (nd_rows b2)), (cycles_of (nd_rows b1') (nd_rows b2')). intros D D' F.
  assert (map (map nint16) D' = map (map nint16) D) as En.
  { induction F as [|r r' D D' Fr F IH]; [reflexivity|]. cbn [map]. f_equal; [|exact IH]. clear -Fr. induction Fr as [|x y r r' E F IH]; [reflexivity|].
    cbn [map]. f_equal; [|exact IH]. unfold nint16. now rewrite (rint_comp _ _ E). }
  rewrite En.
  assert (forallb (fun r => forallb (fun dn => close_int (fst dn) (snd dn)) (combine (fst r) (snd r))) (combine D' (map (map nint16) D)) =
          forallb (fun r => forallb (fun dn => close_int (fst dn) (snd dn)) (combine (fst r) (snd r))) (combine D (map (map nint16) D))) as ->; [|reflexivity].
  generalize (map (map nint16) D). clear -F. induction F as [|r r' D D' Fr F IH]; intros N; [reflexivity|]. destruct N as [|n N]; [reflexivity|].
  cbn [combine forallb fst snd]. rewrite IH. f_equal. clear -Fr. revert n. induction Fr as [|x y r r' E F IH]; intros n; [reflexivity|]. destruct n as [|k n]; [reflexivity|].
  cbn [combine forallb fst snd]. rewrite IH. f_equal. unfold close_int. apply eq_true_iff_eq. rewrite !Qle_bool_iff. now rewrite E.
Qed.

Lemma cycles_shape b1 b2 nb n : has_shape b1 nb n -> has_shape b2 nb n -> has_shape (cycles_of b1 b2) nb n.
Proof.
  intros [L1 H1] [L2 H2]. unfold cycles_of. split; [rewrite map_length, combine_length; lia|].
  intros row I. apply in_map_iff in I as ([r1 r2] & <- & I). rewrite map_length, combine_length. cbn [fst snd].
  rewrite (H1 r1), (H2 r2); [lia|eapply in_combine_r; eauto|eapply in_combine_l; eauto].
Qed.

Lemma cycles_at b1 b2 nb n b p : has_shape b1 nb n -> has_shape b2 nb n -> (b < nb)%nat -> (p < n)%nat ->
  at_ (cycles_of b1 b2) b p = cycle_diff (at_ b1 b p) (at_ b2 b p).
Proof.
  intros [L1 H1] [L2 H2] Bb Bp. unfold cycles_of, at_. rewrite (map_nth' _ _ b ([], [])) by (rewrite combine_length; lia).
  rewrite combine_nth by lia. cbn [fst snd].
  assert (length (nth b b1 []) = n) as E1 by (apply H1, nth_In; lia). assert (length (nth b b2 []) = n) as E2 by (apply H2, nth_In; lia).
  rewrite (map_nth' _ _ p (0, 0)) by (rewrite combine_length; lia). rewrite combine_nth by lia. reflexivity.
Qed.

Lemma loaded_at fl tile bands b p : tile_bands bands fl -> (b < bands)%nat -> (p < length (tf_points fl))%nat ->
  at_ (snd (load_uw_tile fl tile)) b p = phase_of fl b p.
Proof.
  intros (L1 & L2 & L3) Bb Bp. unfold load_uw_tile, at_, phase_of. cbn [snd]. rewrite (map_nth' _ _ b ([], 0)) by (rewrite combine_length; lia).
  rewrite combine_nth by lia. cbn [fst snd]. rewrite (map_nth' _ _ p 0); [reflexivity|]. rewrite (L3 (nth b (tf_uw fl) [])); [exact Bp|apply nth_In; lia].
Qed.

Lemma taken_shape fl tile bands c : tile_bands bands fl -> has_shape (take_cols (snd (load_uw_tile fl tile)) c) bands (length c).
Proof.
  intros (L1 & L2 & _). unfold take_cols, load_uw_tile. cbn [snd]. split; [rewrite !map_length, combine_length; lia|].
  intros row I. apply in_map_iff in I as (r & <- & _). apply map_length.
Qed.

Lemma taken_at fl tile bands c b m : tile_bands bands fl -> (b < bands)%nat -> (m < length c)%nat -> (nth m c O < length (tf_points fl))%nat ->
  at_ (take_cols (snd (load_uw_tile fl tile)) c) b m = phase_of fl b (nth m c O).
Proof.
  intros T Bb Bm Bc. rewrite <- (loaded_at fl tile bands b _ T Bb Bc). unfold at_, take_cols. destruct T as (L1 & L2 & _).
  rewrite (map_nth' _ _ b []) by (unfold load_uw_tile; cbn [snd]; rewrite map_length, combine_length; lia).
  now rewrite (map_nth' _ _ m O).
Qed.

Lemma pair_loaded min_points files t i j : overlap_pair min_points files t (i, j) =
  let l1 := load_uw_tile (nth i files no_file) (nth i (tiles t) (BBox 0 0 0 0)) in
  let l2 := load_uw_tile (nth j files no_file) (nth j (tiles t) (BBox 0 0 0 0)) in
  do cc <- find_common_points 32 (fst l1) (fst l2);
  let '(c1, c2) := cc in
  if (Z.of_nat (length c1) <? min_points)%Z then Ok None
  else
    do stats <- pairwise_unwrapped_diff_deciles (nd_of (length c1) (take_cols (snd l1) c1)) (nd_of (length c2) (take_cols (snd l2) c2));
    Ok (Some (OGroup (i, j) c1 c2 (map (map qtrunc0) stats))).
Proof. unfold overlap_pair. fold no_file. destruct (load_uw_tile (nth i _ _) _), (load_uw_tile (nth j _ _) _). reflexivity. Qed.

Section Recorded.
  Variables (comps : nat -> list (nat * nat) -> list nat) (min_points : Z) (files files' : list tile_file) (t : tileset) (H W : Z) (bands : nat) (fd : nat -> Z * Z -> Q).
  Hypothesis Hc : cut_files t H W bands files.
  Hypothesis Hc' : cut_files t H W bands files'.
  Hypothesis Ly : same_layout files files'.
  Hypothesis Mf : same_field bands fd files files'.

  Lemma pair_field i j : (i < j < ntiles t)%nat -> overlap_pair min_points files' t (i, j) = overlap_pair min_points files t (i, j).
  Proof using All.
    intros B. destruct Hc as (Hn & Hfit & Ht & Hf). destruct Hc' as (Hn' & _ & Ht' & Hf').
    rewrite !pair_loaded.
    assert (forall k, (k < ntiles t)%nat -> fst (load_uw_tile (nth k files no_file) (nth k (tiles t) (BBox 0 0 0 0))) = file_coords (nth k files no_file)) as P.
    { intros k Bk. unfold load_uw_tile, file_coords. cbn [fst]. now rewrite (Ht k Bk). }
    assert (forall k, (k < ntiles t)%nat -> fst (load_uw_tile (nth k files' no_file) (nth k (tiles t) (BBox 0 0 0 0))) = file_coords (nth k files no_file)) as P'.
    { intros k Bk. rewrite <- (P k Bk). unfold load_uw_tile. cbn [fst]. now rewrite (proj1 (proj2 Ly k)). }
    cbv zeta. rewrite !P, !P' by lia. destruct (find_common_points 32 (file_coords (nth i files no_file)) (file_coords (nth j files no_file))) as [[c1 c2]|] eqn:Ec; [|reflexivity].
    cbn [bind]. destruct (_ <? _)%Z; [reflexivity|]. f_equal.
    assert (forall k, (k < ntiles t)%nat -> In (nth k files no_file) files /\ In (nth k files' no_file) files') as Ik by (intros k Bk; split; apply nth_In; lia).
    destruct (Ik i ltac:(lia)) as [Ii Ii']. destruct (Ik j ltac:(lia)) as [Ij Ij'].
    destruct (Hf _ Ii) as (_ & Gi & Ti). destruct (Hf _ Ij) as (_ & Gj & Tj). destruct (Hf' _ Ii') as (_ & _ & Ti'). destruct (Hf' _ Ij') as (_ & _ & Tj').
    set (fi := nth i files no_file) in *. set (fj := nth j files no_file) in *. set (fi' := nth i files' no_file) in *. set (fj' := nth j files' no_file) in *.
    assert (file_coords fi <> []) as N1 by (intros E; rewrite E in Ec; discriminate).
    assert (file_coords fj <> []) as N2 by (intros E; rewrite E in Ec; destruct (file_coords fi); discriminate).
    destruct (C33_common_points_partial 32 H W (file_coords fi) (file_coords fj)) as (ii & jj & Ef & Lc & Eq & _ & _); auto; [lia|].
    rewrite Ef in Ec. injection Ec as -> ->.
    set (ti := nth i (tiles t) (BBox 0 0 0 0)) in *. set (tj := nth j (tiles t) (BBox 0 0 0 0)) in *.
    pose proof (taken_shape fi ti bands c1 Ti) as S1. pose proof (taken_shape fj tj bands c2 Tj) as S2.
    pose proof (taken_shape fi' ti bands c1 Ti') as S1'. pose proof (taken_shape fj' tj bands c2 Tj') as S2'. rewrite <- Lc in S2, S2'.
    apply deciles_comp.
    - unfold nd_of. cbn [nd_shape]. now rewrite (proj1 S1), (proj1 S1').
    - unfold nd_of. cbn [nd_shape]. now rewrite (proj1 S2), (proj1 S2').
    - unfold nd_of. cbn [nd_rows]. apply (matrix_comp _ _ bands (length c1)); [now apply cycles_shape|now apply cycles_shape|].
      intros b m Bb Bm. rewrite (cycles_at _ _ bands (length c1) b m S1 S2 Bb Bm), (cycles_at _ _ bands (length c1) b m S1' S2' Bb Bm).
      destruct (Eq m Bm) as (B1 & B2 & Ex).
      assert (forall fl, length (file_coords fl) = length (tf_points fl)) as Lp by (intros fl; unfold file_coords; apply map_length).
      pose proof B1 as B1p. pose proof B2 as B2p. rewrite Lp in B1p, B2p.
      assert (tf_points fi' = tf_points fi /\ tf_points fj' = tf_points fj) as [Ei Ej] by (split; apply (proj2 Ly)).
      rewrite (taken_at fi ti bands c1 b m Ti Bb Bm B1p), (taken_at fj tj bands c2 b m Tj Bb ltac:(lia) B2p).
      rewrite (taken_at fi' ti bands c1 b m Ti' Bb Bm), (taken_at fj' tj bands c2 b m Tj' Bb ltac:(lia)) by (rewrite ?Ei, ?Ej; assumption).
      assert (nth_error (file_coords fi) (nth m c1 O) = Some (at_pt (file_coords fi) (nth m c1 O))) as X1 by now apply nth_error_nth'.
      assert (nth_error (file_coords fj) (nth m c2 O) = Some (at_pt (file_coords fi) (nth m c1 O))) as X2 by (rewrite Ex; now apply nth_error_nth').
      pose proof (Mf b i _ _ Bb X1) as M1. pose proof (Mf b j _ _ Bb X2) as M2. fold fi fi' in M1. fold fj fj' in M2.
      unfold cycle_diff. rewrite M1, M2. pose proof twopi_pos. field. lra.
  Qed.

  Lemma recorded_field : compute_phasediff_deciles comps min_points files' t = compute_phasediff_deciles comps min_points files t.
  Proof using All.
    unfold compute_phasediff_deciles. f_equal. apply map_res_ext. intros [i j] I.
    apply pair_field. destruct (Props_Tile.C26_overlaps t) as (O1 & _). now apply (O1 i j).
  Qed.
End Recorded.
