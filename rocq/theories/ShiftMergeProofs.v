(** Whole cycles added to the tiles before they are merged. *)
From Verif Require Import Base BaseLemmas PoolProofs GraphModel GraphSpec TileModel TileSpec OverlapModel OverlapSpec BulkModel BulkSpec BulkProofs
  DirichletModel MergeModel MergeSpec TileStateProofs AdjustProofs BandProofs MergeBatchProofs DescribeProofs WorkflowSpec
  Props_Overlap Props_Merge ExactSpec ExactBulkProofs ShiftSpec ShiftProofs.
From Coq Require Import String.
From Coq Require Import List ZifyBool Lqa Permutation.
Import ListNotations.
Set Default Goal Selector "!".
Local Open Scope Q_scope.
Opaque twopi.
Local Notation tl ts i := (nth i ts dtile).

(** ** Wrapping around the average *)
Lemma wrap_shift m r c k : ~ half_cycle_tie r m ->
  wrap_around (m + twopi * inject_Z c) (r + twopi * inject_Z k) == wrap_around m r + twopi * inject_Z c.
Proof.
  intros N. pose proof twopi_pos as T.
  assert (congruent (r + twopi * inject_Z c) (r + twopi * inject_Z k)) as C.
  { exists (c - k)%Z. unfold Z.sub. rewrite inject_Z_plus, inject_Z_opp. ring. }
  rewrite <- (wrap_around_congruent _ _ _ C).
  - unfold wrap_around. cbv zeta.
    rewrite (rint_comp ((r + twopi * inject_Z c - (m + twopi * inject_Z c)) / twopi) ((r - m) / twopi)) by (field; lra). ring.
  - intros (j & J). apply N. exists j. rewrite <- J. ring.
Qed.

Lemma wrap_tie m r : half_cycle_tie r m -> half_cycle_tie (wrap_around m r) m.
Proof.
  intros (j & J). unfold wrap_around. cbv zeta. exists (j - rint ((r - m) / twopi))%Z. unfold Z.sub. rewrite inject_Z_plus, inject_Z_opp.
  assert (m + (r - m) - twopi * inject_Z (rint ((r - m) / twopi)) - m == (r - m) - twopi * inject_Z (rint ((r - m) / twopi))) as -> by ring.
  rewrite J at 1. ring.
Qed.

Lemma tie_comp v v' m m' : v == v' -> m == m' -> half_cycle_tie v m -> half_cycle_tie v' m'.
Proof. intros E1 E2 (j & J). exists j. now rewrite <- E1, <- E2. Qed.

Lemma wrap_or r r' m m' c k : r' == r + twopi * inject_Z k -> m' == m + twopi * inject_Z c ->
  wrap_around m' r' == wrap_around m r + twopi * inject_Z c \/ half_cycle_tie (wrap_around m r) m /\ k <> c.
Proof.
  intros E1 E2. pose proof twopi_pos as T. destruct (Z.eq_dec k c) as [->|Nk].
  { left. rewrite (wrap_around_comp _ (m + twopi * inject_Z c) _ (r + twopi * inject_Z c) E2 E1). unfold wrap_around. cbv zeta.
    rewrite (rint_comp ((r + twopi * inject_Z c - (m + twopi * inject_Z c)) / twopi) ((r - m) / twopi)) by (field; lra). ring. }
  set (d := (r - m) / twopi - inject_Z (Qfloor ((r - m) / twopi))).
  destruct (Qeq_dec d (1 # 2)) as [E|N].
  - right. split; [|exact Nk]. apply wrap_tie. exists (Qfloor ((r - m) / twopi)). unfold d in E.
    assert ((r - m) / twopi == inject_Z (Qfloor ((r - m) / twopi)) + (1 # 2)) as E3 by lra. rewrite <- E3. field. lra.
  - left. rewrite (wrap_around_comp _ (m + twopi * inject_Z c) _ (r + twopi * inject_Z k) E2 E1). apply wrap_shift. intros (j & J). apply N. unfold d.
    assert ((r - m) / twopi == inject_Z j + (1 # 2)) as E3 by (rewrite J; field; lra).
    rewrite (Qfloor_comp _ _ E3).
    assert (Qfloor (inject_Z j + (1 # 2)) = j) as ->.
    { pose proof (Qfloor_le (inject_Z j + (1 # 2))) as A. pose proof (Qlt_floor (inject_Z j + (1 # 2))) as B. revert A B. generalize (Qfloor (inject_Z j + (1 # 2))). intros z A B.
      assert (inject_Z z < inject_Z (j + 1)) as A' by (rewrite inject_Z_plus; change (inject_Z 1) with 1; clear -A; idtac; lra).
      assert (inject_Z j < inject_Z (z + 1)) as B' by lra. rewrite <- Zlt_Qlt in A', B'. lia. }
    rewrite E3. ring.
Qed.

(** ** One band *)
Section Band.
  Variables (nb : nat) (idx : list nat) (us us' : list tile) (s : nat -> nat -> Q) (k : nat -> nat -> Z) (sh : Z * Z) (n b : nat) (far : nat -> Prop).
  Hypothesis Hi : length idx = nb.
  Hypothesis Nd : NoDup idx.
  Hypothesis Hr : forall t, In t us -> ready nb t.
  Hypothesis Hr' : forall t, In t us' -> ready nb t.
  Hypothesis Hm : forall t, In t us -> mergeable idx t.
  Hypothesis Hm' : forall t, In t us' -> mergeable idx t.
  Hypothesis Hb : nth_error idx n = Some b.
  Hypothesis Sh : shifted nb s far us us'.
  Hypothesis Raw : forall i p, far i -> (i < length us)%nat -> (p < npoints (tl us i))%nat ->
    at_ (t_raw (tl us' i)) n p == at_ (t_raw (tl us i)) n p + twopi * inject_Z (k n i).

  Let Bn : (n < nb)%nat.
  Proof using Hb Hi. rewrite <- Hi. apply nth_error_Some. congruence. Qed.
  Let inside x := filter (fun j => contains (tl us j) x) (seq 0 (length us)).
  Let same x : holders us x = map (fun j => tl us j) (inside x) /\ holders us' x = map (fun j => tl us' j) (inside x).
  Proof using Sh.
    destruct Sh as [L K]. split; [apply holders_index|]. rewrite holders_index, L. f_equal. apply filter_ext_in. intros j I. apply in_seq in I.
    unfold contains. now rewrite (proj1 (K j ltac:(lia))).
  Qed.
  Let inside_lt x j : In j (inside x) -> (j < length us)%nat /\ contains (tl us j) x = true.
  Proof using. intros I. apply filter_In in I as [I C]. apply in_seq in I. split; [lia|exact C]. Qed.

  Lemma band_shift arr diff model : merged_band us b sh = Ok (arr, diff, model) ->
    exists arr' diff' model', merged_band us' b sh = Ok (arr', diff', model') /\
      forall x c, in_shape sh x = true -> (forall j, (j < length us)%nat -> contains (tl us j) x = true -> far j /\ s n j == twopi * inject_Z c) ->
        moved c (pixel model x) (pixel model' x) /\ same_value (pixel diff x) (pixel diff' x) /\
        (moved c (pixel arr x) (pixel arr' x) \/
         exists v v' w j, pixel arr x = Some v /\ pixel arr' x = Some v' /\ pixel model x = Some w /\ half_cycle_tie v w /\
           (j < length us)%nat /\ contains (tl us j) x = true /\ k n j <> c).
  Proof using Hi Nd Hr Hr' Hm Hm' Hb Sh Raw.
    intros H. destruct (merged_values idx us b n sh Nd Hm Hb arr diff model H) as (Ne & Hs & _). pose proof Sh as [L K].
    assert (us' <> []) as Ne' by (intros E; rewrite E in L; destruct us; [contradiction|cbn in L; lia]).
    assert (forall t x, In t us' -> contains t x = true -> in_shape sh x = true) as Hs'.
    { intros t x I C. apply (In_nth _ _ dtile) in I as (i & Bi & <-). rewrite L in Bi. apply (Hs (tl us i)); [now apply nth_In|].
      unfold contains in *. now rewrite <- (proj1 (K i Bi)). }
    pose proof (merged_total idx us' b sh n Ne' Nd Hm' Hs' Hb) as T. cbv zeta in T.
    destruct (merged_band us' b sh) as [[[arr' diff'] model']|] eqn:H'; [|discriminate]. clear T. exists arr', diff', model'. split; [reflexivity|].
    intros x c S Hc. destruct (same x) as [E E']. pose proof (inside_lt x) as Il.
    assert (forall j, In j (inside x) -> phase_at (tl us' j) n x == phase_at (tl us j) n x + twopi * inject_Z c) as Ph.
    { intros j I. destruct (Il j I) as [B C]. rewrite (shifted_phase nb s far us us' j n x Hr Sh B (proj1 (Hc j B C)) Bn C). now rewrite (proj2 (Hc j B C)). }
    revert E E' Il Ph. generalize (inside x). intros ins. destruct ins as [|j0 fl _] using rev_ind; intros E E' Il Ph.
    - destruct (merged_nan idx us b n sh Nd Hm Hb arr diff model H x S E) as (-> & -> & ->).
      destruct (merged_nan idx us' b n sh Nd Hm' Hb arr' diff' model' H' x S E') as (-> & -> & ->). cbn. auto.
    - rewrite !map_app in E, E'. cbn [map] in E, E'.
      destruct (merged_pixel idx us b n sh Nd Hm Hb arr diff model H x S _ _ E) as (w & v & Ew & Aw & Ev & Av).
      destruct (merged_pixel idx us' b n sh Nd Hm' Hb arr' diff' model' H' x S _ _ E') as (w' & v' & Ew' & Aw' & Ev' & Av').
      assert (average_at us' n x == average_at us n x + twopi * inject_Z c) as Avg.
      { unfold average_at, average. rewrite !map_length. rewrite E, E'. 
        change (map (fun j => tl us j) fl ++ [tl us j0]) with (map (fun j => tl us j) fl ++ map (fun j => tl us j) [j0]).
        change (map (fun j => tl us' j) fl ++ [tl us' j0]) with (map (fun j => tl us' j) fl ++ map (fun j => tl us' j) [j0]).
        rewrite <- !map_app, !map_map, !map_length.
        rewrite (sum_shift (fun j => phase_at (tl us j) n x) (fun j => phase_at (tl us' j) n x) (twopi * inject_Z c) (fl ++ [j0]) Ph).
        rewrite app_length. cbn [length]. rewrite Nat2Z.inj_add, inject_Z_plus. change (inject_Z (Z.of_nat 1)) with 1. set (q := inject_Z (Z.of_nat (length fl))).
        assert (0 <= q) as Pq by (unfold q; change 0 with (inject_Z 0); rewrite <- Zle_Qle; lia). field. intros X. lra. }
      rewrite Ew, Ew', Ev, Ev'. split; [|split].
      + cbn. now rewrite Aw', Aw, Avg.
      + destruct (merged_diff idx us b n sh Nd Hm Hb arr diff model H x S) as [D1 D2]. destruct (merged_diff idx us' b n sh Nd Hm' Hb arr' diff' model' H' x S) as [D1' D2'].
        assert (length (holders us' x) = length (holders us x)) as Lh by (rewrite E, E', !app_length, !map_length; reflexivity).
        destruct (Nat.lt_ge_cases (length (holders us x)) 2) as [C2|C2]; [rewrite D1, D1' by lia; exact I|].
        destruct (D2 C2) as (t & u & It & Iu & -> & Bd). destruct (D2' ltac:(lia)) as (t' & u' & It' & Iu' & -> & Bd'). cbn [same_value].
        change [tl us j0] with (map (fun j => tl us j) [j0]) in E. change [tl us' j0] with (map (fun j => tl us' j) [j0]) in E'. rewrite <- map_app in E, E'.
        assert (forall y, In y (holders us x) -> exists j, In j (fl ++ [j0]) /\ y = tl us j) as Hh by (intros y Iy; rewrite E in Iy; apply in_map_iff in Iy as (j & <- & Ij); eauto).
        assert (forall y, In y (holders us' x) -> exists j, In j (fl ++ [j0]) /\ y = tl us' j) as Hh' by (intros y Iy; rewrite E' in Iy; apply in_map_iff in Iy as (j & <- & Ij); eauto).
        destruct (Hh t It) as (a & Ia & ->). destruct (Hh u Iu) as (a2 & Ia2 & ->). destruct (Hh' t' It') as (a' & Ia' & ->). destruct (Hh' u' Iu') as (a2' & Ia2' & ->).
        assert (forall j, In j (fl ++ [j0]) -> In (tl us j) (holders us x) /\ In (tl us' j) (holders us' x)) as Hin.
        { intros j Ij. rewrite E, E'. split; apply in_map_iff; eauto. }
        destruct (Bd _ (proj1 (Hin _ Ia'))) as [_ P1]. destruct (Bd _ (proj1 (Hin _ Ia2'))) as [P2 _].
        destruct (Bd' _ (proj2 (Hin _ Ia))) as [_ P3]. destruct (Bd' _ (proj2 (Hin _ Ia2))) as [P4 _].
        rewrite (Ph _ Ia), (Ph _ Ia') in P3. rewrite (Ph _ Ia2), (Ph _ Ia2') in P4. rewrite (Ph _ Ia'), (Ph _ Ia2').
        revert P1 P2 P3 P4. generalize (twopi * inject_Z c). intros q P1 P2 P3 P4. lra.
      + assert (In j0 (fl ++ [j0])) as I0 by (apply in_or_app; right; now left). destruct (Il j0 I0) as [B0 C0]. pose proof (proj1 (Hc j0 B0 C0)) as F0.
        assert (raw_at (tl us' j0) n x == raw_at (tl us j0) n x + twopi * inject_Z (k n j0)) as Er.
        { unfold raw_at. rewrite (proj1 (K j0 B0)). apply contains_spec in C0 as (p & P). assert (ready nb (tl us j0)) as (_ & _ & _ & _ & Nc) by (apply Hr, nth_In, B0).
          rewrite (position_spec _ _ _ Nc P). apply Raw; [exact F0|exact B0|eapply point_lt; eauto]. }
        destruct (wrap_or _ _ _ _ c (k n j0) Er Avg) as [W|[W Nk]].
        * left. cbn. now rewrite Av', Av, W.
        * right. exists v, v', w, j0. split; [reflexivity|]. split; [reflexivity|]. split; [reflexivity|]. split; [|auto].
          eapply tie_comp; [symmetry; exact Av|symmetry; exact Aw|exact W].
  Qed.
End Band.

(** ** Medians *)
Lemma no_file_d : no_file = dfile.
Proof. reflexivity. Qed.

Lemma layout_coords files files' i : same_layout files files' -> file_coords (nth i files' dfile) = file_coords (nth i files dfile).
Proof. intros [_ K]. destruct (K i) as [E1 E2]. rewrite no_file_d in *. unfold file_coords. now rewrite E1, E2. Qed.

Lemma file_coords_nodup fl : NoDup (tf_points fl) -> NoDup (file_coords fl).
Proof.
  intros N. unfold file_coords. apply FinFun.Injective_map_NoDup; [|auto]. intros [x y] [x' y'] E. cbn in E. injection E as E1 E2. f_equal; lia.
Qed.

Lemma exact_tol d n : (-32768 <= n <= 32767)%Z -> d == twopi * inject_Z n -> cycles_within_tol d n.
Proof.
  intros B E. split; [exact B|]. rewrite E. assert (twopi * inject_Z n - twopi * inject_Z n == 0) as -> by ring. change (Qabs 0) with 0. pose proof twopi_pos as T.
  assert (0 <= inject_Z (Z.abs n)) as A by (change 0 with (inject_Z 0); rewrite <- Zle_Qle; lia).
  apply Qmult_le_0_compat; lra.
Qed.

Section Medians.
  Variables (comps : nat -> list (nat * nat) -> list nat) (min_points : Z) (files : list tile_file) (t : tileset) (f : overlap_file) (H W : Z) (bands : nat).
  Hypothesis Hc : compute_phasediff_deciles comps min_points files t = Ok f.
  Hypothesis Hl : forall n e, length (comps n e) = n.
  Hypothesis Hcut : cut_files t H W bands files.

  Lemma most_median b g i j n : (b < bands)%nat -> In g (of_groups f) -> og_pair g = (i, j) -> (-32768 <= n <= 32767)%Z ->
    most_differ b n (nth i files dfile) (nth j files dfile) -> nth 5 (nth b (og_stats g) []) 0%Z = n.
  Proof using Hc Hl Hcut.
    intros Bb I E Bn (l & Nl & Ll & Hx). destruct Hcut as (Hn & Hfit & Ht & Hf). rewrite no_file_d in *.
    assert (forall fl, In fl files -> NoDup (tf_points fl)) as Hp by (intros fl J; apply Hf, J).
    assert (forall fl, In fl files -> in_grid H W (file_coords fl)) as Hg by (intros fl J; apply Hf, J).
    destruct (group_pair comps min_points files t f H W Hc Hl Hn Ht Hp Hg Hfit g I) as (i' & j' & E' & B & Ok_). rewrite E in E'. injection E' as <- <-.
    destruct (pair_recorded min_points files t H W Hn Ht Hp Hg Hfit i j g B Ok_) as (_ & Lc & N1 & _ & Cm).
    assert (In (nth i files dfile) files /\ In (nth j files dfile) files) as [Ii Ij] by (split; apply nth_In; lia).
    pose proof (C34_recorded_median min_points files t i j g bands b n) as K. cbv beta zeta in K. fold dfile in K.
    apply K; [apply Hf, Ii|apply Hf, Ij|exact Ok_|exact Bb|]. intros ms Nm Hms.
    set (X := fun m => nth (nth m (og_c1 g) O) (file_coords (nth i files dfile)) (0, 0)%Z).
    assert (forall m, (m < length (og_c1 g))%nat -> exists x, nth_error (file_coords (nth i files dfile)) (nth m (og_c1 g) O) = Some x /\
      nth_error (file_coords (nth j files dfile)) (nth m (og_c2 g) O) = Some x) as At.
    { intros m Bm. apply Cm. rewrite <- combine_nth by auto. apply nth_In. rewrite combine_length. lia. }
    assert (length l <= length ms)%nat as L1.
    { rewrite <- (map_length X ms). apply NoDup_incl_length; [exact Nl|]. intros x Ix. destruct (Hx x Ix) as (p & q & P & Q & D).
      assert (In (p, q) (combine (og_c1 g) (og_c2 g))) as Ipq by (apply Cm; eauto).
      apply (In_nth _ _ (O, O)) in Ipq as (m & Bm & Em). rewrite combine_nth in Em by auto. rewrite combine_length in Bm. injection Em as E1 E2.
      apply in_map_iff. exists m. split; [unfold X; rewrite E1; now apply nth_error_nth|]. apply Hms. split; [lia|]. rewrite E1, E2.
      apply exact_tol; [exact Bn|exact D]. }
    assert (length (og_c1 g) <= length (common_pixels (nth i files dfile) (nth j files dfile)))%nat as L2.
    { rewrite <- (seq_length (length (og_c1 g)) 0), <- (map_length X). apply NoDup_incl_length.
      - apply (NoDup_nth _ (0, 0)%Z). rewrite map_length, seq_length. intros a c Ba Bc. rewrite !(map_nth' _ _ _ O) by now rewrite seq_length.
        rewrite !seq_nth by auto. cbn [Nat.add]. unfold X. destruct (At a Ba) as (xa & A1 & _). destruct (At c Bc) as (xc & C1 & _).
        rewrite (nth_error_nth _ _ _ A1), (nth_error_nth _ _ _ C1). intros ->.
        assert (nth a (og_c1 g) O = nth c (og_c1 g) O) as En.
        { apply (proj1 (NoDup_nth_error _) (file_coords_nodup _ (Hp _ Ii))); [apply nth_error_Some; congruence|congruence]. }
        apply (proj1 (NoDup_nth _ O) N1); auto.
      - intros x Ix. apply in_map_iff in Ix as (m & <- & Im). apply in_seq in Im. destruct (At m ltac:(lia)) as (x & A1 & A2). unfold X. rewrite (nth_error_nth _ _ _ A1).
        apply in_common. split; eapply nth_error_In; eauto. }
    lia.
  Qed.
End Medians.

Lemma overlap_same min_points files files' t i j o o' : same_layout files files' ->
  overlap_pair min_points files t (i, j) = Ok o -> overlap_pair min_points files' t (i, j) = Ok o' -> option_map og_pair o = option_map og_pair o'.
Proof.
  intros [_ K]. unfold overlap_pair. fold no_file. unfold load_uw_tile. destruct (K i) as [-> _]. destruct (K j) as [-> _].
  destruct (find_common_points _ _ _) as [[c1 c2]|]; [|discriminate]. cbn [bind]. destruct (_ <? _)%Z; [congruence|].
  destruct (pairwise_unwrapped_diff_deciles _ _) as [R|]; [|discriminate]. cbn [bind]. intros [= <-].
  destruct (pairwise_unwrapped_diff_deciles _ _) as [R'|]; [|discriminate]. cbn [bind]. intros [= <-]. reflexivity.
Qed.

Lemma overlaps_same comps min_points files files' t f f' : same_layout files files' ->
  (forall n e, length (comps n e) = n) ->
  compute_phasediff_deciles comps min_points files t = Ok f -> compute_phasediff_deciles comps min_points files' t = Ok f' ->
  of_overlaps f' = of_overlaps f.
Proof.
  intros Ly Hl H H'. destruct (computed comps min_points files t f H Hl) as (gs & Eg & -> & -> & _).
  destruct (computed comps min_points files' t f' H' Hl) as (gs' & Eg' & Ef' & Eo' & _). rewrite Eo', Ef'. clear -Ly Eg Eg'.
  revert gs gs' Eg Eg'. induction (get_overlaps t) as [|[i j] l IH]; intros gs gs' E E'; cbn [map_res] in *; [injection E as <-; injection E' as <-; reflexivity|].
  destruct (overlap_pair min_points files t (i, j)) as [o|] eqn:Eo; [|discriminate]. destruct (overlap_pair min_points files' t (i, j)) as [o'|] eqn:Eo'; [|discriminate]. cbn [bind] in *.
  destruct (map_res (overlap_pair min_points files t) l) as [g|]; [|discriminate]. destruct (map_res (overlap_pair min_points files' t) l) as [g'|]; [|discriminate]. cbn [bind] in *.
  injection E as <-. injection E' as <-. cbn [flat_map]. rewrite !map_app, (IH g g' eq_refl eq_refl). f_equal.
  pose proof (overlap_same _ _ _ _ _ _ _ _ Ly Eo Eo') as X. destruct o, o'; cbn in *; congruence.
Qed.

Lemma most_shift b i j n k files files' bands : same_layout files files' -> more_cycles bands k files files' -> (b < bands)%nat ->
  most_differ b n (nth i files dfile) (nth j files dfile) -> most_differ b (n + (k b j - k b i)) (nth i files' dfile) (nth j files' dfile).
Proof.
  intros Ly Mc Bb (l & Nl & Ll & Hx). exists l. split; [exact Nl|]. unfold common_pixels. rewrite !(layout_coords files files') by auto. split; [exact Ll|].
  intros x Ix. destruct (Hx x Ix) as (p & q & P & Q & D). exists p, q. split; [exact P|]. split; [exact Q|].
  assert (forall fl r, nth_error (file_coords fl) r = Some x -> (r < length (tf_points fl))%nat) as Lt.
  { intros fl r R. rewrite <- (map_length (fun p => (fst p + xmin (tf_tile fl), snd p + ymin (tf_tile fl))%Z)). apply nth_error_Some. unfold file_coords in R. congruence. }
  unfold more_cycles in Mc. rewrite no_file_d in Mc. rewrite (Mc b j q Bb (Lt _ _ Q)), (Mc b i p Bb (Lt _ _ P)).
  unfold Z.sub. rewrite !inject_Z_plus, inject_Z_opp. lra.
Qed.

(** ** A batch *)
Section Absorb.
  Variables (comps : nat -> list (nat * nat) -> list nat) (min_points : Z) (files files' : list tile_file) (t : tileset) (f f' : overlap_file) (H W : Z) (bands : nat)
    (solve : mip -> option (list Z)) (lsq : list (list Q) -> list Q -> list Q) (method : string) (valid : list (list bool))
    (bulk bulk' : list (list Q)) (R R' : list Q) (k M : nat -> nat -> Z).
  Hypothesis Hl : forall n e, length (comps n e) = n.
  Hypothesis Hcut : cut_files t H W bands files.
  Hypothesis Hcut' : cut_files t H W bands files'.
  Hypothesis Ly : same_layout files files'.
  Hypothesis Mc : more_cycles bands k files files'.
  Hypothesis Hc : compute_phasediff_deciles comps min_points files t = Ok f.
  Hypothesis Hc' : compute_phasediff_deciles comps min_points files' t = Ok f'.
  Hypothesis Hb : get_bulk_offsets solve lsq method f t valid = Ok (bulk, R).
  Hypothesis Hb' : get_bulk_offsets solve lsq method f' t valid = Ok (bulk', R').
  Hypothesis Hsol : bulk_solver_ok comps solve lsq method (forall u v, (u < ntiles t)%nat -> (v < ntiles t)%nat -> reach (of_overlaps f) u v).
  Hypothesis Hex : explained f files bands M.
  Hypothesis Hex' : (forall b i j, (b < bands)%nat -> In (i, j) (of_overlaps f) -> (-32768 <= (M b j + k b j) - (M b i + k b i) <= 32767)%Z) /\
    forall b i j, (b < bands)%nat -> (i < length files)%nat -> (j < length files)%nat -> (Z.abs ((M b i + k b i) - (M b j + k b j)) <= 2 ^ 31 - 1)%Z.

  Let o b j := nth j (nth b bulk []) 0.
  Let o' b j := nth j (nth b bulk' []) 0.

  Lemma absorb_overlaps : of_overlaps f' = of_overlaps f.
  Proof using Hl Ly Hc Hc'. eapply overlaps_same; eauto. Qed.

  Lemma absorb_bulk : exists K : nat -> nat -> Z,
    (forall b j, (b < bands)%nat -> (j < length files)%nat -> o' b j == o b j + inject_Z (k b j) - inject_Z (K b j)) /\
    (forall b i j, (b < bands)%nat -> In (i, j) (of_overlaps f) -> K b i = K b j) /\
    length bulk' = bands /\ forall b, (b < bands)%nat -> length (nth b bulk' []) = length files'.
  Proof using Hl Hcut Hcut' Ly Mc Hc Hc' Hb Hb' Hsol Hex Hex'.
    pose proof absorb_overlaps as Eo. destruct Hex as [Hm Hr]. destruct Hex' as [Hm' Hr'].
    pose proof Hcut as (Hn & Hfit & Ht & Hf). pose proof Hcut' as (Hn' & _ & Ht' & Hf'). rewrite no_file_d in *.
    assert (forall g i j, In g (of_groups f) -> og_pair g = (i, j) -> In (i, j) (of_overlaps f)) as Ig.
    { intros g i j I E. destruct (computed comps min_points files t f Hc Hl) as (_ & _ & _ & -> & _). rewrite <- E. now apply in_map. }
    assert (forall g i j, In g (of_groups f') -> og_pair g = (i, j) -> In (i, j) (of_overlaps f)) as Ig'.
    { intros g i j I E. destruct (computed comps min_points files' t f' Hc' Hl) as (_ & _ & _ & E2 & _). rewrite <- Eo, E2, <- E. now apply in_map. }
    assert (forall b, (b < bands)%nat -> (forall i j, In (i, j) (of_overlaps f) -> o b j - o b i == inject_Z (M b j) - inject_Z (M b i)) /\
      exists c : nat -> Z, forall j, (j < ntiles t)%nat -> inject_Z (M b j) - o b j == inject_Z (c j)) as B1.
    { intros b Bb. destruct (bulk_med comps min_points files t f H W Hc Hl Hn Ht (fun fl J => proj1 (Hf fl J)) (fun fl J => proj1 (proj2 (Hf fl J))) Hfit bands (fun fl J => proj2 (proj2 (Hf fl J))) M)
        with (k := b) (2 := Bb) (3 := Hb) as (A1 & A2 & _); auto.
      - intros b' g i j Bb' I E. apply (most_median comps min_points files t f H W bands Hc Hl Hcut b' g i j); auto; apply Hm; eauto.
      - intros i j Bi Bj. apply Hr; auto; lia. }
    assert (forall b, (b < bands)%nat -> (forall i j, In (i, j) (of_overlaps f) -> o' b j - o' b i == inject_Z (M b j + k b j) - inject_Z (M b i + k b i)) /\
      (exists c : nat -> Z, forall j, (j < ntiles t)%nat -> inject_Z (M b j + k b j) - o' b j == inject_Z (c j)) /\
      length bulk' = bands /\ length (nth b bulk' []) = ntiles t) as B2.
    { intros b Bb. destruct (bulk_med comps min_points files' t f' H W Hc' Hl Hn' Ht' (fun fl J => proj1 (Hf' fl J)) (fun fl J => proj1 (proj2 (Hf' fl J))) Hfit bands (fun fl J => proj2 (proj2 (Hf' fl J))) (fun b j => (M b j + k b j)%Z))
        with (k := b) (2 := Bb) (3 := Hb') as (A1 & A2 & A3 & A4); auto.
      - intros b' g i j Bb' I E. apply (most_median comps min_points files' t f' H W bands Hc' Hl Hcut' b' g i j); auto; [apply Hm'; eauto|].
        replace (M b' j + k b' j - (M b' i + k b' i))%Z with (M b' j - M b' i + (k b' j - k b' i))%Z by lia.
        apply (most_shift _ _ _ _ _ files files' bands Ly Mc Bb'). apply Hm; eauto.
      - now rewrite Eo.
      - intros i j Bi Bj. apply Hr'; auto; lia.
      - rewrite Eo in A1. auto. }
    (* bands *)
    destruct (Nat.eq_dec bands 0) as [Z0|Nz].
    { exists (fun _ _ => 0%Z). split; [intros b j Bb; lia|]. split; [intros b i j Bb; lia|]. split; [|intros b Bb; lia].
      rewrite (bulk_bands comps min_points files' t f' H W Hc' Hl Hn' Ht' (fun fl J => proj1 (Hf' fl J)) (fun fl J => proj1 (proj2 (Hf' fl J))) Hfit bands (fun fl J => proj2 (proj2 (Hf' fl J))) _ _ _ _ _ _ Hb'). auto. }
    exists (fun b j => Qfloor (o b j + inject_Z (k b j) - o' b j)).
    assert (forall b j, (b < bands)%nat -> (j < length files)%nat -> o b j + inject_Z (k b j) - o' b j == inject_Z (Qfloor (o b j + inject_Z (k b j) - o' b j))) as Int.
    { intros b j Bb Bj. rewrite Hn in Bj. destruct (B1 b Bb) as (_ & c & C1). destruct (B2 b Bb) as (_ & (c' & C2) & _).
      specialize (C1 j Bj). specialize (C2 j Bj). rewrite inject_Z_plus in C2.
      assert (o b j + inject_Z (k b j) - o' b j == inject_Z (c' j - c j)) as E by (unfold Z.sub; rewrite inject_Z_plus, inject_Z_opp; lra).
      rewrite (Qfloor_comp _ _ E), Qfloor_Z. exact E. }
    split; [|split; [|split]].
    - intros b j Bb Bj. rewrite <- (Int b j Bb Bj). ring.
    - intros b i j Bb I. apply Qfloor_comp. destruct (B1 b Bb) as (D1 & _). destruct (B2 b Bb) as (D2 & _). specialize (D1 i j I). specialize (D2 i j I).
      rewrite !inject_Z_plus in D2. lra.
    - destruct (B2 0%nat ltac:(lia)) as (_ & _ & A3 & _). exact A3.
    - intros b Bb. destruct (B2 b Bb) as (_ & _ & _ & A4). lia.
  Qed.
End Absorb.

Lemma start_shift files files' bulk bulk' idx bands ts : length files' = length files ->
  (forall fl, In fl files -> tile_bands bands fl) -> (forall fl, In fl files' -> tile_bands bands fl) ->
  length bulk' = bands -> (forall b, (b < bands)%nat -> length (nth b bulk' []) = length files') ->
  start_tiles files bulk idx = Ok ts -> exists ts', start_tiles files' bulk' idx = Ok ts'.
Proof.
  intros L Hb Hb' L1 L2 H. unfold start_tiles in *. apply map_res_nth in H as [_ K]. rewrite combine_length, seq_length, Nat.min_id in K.
  apply map_res_ok_iff. intros [j fl] I. cbn [fst snd].
  assert (j < length files)%nat as Bj by (apply in_combine_l, in_seq in I; lia). apply in_combine_r in I.
  specialize (K j (O, dfile) dtile Bj). rewrite nth_combine in K by (rewrite ?seq_length; auto). rewrite seq_nth in K by auto. cbn [fst snd Nat.add] in K.
  destruct (Hb (nth j files dfile)) as (A1 & A2 & _); [now apply nth_In|]. destruct (Hb' fl I) as (A1' & A2' & _).
  unfold start_tile, reset_band_index in *. rewrite A1, A2 in K. rewrite A1', A2'. destruct idx as [|i0 idx0] eqn:Ei; [discriminate|]. rewrite <- Ei in *. clear Ei i0 idx0.
  destruct (negb (increasing idx)); [discriminate|]. destruct (forallb (fun b => (b <? bands) && (b <? bands))%nat idx) eqn:Fb; [|discriminate]. cbn [negb bind].
  rewrite forallb_forall in Fb. rewrite (proj2 (forallb_forall _ idx)).
  - cbn [negb]. unfold add_correction. cbn [t_idx t_file t_raw t_corr t_level]. rewrite broadcast_column by apply map_length. cbn [bind]. eauto.
  - intros b Ib. specialize (Fb b Ib). rewrite L1, L2 by lia. lia.
Qed.

Lemma overlap_map_same f f' n : length (of_conn_comp f) = n -> length (of_conn_comp f') = n -> of_overlaps f' = of_overlaps f -> overlap_map f' = overlap_map f.
Proof. intros L L' E. unfold overlap_map. now rewrite L, L', E. Qed.

Lemma K_reach (K : nat -> Z) olaps u v : (forall i j, In (i, j) olaps -> K i = K j) -> reach olaps u v -> K u = K v.
Proof. intros E R. induction R as [|v v' R IH [I|I]]; [reflexivity| |]; rewrite IH; [apply E, I|symmetry; apply E, I]. Qed.

Section Batch.
  Variables (cg : list (list Q) -> list Q -> list Q) (ilu : list (list Q) -> bool) (triangles : list (Z * Z) -> res (list (nat * nat * nat)))
    (f f' : overlap_file) (omap : list (list nat)) (md : nat) (files files' : list tile_file) (bulk bulk' : list (list Q)) (bands : nat) (k K : nat -> nat -> Z) (sh : Z * Z) (idx : list nat) (far : nat -> Prop).
  Hypothesis Hcg : respects cg.
  Hypothesis Hf : forall fl, In fl files -> NoDup (tf_points fl) /\ tile_bands bands fl.
  Hypothesis Hf' : forall fl, In fl files' -> NoDup (tf_points fl) /\ tile_bands bands fl.
  Hypothesis Ly : same_layout files files'.
  Hypothesis Mc : forall b i p, far i -> (b < bands)%nat -> (p < length (tf_points (nth i files no_file)))%nat ->
    MergeSpec.phase_of (nth i files' no_file) b p == MergeSpec.phase_of (nth i files no_file) b p + twopi * inject_Z (k b i).
  Hypothesis Hrec : recorded_files f files.
  Hypothesis Hrec' : recorded_files f' files'.
  Hypothesis Hov : of_overlaps f' = of_overlaps f.
  Hypothesis Hom : overlap_map f = Ok omap.
  Hypothesis Hom' : overlap_map f' = Ok omap.
  Hypothesis HK : forall b j, far j -> (b < bands)%nat -> (j < length files)%nat -> nth j (nth b bulk' []) 0 == nth j (nth b bulk []) 0 + inject_Z (k b j) - inject_Z (K b j).
  Hypothesis HK2 : forall b i j, (b < bands)%nat -> In (i, j) (of_overlaps f) -> K b i = K b j.
  Hypothesis Lb' : length bulk' = bands.
  Hypothesis Lj' : forall b, (b < bands)%nat -> length (nth b bulk' []) = length files'.

  Lemma batch_shift outs : merge_batch cg ilu triangles f omap md bulk sh files idx = Ok outs ->
    exists outs', merge_batch cg ilu triangles f' omap md bulk' sh files' idx = Ok outs' /\
      length outs = length idx /\ length outs' = length idx /\
      forall n b arr diff model, nth_error idx n = Some b -> nth_error outs n = Some (arr, diff, model) ->
      exists arr' diff' model', nth_error outs' n = Some (arr', diff', model') /\
        forall x c, in_shape sh x = true -> (forall j, (j < length files)%nat -> In x (file_coords (nth j files dfile)) -> shrinks f (md - 1) far j /\ K b j = c) ->
        moved c (pixel model x) (pixel model' x) /\ same_value (pixel diff x) (pixel diff' x) /\
        (moved c (pixel arr x) (pixel arr' x) \/
         exists v v' w j, pixel arr x = Some v /\ pixel arr' x = Some v' /\ pixel model x = Some w /\ half_cycle_tie v w /\
           (j < length files)%nat /\ In x (file_coords (nth j files dfile)) /\ k b j <> c).
  Proof using All.
    intros Hm. unfold merge_batch in *. destruct (start_tiles files bulk idx) as [ts|] eqn:Es; [|discriminate]. cbn [bind] in Hm.
    destruct (adjust_tiles _ _ _ f omap md ts) as [us|] eqn:Ea; [|discriminate]. cbn [bind] in Hm.
    assert (forall fl, In fl files -> file_ok fl /\ NoDup (tf_points fl)) as Ff by (intros fl I; destruct (Hf fl I) as (A & _ & _ & B); auto).
    assert (forall fl, In fl files' -> file_ok fl /\ NoDup (tf_points fl)) as Ff' by (intros fl I; destruct (Hf' fl I) as (A & _ & _ & B); auto).
    destruct (start_shift files files' bulk bulk' idx bands ts (proj1 Ly) (fun fl I => proj2 (Hf fl I)) (fun fl I => proj2 (Hf' fl I)) Lb' Lj' Es) as (ts' & Es').
    rewrite Es'. cbn [bind].
    assert (forall n j, (j < length files)%nat -> (n < length idx)%nat -> (nth n idx O < bands)%nat) as Bidx.
    { intros n j Bj Bn. destruct (started bulk files Ff idx ts Es) as (_ & _ & K0). specialize (K0 j Bj). unfold start_tile, reset_band_index in K0.
      destruct (Hf (nth j files dfile)) as (_ & A1 & A2 & _); [now apply nth_In|]. fold dfile in K0. rewrite A1, A2 in K0. destruct idx as [|i0 idx0] eqn:Ei; [discriminate|]. rewrite <- Ei in *. clear Ei i0 idx0.
      destruct (negb (increasing idx)); [discriminate|]. destruct (forallb (fun b => (b <? bands) && (b <? bands))%nat idx) eqn:Fb; [|discriminate]. rewrite forallb_forall in Fb.
      specialize (Fb _ (nth_In idx O Bn)). lia. }
    destruct (started bulk files Ff idx ts Es) as (F & Rt & K0). destruct (started bulk' files' Ff' idx ts' Es') as (F' & Rt' & K0'). fold dfile in K0, K0'.
    assert (length ts = length files) as Lt by (rewrite <- F; now rewrite map_length).
    assert (length ts' = length files') as Lt' by (rewrite <- F'; now rewrite map_length).
    pose proof (proj1 Ly) as Lf.
    assert (forall j, (j < length files)%nat -> coords (tl ts j) = file_coords (nth j files dfile)) as Cts.
    { intros j Bj. unfold coords. f_equal. rewrite <- F. symmetry. apply map_nth'. lia. }
    assert (forall j, (j < length files)%nat -> coords (tl ts' j) = file_coords (nth j files dfile)) as Cts'.
    { intros j Bj. rewrite <- (layout_coords files files' j Ly). unfold coords. f_equal. rewrite <- F'. symmetry. apply map_nth'. lia. }
    set (s := fun n j => twopi * inject_Z (K (nth n idx O) j)).
    assert (forall j n p, far j -> (j < length files)%nat -> (n < length idx)%nat -> (p < npoints (tl ts j))%nat ->
      at_ (t_raw (tl ts' j)) n p == at_ (t_raw (tl ts j)) n p + twopi * inject_Z (k (nth n idx O) j) /\
      at_ (uw_phase (tl ts' j)) n p == at_ (uw_phase (tl ts j)) n p + s n j) as V.
    { intros j n p Fj Bj Bn Bp. unfold npoints in Bp. rewrite Cts in Bp by auto. unfold file_coords in Bp. rewrite map_length in Bp.
      assert (nth n idx O < bands)%nat as Bb by eauto.
      destruct (Ff (nth j files dfile)) as [Fo Np]; [now apply nth_In|]. destruct (Ff' (nth j files' dfile)) as [Fo' Np']; [apply nth_In; lia|].
      destruct (start_ok _ j bulk Fo idx _ (K0 j Bj) Np) as (_ & _ & _ & St). destruct (start_ok _ j bulk' Fo' idx _ (K0' j ltac:(lia)) Np') as (_ & _ & _ & St').
      destruct (St n p Bn Bp) as [V1 V2]. destruct (St' n p Bn) as [V1' V2'].
      { destruct Ly as [_ Y]. destruct (Y j) as [Y1 _]. rewrite no_file_d in Y1. now rewrite Y1. }
      pose proof (Mc (nth n idx O) j p Fj Bb) as E. rewrite no_file_d in E. specialize (E Bp). unfold MergeSpec.phase_of in E.
      cbv zeta in V1, V2, V1', V2'. split; [rewrite V1', V1; exact E|].
      rewrite V2', V2, E, (HK _ j Fj Bb Bj). unfold s. ring. }
    assert (shifted (length idx) s far ts ts') as Sh.
    { split; [lia|]. intros j Bj. rewrite Lt in Bj. split; [rewrite Cts, Cts' by auto; reflexivity|]. intros n p Fj Bn Bp. now apply V. }
    destruct (adjust_shift cg ilu triangles f f' (length idx) Hcg Hov s) with (far := far) (ts := ts) (ts' := ts') (omap := omap) (omap' := omap) (m := md) (us := us)
      as (us' & Ea' & Su & Kp & Kp' & Ru & Ru'); auto.
    { intros n i j Bn I. unfold s. assert (recorded f ts) as (_ & _ & Ho & _) by now apply Hrec. destruct (Ho i j I) as (B1 & B2 & _).
      rewrite (HK2 (nth n idx O) i j); [reflexivity|apply (Bidx n j); lia|exact I]. }
    { intros t0 I. apply Rt, I. }
    { intros t0 I. apply Rt', I. }
    rewrite Ea'. cbn [bind].
    pose proof (kept_idx_mergeable idx ts us Kp (fun t I => proj2 (Rt t I)) Ru) as Mg. pose proof (kept_idx_mergeable idx ts' us' Kp' (fun t I => proj2 (Rt' t I)) Ru') as Mg'.
    destruct Kp as [Lu Ku]. destruct Kp' as [Lu' Ku'].
    assert (forall n b arr diff model, nth_error idx n = Some b -> merged_band us b sh = Ok (arr, diff, model) ->
      exists arr' diff' model', merged_band us' b sh = Ok (arr', diff', model') /\
        forall x c, in_shape sh x = true -> (forall j, (j < length files)%nat -> In x (file_coords (nth j files dfile)) -> shrinks f (md - 1) far j /\ K b j = c) ->
        moved c (pixel model x) (pixel model' x) /\ same_value (pixel diff x) (pixel diff' x) /\
        (moved c (pixel arr x) (pixel arr' x) \/
         exists v v' w j, pixel arr x = Some v /\ pixel arr' x = Some v' /\ pixel model x = Some w /\ half_cycle_tie v w /\
           (j < length files)%nat /\ In x (file_coords (nth j files dfile)) /\ k b j <> c)) as Each.
    { intros n b arr diff model Eb Em. assert (n < length idx)%nat as Bn by (apply nth_error_Some; congruence).
      assert (nth n idx O = b) as En by now apply nth_error_nth.
      destruct files as [|f0 fr] eqn:Ef.
      { exfalso. destruct us; [|cbn in Lu, Lt; lia]. cbn in Em. discriminate. }
      rewrite <- Ef in *.
      assert (0 < length files)%nat as Pf by (rewrite Ef; cbn; lia).
      assert (increasing idx = true) as Inc by (eapply start_bands; apply (K0 O Pf)).
      destruct (band_shift (length idx) idx us us' s (fun n j => k (nth n idx O) j) sh n b (shrinks f (md - 1) far) eq_refl (increasing_nodup _ Inc) Ru Ru' Mg Mg' Eb Su) with (arr := arr) (diff := diff) (model := model)
        as (arr' & diff' & model' & E' & P); auto.
      - intros i p Fi Bi Bp. destruct (Ku i) as (_ & _ & ->). destruct (Ku' i) as (_ & _ & ->). unfold npoints in Bp. rewrite (kept_coords _ _ (Ku i)) in Bp. fold (npoints (tl ts i)) in Bp. apply V; auto; [eapply shrinks_far; eauto|lia].
      - exists arr', diff', model'. split; [exact E'|]. intros x c S Hc.
        assert (forall j, (j < length us)%nat -> contains (tl us j) x = true -> (j < length files)%nat /\ In x (file_coords (nth j files dfile))) as Hx.
        { intros j Bj C. rewrite Lu, Lt in Bj. split; [exact Bj|]. apply contains_spec in C as (p & C). unfold point_of in C. rewrite (kept_coords _ _ (Ku j)), Cts in C by auto. eapply nth_error_In; eauto. }
        destruct (P x c S) as (P1 & P2 & P3).
        2:{ split; [exact P1|]. split; [exact P2|]. destruct P3 as [P3|(v & v' & w & j & A1 & A2 & A3 & A4 & Bj & Cj & Nk)]; [now left|right].
            exists v, v', w, j. destruct (Hx j Bj Cj). rewrite En in Nk. auto 10. }
        intros j Bj C. destruct (Hx j Bj C) as [Bj2 Ij]. destruct (Hc j Bj2 Ij) as [Fj Kj]. split; [exact Fj|unfold s; now rewrite En, Kj]. }
    assert (exists outs', map_res (fun b => merged_band us' b sh) idx = Ok outs') as (outs' & Eo').
    { apply map_res_ok_iff. intros b I. apply In_nth_error in I as (n & En).
      assert (exists o, merged_band us b sh = Ok o) as ([[a d] m] & Eo) by (apply (proj1 (map_res_ok_iff _ _) (ex_intro _ outs Hm)); eapply nth_error_In; eauto).
      destruct (Each n b a d m En Eo) as (a' & d' & m' & -> & _). eauto. }
    exists outs'. split; [exact Eo'|]. apply map_res_nth in Hm as [Lo Ko]. pose proof Eo' as Eo2. apply map_res_nth in Eo2 as [Lo' Ko'].
    split; [exact Lo|]. split; [exact Lo'|]. intros n b arr diff model Eb Eq. assert (n < length idx)%nat as Bn by (apply nth_error_Some; congruence).
    assert (nth n idx O = b) as En by now apply nth_error_nth. pose proof (Ko n O (arr, diff, model) Bn) as Q. rewrite (nth_error_nth _ _ _ Eq), En in Q.
    destruct (Each n b arr diff model Eb Q) as (arr' & diff' & model' & E' & P). exists arr', diff', model'. split; [|exact P].
    specialize (Ko' n O (arr, diff, model) Bn). rewrite En, E' in Ko'. rewrite (nth_error_nth' outs' (arr, diff, model)) by lia. f_equal. congruence.
  Qed.
End Batch.
