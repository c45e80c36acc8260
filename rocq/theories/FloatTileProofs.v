(** Rounded unwrapping of a tile of a smooth stack. *)
From Verif Require Import Base BaseLemmas GraphModel GraphSpec McfModel McfSpec PhaseProofs EmcfModel EmcfSpec CubeProofs Props_Graph Props_Mcf Props_Emcf
  TileModel TileSpec SlcModel SlcSpec SlcProofs Props_Slc OverlapModel OverlapSpec MergeModel MergeSpec UnwrapTileModel UnwrapTileProofs PipelineSpec
  ExactSpec ExactTileProofs FloatMcfModel FloatMcfSpec FloatMcfRound FloatPhaseProofs FloatCubeModel FloatTimeProofs Props_FloatMcf Props_FloatCube
  Props_FloatSmooth FloatTileModel FloatTileSpec.
From Coq Require Import List Sorting.Sorted ZifyBool Lqa.
Import ListNotations.
Set Default Goal Selector "!".
Local Open Scope Q_scope.

(** What is needed of the formats for samples up to [M] and cycles of three sides. *)
Record tile_formats (F : formats) (u w M : Q) : Prop := {
  tfo_ok : formats_ok F u w;
  tfo_M : 0 <= M <= 1000000000;
  tfo_u : 200 * u * (M + 1) <= 1;
  tfo_w : w <= 1 # 100;
  tfo_t : turns_right u (diff_err u M) 5 3;
  tfo_g : grad_err u w M 4 <= 1;
  tfo_s : turns_right u (grad_err u w M 4) 4 3
}.

(** Error of the phases of a tile. *)
Definition tile_err (u w M B : Q) (L : nat) : Q := cube_err u w M 4 B L + u * (20 * (M + 1) + 4).

Section Tile.
  Context (F : formats) (u w M B : Q) (L : nat) (HF : tile_formats F u w M).
  Context (smcf : list arc -> list Z -> option (list Z))
          (triangles : list (Z * Z) -> res (list (nat * nat * nat)))
          (tsched : nat -> list nat -> list nat) (ssched : list nat -> list nat) (cpu : Z)
          (set : settings) (tdist tcent : list Z) (sdist scent : list (Z * Z) -> list Z).
  Hypothesis Htri : forall pts tri, triangles pts = Ok tri -> planar (delaunay (length pts) tri).
  Hypothesis Ht : forall b l, Permutation (tsched b l) l.
  Hypothesis Hs : forall l, Permutation (ssched l) l.
  Hypothesis Hl : (0 < links_per_batch set)%nat.
  Context (st : slc_stack Q) (gt : graph) (b : bbox) (Phi : string -> Z * Z -> Q).
  Hypothesis Hgt : planar gt.
  Hypothesis Hg3 : forall c, In c (g_cycles gt) -> length c = 3%nat.
  Hypothesis Hlinks : forall i j, In (i, j) (g_links gt) -> is_ifg_of st i j.
  Hypothesis Hst : NoDup (map fst (st_files st)).
  Hypothesis Hdates : length (st_files st) = g_npoints gt.
  Hypothesis Hb : (0 <= xmin b)%Z /\ (0 <= ymin b)%Z.
  Hypothesis Hhist : history st Phi.
  Hypothesis HM : samples_within M st.
  Hypothesis Hsmooth : smooth_by (margin u M) triangles st Phi b.
  Hypothesis Hvar : varies_by B st Phi b.
  Hypothesis Hdepth : depth_by L triangles st b.
  Hypothesis Heps : (num L + 1) * hop_err u w M 4 B <= 1.
  Notation unwrap := (unwrap_one_tile_fl F smcf triangles tsched ssched cpu set tdist tcent sdist scent st gt b).
  Notation D i j x := (ifg_at st Phi i j x).

  Lemma side_smooth_by pts tri a c i j : tile_pixels st b pts -> triangles pts = Ok tri -> In (a, c) (g_links (delaunay (length pts) tri)) ->
    In (i, j) (g_links gt) ->
    Qabs (D i j (place b (nth c pts (0, 0)%Z)) - D i j (place b (nth a pts (0, 0)%Z))) < half - margin u M.
  Proof using Hsmooth Hlinks.
    intros Hp Et Ia Ii. apply Hlinks in Ii. destruct (C05_triangulation_links (length pts) tri) as (K & _).
    apply K in Ia as (_ & [[x y] z] & Is & n & m & _ & _ & _ & E1 & E2).
    apply (Hsmooth pts tri x y z Hp Et Is); auto; [apply (nth_in_tri _ _ _ E1)|apply (nth_in_tri _ _ _ E2)].
  Qed.

  Lemma solved_fl wrap tri s_space s_time rows tc sc :
    let pts := nonzero (tile_mask st b) in
    SlcModel.read_tile 0%Q st b = Ok wrap -> cube_of wrap = Cube 2 0 rows ->
    triangles pts = Ok tri -> make_solver gt = Ok s_time -> make_solver (delaunay (length pts) tri) = Ok s_space ->
    pick_cost (t_cost_type set) (length (g_links gt)) tdist tcent = Ok tc ->
    pick_cost (s_cost_type set) (length (g_links (delaunay (length pts) tri))) (sdist pts) (scent pts) = Ok sc ->
    (1 <= space_workers (s_worker_count set) cpu)%Z ->
    exists U, checked ((num L + 1) * hop_err u w M 4 B <= 1 # 4000)
        (unwrap_cube_fl F smcf tsched ssched cpu (Emcf s_space s_time set tdist tcent (sdist pts) (scent pts)) (cube_of wrap)) U /\
      length U = length (g_links gt) /\
      forall k i j, nth_error (g_links gt) k = Some (i, j) -> length (nth k U []) = length pts /\
        forall p, (p < length pts)%nat ->
          within (cube_err u w M 4 B L) (nth p (nth k U []) 0) (D i j (place b (nth p pts (0, 0)%Z)) - D i j (place b (nth 0 pts (0, 0)%Z))).
  Proof using HF Htri Ht Hs Hl Hgt Hg3 Hlinks Hst Hdates Hb Hhist HM Hsmooth Hvar Hdepth Heps.
    intros pts Ew Ec Etri Et Es Etc Esc Hw. destruct (tile_read set Hl st gt b Hst Hdates Hb wrap Ew) as (Hp & _ & rows' & Ec' & Lr & Hd). fold pts in Hp, Hd.
    rewrite Ec in Ec'. injection Ec' as <-. rewrite Ec. pose proof (Htri _ _ Etri) as Hgs. set (gs := delaunay (length pts) tri) in *.
    rewrite dates_length in Lr. destruct HF as [F1 F2 F3 F4 F5 F6 F7].
    assert (forall y, In y pts -> valid_pixel st (place b y) /\ has_pixel b (fst (place b y)) (snd (place b y))) as Hval.
    { intros y Iy. apply (proj2 Hp) in Iy as (V & B1 & B2). split; [exact V|]. unfold has_pixel, place. cbn [fst snd]. lia. }
    destruct (C70_smooth F u w smcf gs gt tsched ssched cpu (Emcf s_space s_time set tdist tcent (sdist pts) (scent pts)) (Cube 2 0 rows) false M 3 3 tc sc
      (fun t v => Phi (nth t (st_dates st) ""%string) (place b (nth v pts (0, 0)%Z)))) with (L := L) (B := B) as (U & EU & LU & HU); auto.
    - unfold classify, em_nepochs. cbn. rewrite (solver_of _ _ Hgt Et). cbn. rewrite Lr, Hdates, Nat.eqb_refl. reflexivity.
    - intros r I. cbn in I. apply (In_nth _ _ []) in I as (t & Bt & <-). change (g_npoints gs) with (length pts). destruct (Hd t Bt) as [-> _]. lia.
    - cbn [cu_data]. intros r x Ir Ix. apply (In_nth _ _ []) in Ir as (t & Bt & <-). destruct (Hd t Bt) as [Lt Hd2].
      apply (In_nth _ _ 0) in Ix as (p & Bp & <-). rewrite Lt in Bp. apply (HM _ _ _ (Hd2 p _ (nth_error_nth' _ (0, 0)%Z Bp))).
    - intros c Ic. cbn [gs delaunay g_cycles] in Ic. apply in_map_iff in Ic as ([[x y] z] & <- & _). reflexivity.
    - cbn [cu_data]. intros n v Hn Hv. change (g_npoints gs) with (length pts) in Hv. unfold ifg_phase.
      pose proof (nth_In _ (0, 0)%nat Hn) as In0.
      destruct (nth n (g_links gt) (0, 0)%nat) as [i j]. cbn [fst snd]. pose proof (pl_lt gt Hgt _ _ In0) as K. apply cong2pi_sub.
      + destruct (Hd j) as [_ Hd2]; [lia|]. apply (Hhist _ _ _ (Hd2 v _ (nth_error_nth' _ (0, 0)%Z Hv))).
      + destruct (Hd i) as [_ Hd2]; [lia|]. apply (Hhist _ _ _ (Hd2 v _ (nth_error_nth' _ (0, 0)%Z Hv))).
    - intros n a c Hn Ia. pose proof (nth_In _ (0, 0)%nat Hn) as In0. destruct (nth n (g_links gt) (0, 0)%nat) as [i j]. cbn [fst snd].
      exact (side_smooth_by pts tri a c i j Hp Etri Ia In0).
    - exact (Hdepth pts tri Hp Etri).
    - intros n v Hn Hv. change (g_npoints gs) with (length pts) in Hv. pose proof (nth_In _ (0, 0)%nat Hn) as In0.
      destruct (nth n (g_links gt) (0, 0)%nat) as [i j]. cbn [fst snd]. apply Hlinks in In0.
      destruct (Hval (nth v pts (0, 0)%Z)) as [V1 V2]; [now apply nth_In|]. destruct (Hval (nth 0 pts (0, 0)%Z)) as [W1 W2]; [apply nth_In; lia|].
      exact (Hvar _ _ i j In0 V1 V2 W1 W2).
    - exists U. split; [exact EU|]. split; [exact LU|]. intros k i j Ek.
      destruct (HU k) as [U1 U2]; [apply nth_error_Some; congruence|]. split; [exact U1|]. intros p Bp. specialize (U2 p Bp).
      rewrite (nth_error_nth _ _ _ Ek) in U2. exact U2.
  Qed.

  Lemma tile_fl f : unwrap = Ok f ->
    tf_tile f = b /\ tile_bands (length (g_links gt)) f /\ StronglySorted before (tf_points f) /\
    (forall x, In x (file_coords f) <-> valid_pixel st x /\ has_pixel b (fst x) (snd x)) /\
    forall k i j, nth_error (g_links gt) k = Some (i, j) -> exists m : Z,
      forall p x, nth_error (file_coords f) p = Some x ->
        within (tile_err u w M B L) (MergeSpec.phase_of f k p) (D i j x + twopi * inject_Z m) /\
        Qabs (D i j x + twopi * inject_Z m) <= B + 5.
  Proof using HF Htri Ht Hs Hl Hgt Hg3 Hlinks Hst Hdates Hb Hhist HM Hsmooth Hvar Hdepth Heps.
    unfold unwrap_one_tile_fl. intros Hf. destruct (make_solver gt) as [s_time|] eqn:Et; [|discriminate]. cbn [bind] in Hf.
    change (map (map (above (st_threshold st))) (read_temporal_coherence st b)) with (tile_mask st b) in Hf.
    set (pts := nonzero (tile_mask st b)) in Hf. destruct (triangles pts) as [tri|] eqn:Etri; [|discriminate]. cbn [bind] in Hf.
    destruct (make_solver (delaunay (length pts) tri)) as [s_space|] eqn:Es; [|discriminate]. cbn [bind] in Hf.
    destruct (SlcModel.read_tile 0%Q st b) as [wrap|] eqn:Ew; [|discriminate]. cbn [bind] in Hf.
    destruct (negb _); [discriminate|]. destruct (tile_read set Hl st gt b Hst Hdates Hb wrap Ew) as (Hp & _ & rows & Ec & Lr & Hd). fold pts in Hp, Hd.
    destruct (unwrap_cube_fl _ _ _ _ _ _ _) as [U|] eqn:Eu; [|discriminate]. cbn [bind] in Hf.
    rewrite Ec in Hf. cbn [cu_data] in Hf. injection Hf as <-.
    pose proof (solver_of _ _ Hgt Et) as Est. pose proof (solver_of _ _ (Htri _ _ Etri) Es) as Ess.
    assert (exists tc, pick_cost (t_cost_type set) (length (g_links gt)) tdist tcent = Ok tc) as (tc & Etc).
    { unfold unwrap_cube_fl in Eu. destruct (classify _ _); [|discriminate]. cbn [bind] in Eu. destruct (unwrap_gradients_in_time_fl _ _ _ _ _ _ _) eqn:E; [|discriminate].
      unfold unwrap_gradients_in_time_fl in E. destruct (pick_cost _ _ _ _) as [tc|] eqn:Ep; [|discriminate]. exists tc. unfold em_ifgs in Ep. cbn in Ep. rewrite Est in Ep. exact Ep. }
    assert (exists sc, pick_cost (s_cost_type set) (length (g_links (delaunay (length pts) tri))) (sdist pts) (scent pts) = Ok sc /\
      (1 <= space_workers (s_worker_count set) cpu)%Z) as (sc & Esc & Hw).
    { unfold unwrap_cube_fl in Eu. destruct (classify _ _); [|discriminate]. cbn [bind] in Eu. destruct (unwrap_gradients_in_time_fl _ _ _ _ _ _ _) eqn:E; [|discriminate]. cbn [bind] in Eu.
      unfold unwrap_gradients_in_space_fl in Eu. destruct (pick_cost _ _ _ _) as [sc|] eqn:Ep; [|discriminate]. cbn [bind] in Eu. exists sc. split.
      - unfold em_links in Ep. cbn in Ep. rewrite Ess in Ep. exact Ep.
      - cbn [em_set] in Eu. destruct (Z.leb_spec (space_workers (s_worker_count set) cpu) 0); [discriminate|lia]. }
    destruct (solved_fl wrap tri s_space s_time rows tc sc Ew Ec Etri Et Es Etc Esc Hw) as (U' & [EU _] & LU & HU). fold pts in EU, HU.
    rewrite Eu in EU. assert (U' = U) as -> by (destruct EU as [EU|EU]; congruence).
    assert (forall y, In y pts -> valid_pixel st (place b y) /\ has_pixel b (fst (place b y)) (snd (place b y))) as Hval.
    { intros y Iy. apply (proj2 Hp) in Iy as (V & B1 & B2). split; [exact V|]. unfold has_pixel, place. cbn [fst snd]. lia. }
    cbn [tf_tile tf_uw tf_offset tf_points]. split; [reflexivity|]. split; [|split; [exact (proj1 Hp)|split]].
    - split; [exact LU|]. cbn [tf_offset tf_uw tf_points]. split; [apply map_length|].
      intros r I. apply (In_nth _ _ []) in I as (n & Bn & <-). rewrite LU in Bn. pose proof (nth_error_nth' _ (0, 0)%nat Bn) as En.
      destruct (nth n (g_links gt) (0, 0)%nat) as [i j]. now apply (HU n i j).
    - intros x. unfold file_coords. cbn [tf_tile tf_points]. change (fun p => _) with (place b). rewrite in_map_iff. split.
      + intros (p & <- & I). now apply Hval.
      + intros [V Hx]. destruct x as [r c]. unfold has_pixel in Hx. cbn [fst snd] in Hx. exists (r - xmin b, c - ymin b)%Z.
        assert (place b (r - xmin b, c - ymin b)%Z = (r, c)) as Ep by (unfold place; cbn [fst snd]; f_equal; lia).
        split; [exact Ep|]. apply (proj2 Hp). rewrite Ep. split; [exact V|]. cbn [fst snd]. lia.
    - intros k i j Ek. pose proof (Hlinks i j (nth_error_In _ _ Ek)) as Hij. destruct Hij as [Bij Bd]. destruct (HU k i j Ek) as [_ HU2].
      set (off := f_s F (pd_arr F (at2 rows i 0) (at2 rows j 0))).
      destruct (Nat.eq_dec (length pts) 0) as [Z0|Pos].
      { exists 0%Z. intros p x X. apply nth_error_In in X. unfold file_coords in X. cbn [tf_points] in X. destruct pts; [destruct X|discriminate]. }
      assert (nth_error pts 0 = Some (nth 0 pts (0, 0)%Z)) as N0 by (apply nth_error_nth'; lia).
      destruct (Hd i) as [_ Di]; [lia|]. destruct (Hd j) as [_ Dj]; [lia|]. specialize (Di _ _ N0). specialize (Dj _ _ N0).
      set (x0 := place b (nth 0 pts (0, 0)%Z)) in *.
      destruct HF as [F1 F2 F3 F4 F5 F6 F7]. pose proof (rd_nonneg _ _ (fo_d _ _ _ F1)) as U0.
      assert (0 <= u * M) as UM by (apply Qmult_le_0_compat; lra).
      assert (exists m : Z, - (u * (20 * (M + 1) + 4)) <= off - (D i j x0 + twopi * inject_Z m) <= u * (20 * (M + 1) + 4) /\ - (5) <= D i j x0 + twopi * inject_Z m <= 5) as (m & Em & Eb).
      { destruct (pd_one F u (fo_d _ _ _ F1) (fo_o _ _ _ F1) M ltac:(lra) F3 (at2 rows i 0) (at2 rows j 0) (HM _ _ _ Di) (HM _ _ _ Dj)) as [P1 P2].
        destruct (Hhist _ _ _ Di) as [mi Ei]. destruct (Hhist _ _ _ Dj) as [mj Ej].
        exists (mj - mi - cycles_fl (f_d F) (f_o F) (at2 rows i 0) (at2 rows j 0) 0)%Z.
        assert (at2 rows j 0 - at2 rows i 0 - twopi * inject_Z (cycles_fl (f_d F) (f_o F) (at2 rows i 0) (at2 rows j 0) 0)
          == D i j x0 + twopi * inject_Z (mj - mi - cycles_fl (f_d F) (f_o F) (at2 rows i 0) (at2 rows j 0) 0)) as E.
        { unfold at2 at 1 2. rewrite Ei, Ej, !inject_Z_sub. unfold ifg_at, true_ifg. ring. }
        rewrite E in P1. pose proof (rd_bound (f_s F) u (fo_s _ _ _ F1) _ 4 P2) as R. fold off in R. split; lra. }
      exists m. intros p x Ex. unfold file_coords in Ex. cbn [tf_tile tf_points] in Ex. change (fun p => _) with (place b) in Ex. rewrite nth_error_map in Ex.
      destruct (nth_error pts p) as [y|] eqn:Ep; [|discriminate]. cbn in Ex. injection Ex as <-.
      assert (p < length pts)%nat as Bp by (apply nth_error_Some; congruence). specialize (HU2 p Bp). rewrite (nth_error_nth _ _ _ Ep) in HU2. fold x0 in HU2.
      destruct (Hval y (nth_error_In _ _ Ep)) as [V1 V2]. destruct (Hval (nth 0 pts (0, 0)%Z)) as [W1 W2]; [apply nth_In; lia|]. fold x0 in W1, W2.
      pose proof (Hvar _ _ i j (conj Bij Bd) V1 V2 W1 W2) as Hv. apply abs_le in Hv. split.
      + unfold within in *. apply abs_le in HU2. apply abs_le. unfold MergeSpec.phase_of, at_. cbn [tf_uw tf_offset].
        assert (nth k (map (fun ij => f_s F (pd_arr F (at2 rows (fst ij) 0) (at2 rows (snd ij) 0))) (g_links gt)) 0 = off) as ->.
        { apply nth_error_nth. rewrite nth_error_map, Ek. reflexivity. }
        unfold tile_err. lra.
      + apply abs_le. lra.
  Qed.
End Tile.
