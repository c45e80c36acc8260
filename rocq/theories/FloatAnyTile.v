(** Rounded unwrapping of a tile of an arbitrary stack. *)
From Verif Require Import Base BaseLemmas GraphModel GraphSpec McfModel McfSpec PhaseProofs EmcfModel EmcfSpec CubeProofs Props_Graph Props_Mcf Props_Emcf
  TileModel TileSpec SlcModel SlcSpec SlcProofs Props_Slc OverlapModel OverlapSpec MergeModel MergeSpec UnwrapTileModel UnwrapTileProofs PipelineSpec
  ExactSpec ExactTileProofs FloatMcfModel FloatMcfSpec FloatMcfRound FloatPhaseProofs FloatCubeModel FloatTimeProofs Props_FloatMcf Props_FloatCube
  FloatTileModel FloatTileSpec FloatAnySpec FloatAnyProofs.
From Coq Require Import List Sorting.Sorted ZifyBool Lqa.
Import ListNotations.
Set Default Goal Selector "!".
Local Open Scope Q_scope.
Opaque twopi.

(** Error of the phases of a tile. *)
Definition any_tile (u w M K B : Q) (L : nat) : Q := any_cube u w M K B L + u * (20 * (M + 1) + 4).

Section Tile.
  Context (F : formats) (u w M : Q) (HF : formats_ok F u w) (HM0 : 0 <= M) (Hu : 200 * u * (M + 1) <= 1) (Hw : w <= 1 # 100).
  Context (smcf : list arc -> list Z -> option (list Z)) (K : Z) (HK : (0 <= K)%Z) (Hsm : flows_within K smcf).
  Context (triangles : list (Z * Z) -> res (list (nat * nat * nat)))
          (tsched : nat -> list nat -> list nat) (ssched : list nat -> list nat) (cpu : Z)
          (set : settings) (tdist tcent : list Z) (sdist scent : list (Z * Z) -> list Z).
  Hypothesis Htri : forall pts tri, triangles pts = Ok tri -> planar (delaunay (length pts) tri).
  Hypothesis Ht : forall b l, Permutation (tsched b l) l.
  Hypothesis Hs : forall l, Permutation (ssched l) l.
  Hypothesis Hl : (0 < links_per_batch set)%nat.
  Context (st : slc_stack Q) (gt : graph) (b : bbox) (L : nat).
  Hypothesis Hgt : planar gt.
  Hypothesis Hst : NoDup (map fst (st_files st)).
  Hypothesis Hdates : length (st_files st) = g_npoints gt.
  Hypothesis Hb : (0 <= xmin b)%Z /\ (0 <= ymin b)%Z.
  Hypothesis HM : samples_within M st.
  Hypothesis Hdepth : depth_by L triangles st b.
  Notation unwrap := (unwrap_one_tile_fl F smcf triangles tsched ssched cpu set tdist tcent sdist scent st gt b).
  Notation q := (inject_Z K).
  Notation date i := (nth i (st_dates st) ""%string).

  Lemma tile_any f : unwrap = Ok f ->
    tf_tile f = b /\ tile_bands (length (g_links gt)) f /\ StronglySorted before (tf_points f) /\
    (forall x, In x (file_coords f) <-> valid_pixel st x /\ has_pixel b (fst x) (snd x)) /\
    (file_coords f <> [] -> forall o, In o (tf_offset f) -> - (5) <= o <= 5) /\
    forall k i j B, nth_error (g_links gt) k = Some (i, j) -> file_within B f ->
      forall p x, nth_error (file_coords f) p = Some x ->
        near_ifg (any_tile u w M q B L) st (date i) (date j) x (MergeSpec.phase_of f k p).
  Proof using HF HM0 Hu Hw HK Hsm Htri Ht Hs Hl Hgt Hst Hdates Hb HM Hdepth.
    unfold unwrap_one_tile_fl. intros Hf. destruct (make_solver gt) as [s_time|] eqn:Et; [|discriminate]. cbn [bind] in Hf.
    change (map (map (above (st_threshold st))) (read_temporal_coherence st b)) with (tile_mask st b) in Hf.
    set (pts := nonzero (tile_mask st b)) in Hf. destruct (triangles pts) as [tri|] eqn:Etri; [|discriminate]. cbn [bind] in Hf.
    destruct (make_solver (delaunay (length pts) tri)) as [s_space|] eqn:Es; [|discriminate]. cbn [bind] in Hf.
    destruct (SlcModel.read_tile 0%Q st b) as [wrap|] eqn:Ew; [|discriminate]. cbn [bind] in Hf.
    destruct (negb _); [discriminate|]. destruct (tile_read set Hl st gt b Hst Hdates Hb wrap Ew) as (Hp & _ & rows & Ec & Lr & Hd). fold pts in Hp, Hd.
    destruct (unwrap_cube_fl _ _ _ _ _ _ _) as [U|] eqn:Eu; [|discriminate]. cbn [bind] in Hf.
    rewrite Ec in Hf, Eu. cbn [cu_data] in Hf. apply ok_inj in Hf as <-.
    pose proof (Htri _ _ Etri) as Hgs. pose proof (solver_of _ _ Hgt Et) as Est. pose proof (solver_of _ _ Hgs Es) as Ess.
    rewrite dates_length in Lr.
    assert (forall row x, In row rows -> In x row -> - M <= x <= M) as HMr.
    { intros r x Ir Ix. apply (In_nth _ _ []) in Ir as (t & Bt & <-). destruct (Hd t Bt) as [Lt Hd2].
      apply (In_nth _ _ 0) in Ix as (p & Bp & <-). rewrite Lt in Bp. apply (HM _ _ _ (Hd2 p _ (nth_error_nth' _ (0, 0)%Z Bp))). }
    set (e := Emcf s_space s_time set tdist tcent (sdist pts) (scent pts)) in *.
    assert (classify e (Cube 2 0 rows) = Ok false) as Ecl.
    { unfold classify, em_nepochs. cbn. rewrite Est. cbn. rewrite Lr, Hdates, Nat.eqb_refl. reflexivity. }
    destruct (cube_any F u w HF M HM0 Hu Hw smcf K HK Hsm (delaunay (length pts) tri) gt Hgs Hgt e Ess Est tsched ssched cpu Ht Hs Hl false rows HMr
      (Cube 2 0 rows) U L eq_refl Ecl Eu (Hdepth pts tri Hp Etri)) as [LU HU].
    assert (forall y, In y pts -> valid_pixel st (place b y) /\ has_pixel b (fst (place b y)) (snd (place b y))) as Hval.
    { intros y Iy. apply (proj2 Hp) in Iy as (V & B1 & B2). split; [exact V|]. unfold has_pixel, place. cbn [fst snd]. lia. }
    assert (forall k i j, nth_error (g_links gt) k = Some (i, j) -> (i < length rows)%nat /\ (j < length rows)%nat) as Hij.
    { intros k i j E. apply nth_error_In in E. pose proof (pl_lt gt Hgt _ _ E). lia. }
    pose proof HF as [F1 F2 F3 F4 F5 F6 F7]. pose proof (rd_nonneg _ _ F1) as U0. assert (0 <= u * M) as UM by (apply Qmult_le_0_compat; lra).
    (* the offset of an interferogram *)
    assert (forall i j, (i < length rows)%nat -> (j < length rows)%nat -> pts <> [] -> let o := f_s F (pd_arr F (at2 rows i 0) (at2 rows j 0)) in
      - (5) <= o <= 5 /\ near_cong (u * (20 * (M + 1) + 4)) o (at2 rows j 0 - at2 rows i 0)) as Hoff.
    { intros i j Bi Bj Np. cbv zeta.
      assert (nth_error pts 0 = Some (nth 0 pts (0, 0)%Z)) as N0 by (destruct pts; [contradiction|reflexivity]).
      destruct (Hd i Bi) as [_ Di]. destruct (Hd j Bj) as [_ Dj]. specialize (Di _ _ N0). specialize (Dj _ _ N0).
      destruct (pd_one F u F1 F2 M HM0 Hu (at2 rows i 0) (at2 rows j 0) (HM _ _ _ Di) (HM _ _ _ Dj)) as [P1 P2].
      pose proof (rd_bound (f_s F) u F3 _ 4 P2) as R. split; [lra|].
      exists (- cycles_fl (f_d F) (f_o F) (at2 rows i 0) (at2 rows j 0) 0)%Z. unfold within. rewrite inject_Z_opp. apply abs_le.
      set (z := inject_Z (cycles_fl _ _ _ _ _)) in *. clearbody z. lra. }
    cbn [tf_tile tf_uw tf_offset tf_points]. split; [reflexivity|]. split; [|split; [exact (proj1 Hp)|split; [|split]]].
    - split; [exact LU|]. cbn [tf_offset tf_uw tf_points]. split; [apply map_length|].
      intros r I. apply (In_nth _ _ []) in I as (n & Bn & <-). rewrite LU in Bn. exact (proj1 (HU n Bn)).
    - intros x. unfold file_coords. cbn [tf_tile tf_points]. change (fun p => _) with (place b). rewrite in_map_iff. split.
      + intros (p & <- & I). now apply Hval.
      + intros [V Hx]. destruct x as [r c]. unfold has_pixel in Hx. cbn [fst snd] in Hx. exists (r - xmin b, c - ymin b)%Z.
        assert (place b (r - xmin b, c - ymin b)%Z = (r, c)) as Ep by (unfold place; cbn [fst snd]; f_equal; lia).
        split; [exact Ep|]. apply (proj2 Hp). rewrite Ep. split; [exact V|]. cbn [fst snd]. lia.
    - intros Nc o Io. assert (pts <> []) as Np by (intros X; apply Nc; unfold file_coords; cbn [tf_points]; now rewrite X).
      apply in_map_iff in Io as ([i j] & <- & I). cbn [fst snd]. apply In_nth_error in I as (k & Ek). destruct (Hij k i j Ek). now apply Hoff.
    - intros k i j B Ek HB p x Ex. destruct (Hij k i j Ek) as [Bi Bj]. assert (k < length (g_links gt))%nat as Bk by (apply nth_error_Some; congruence).
      unfold file_coords in Ex. cbn [tf_tile tf_points] in Ex. change (fun p => _) with (place b) in Ex. rewrite nth_error_map in Ex.
      destruct (nth_error pts p) as [y|] eqn:Ep; [|discriminate]. cbn [option_map] in Ex. injection Ex as <-.
      assert (p < length pts)%nat as Bp by (apply nth_error_Some; congruence). assert (pts <> []) as Np by (intros X; rewrite X in Bp; cbn in Bp; lia).
      destruct (Hd i Bi) as [_ Di]. destruct (Hd j Bj) as [_ Dj]. exists (at2 rows i p), (at2 rows j p). split; [now apply Di|]. split; [now apply Dj|].
      destruct (HU k Bk) as [_ HU2]. specialize (HU2 B). destruct HU2 with (v := p) as [z Z]; [|exact Bp|].
      { intros y' Iy. apply (HB (nth k U [])); [cbn [tf_uw]; apply nth_In; lia|exact Iy]. }
      destruct (Hoff i j Bi Bj Np) as [_ [zo Zo]].
      unfold ifg_phase in Z. rewrite (nth_error_nth _ _ _ Ek) in Z. cbn [fst snd] in Z. exists (z + zo)%Z.
      unfold within in *. rewrite inject_Z_add. apply abs_le in Z, Zo. apply abs_le. unfold MergeSpec.phase_of, at_. cbn [tf_uw tf_offset].
      assert (nth k (map (fun ij => f_s F (pd_arr F (at2 rows (fst ij) 0) (at2 rows (snd ij) 0))) (g_links gt)) 0
        = f_s F (pd_arr F (at2 rows i 0) (at2 rows j 0))) as ->.
      { apply nth_error_nth. rewrite nth_error_map, Ek. reflexivity. }
      unfold any_tile. set (o := f_s F (pd_arr F _ _)) in *. set (z1 := inject_Z z) in *. set (z2 := inject_Z zo) in *.
      unfold at2 in *. clearbody o z1 z2. lra.
  Qed.
End Tile.
