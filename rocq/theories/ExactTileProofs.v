(** Unwrapping a tile of a smooth stack. *)
From Verif Require Import Base BaseLemmas GraphModel GraphSpec McfModel McfSpec PhaseProofs EmcfModel EmcfSpec CubeProofs Props_Graph Props_Mcf Props_Emcf
  TileModel TileSpec SlcModel SlcSpec SlcProofs Props_Slc OverlapModel OverlapSpec MergeModel MergeSpec UnwrapTileModel UnwrapTileProofs PipelineSpec ExactSpec.
From Coq Require Import List Sorting.Sorted ZifyBool Lqa.
Import ListNotations.
Set Default Goal Selector "!".
Local Open Scope nat_scope.

Lemma nth_in_tri (s : nat * nat * nat) i a : nth_error (tri_cycle s) i = Some a -> let '(u, v, w) := s in In a [u; v; w].
Proof. destruct s as [[u v] w]. cbn [tri_cycle]. apply nth_error_In. Qed.

Section Tile.
  Context (smcf : list arc -> list Z -> option (list Z))
          (triangles : list (Z * Z) -> res (list (nat * nat * nat)))
          (tsched : nat -> list nat -> list nat) (ssched : list nat -> list nat) (cpu : Z)
          (set : settings) (tdist tcent : list Z) (sdist scent : list (Z * Z) -> list Z).
  Hypothesis Htri : forall pts tri, triangles pts = Ok tri -> planar (delaunay (length pts) tri).
  Hypothesis Ht : forall b l, Permutation (tsched b l) l.
  Hypothesis Hs : forall l, Permutation (ssched l) l.
  Hypothesis Hl : 0 < links_per_batch set.
  Context (st : slc_stack Q) (gt : graph) (b : bbox) (Phi : string -> Z * Z -> Q).
  Hypothesis Hgt : planar gt.
  Hypothesis Hlinks : forall i j, In (i, j) (g_links gt) -> i < j < length (st_dates st) /\ j - i <= 3.
  Hypothesis Hst : NoDup (map fst (st_files st)).
  Hypothesis Hdates : length (st_files st) = g_npoints gt.
  Hypothesis Hb : (0 <= xmin b)%Z /\ (0 <= ymin b)%Z.
  Hypothesis Hhist : history st Phi.
  Hypothesis Hsmooth : smooth triangles st Phi b.
  Notation unwrap := (unwrap_one_tile smcf triangles tsched ssched cpu set tdist tcent sdist scent st gt b).
  Notation D i j x := (true_ifg Phi (nth i (st_dates st) ""%string) (nth j (st_dates st) ""%string) x).

  (** What has been read when the solver is called. *)
  Lemma tile_read wrap : SlcModel.read_tile 0%Q st b = Ok wrap ->
    let pts := nonzero (tile_mask st b) in
    tile_pixels st b pts /\ irreg_shape wrap = [length (st_dates st); length pts] /\
    exists rows, cube_of wrap = Cube 2 0 rows /\ length rows = length (st_dates st) /\
      forall t, t < length rows -> length (nth t rows []) = length pts /\
        forall p y, nth_error pts p = Some y -> slc_phase st (nth t (st_dates st) ""%string) (place b y) = Some (nth p (nth t rows []) 0%Q).
  Proof using Hb Hdates Hl Hst b gt set st.
    intros Ew pts. apply C50_read_tile in Ew as (pts' & rows & Ewr & Lr & Sr & Hp & Hrow); [|exact Hst].
    assert (pts' = pts) as ->.
    { apply (sorted_unique before); [intros x; unfold before; lia|intros x y z; unfold before; lia|exact Sr|apply nonzero_sorted|].
      intros p. rewrite Hp. unfold pts. split.
      - intros (i & j & -> & H). apply nonzero_iff, mask_selected, H.
      - intros H. destruct (nonzero_form _ _ H) as (i & j & ->). exists i, j. split; [reflexivity|]. apply mask_selected, nonzero_iff, H. }
    assert (forall t, t < length rows -> length (nth t rows []) = length pts /\ forall p y, nth_error pts p = Some y ->
      slc_phase st (nth t (st_dates st) ""%string) (place b y) = Some (nth p (nth t rows []) 0%Q)) as Hd.
    { intros t Bt. destruct (nth_error (st_dates st) t) as [d|] eqn:Ed; [|apply nth_error_None in Ed; lia].
      destruct (Hrow t d (nth t rows []) Ed (nth_error_nth' _ _ Bt)) as [Lrow Hd]. split; [exact Lrow|]. intros p y Ep.
      assert (p < length pts) as Bp by (apply nth_error_Some; congruence).
      pose proof (nth_error_In _ _ Ep) as Iy. apply Hp in Iy as (i & j & -> & _). unfold place. cbn [fst snd].
      rewrite (nth_error_nth _ _ ""%string Ed). unfold slc_phase. destruct (dict_get d (st_files st)) as [[file|]|]; [| |destruct Hd].
      - destruct Hd as (img & -> & Hd). rewrite image_window by apply Hb. rewrite <- (Hd p i j Ep). apply nth_error_nth'. lia.
      - f_equal. symmetry. apply nth_error_nth. auto. }
    split; [split; [exact Sr|]|split].
    - intros p. rewrite Hp. split.
      + intros (i & j & -> & Bi & Bj & q & E & Hq). unfold place. cbn [fst snd]. split; [|lia]. exists q. split; [|exact Hq].
        rewrite image_window by apply Hb. exact E.
      + destruct p as [r c]. intros ((q & E & Hq) & Hr). unfold place in E. cbn [fst snd] in *.
        exists (Z.to_nat r), (Z.to_nat c). split; [f_equal; lia|]. split; [lia|]. split; [lia|]. exists q. split; [|exact Hq].
        rewrite <- image_window by apply Hb. rewrite <- E. f_equal. f_equal; lia.
    - rewrite Ewr. reflexivity.
    - exists rows. split; [|split; [exact Lr|exact Hd]].
      rewrite Ewr. unfold cube_of, nd_ndim. cbn. rewrite <- Lr, chunks_concat; [reflexivity|].
      intros r I. apply (In_nth _ _ []) in I as (t & Bt & <-). apply Hd, Bt.
  Qed.

  (** The double differences on the sides of the triangles. *)
  Lemma side_smooth pts tri a c i j : tile_pixels st b pts -> triangles pts = Ok tri -> In (a, c) (g_links (delaunay (length pts) tri)) ->
    In (i, j) (g_links gt) ->
    (- half < D i j (place b (nth c pts (0, 0)%Z)) - D i j (place b (nth a pts (0, 0)%Z)) < half)%Q.
  Proof using Hsmooth Hlinks.
    intros Hp Et Ia Ii. apply Hlinks in Ii as [I1 I2]. destruct (C05_triangulation_links (length pts) tri) as (K & _).
    apply K in Ia as (_ & [[u v] w] & Is & n & m & _ & _ & _ & E1 & E2).
    apply (Hsmooth pts tri u v w Hp Et Is); auto; [apply (nth_in_tri _ _ _ E1)|apply (nth_in_tri _ _ _ E2)].
  Qed.

  Lemma solved wrap tri s_space s_time rows tc sc :
    let pts := nonzero (tile_mask st b) in
    SlcModel.read_tile 0%Q st b = Ok wrap -> cube_of wrap = Cube 2 0 rows ->
    triangles pts = Ok tri -> make_solver gt = Ok s_time -> make_solver (delaunay (length pts) tri) = Ok s_space ->
    pick_cost (t_cost_type set) (length (g_links gt)) tdist tcent = Ok tc ->
    pick_cost (s_cost_type set) (length (g_links (delaunay (length pts) tri))) (sdist pts) (scent pts) = Ok sc ->
    (1 <= space_workers (s_worker_count set) cpu)%Z ->
    exists U, unwrap_cube smcf tsched ssched cpu (Emcf s_space s_time set tdist tcent (sdist pts) (scent pts)) (cube_of wrap) = Ok U /\
      length U = length (g_links gt) /\
      forall k i j, nth_error (g_links gt) k = Some (i, j) -> length (nth k U []) = length pts /\
        forall p, p < length pts -> (nth p (nth k U []) 0 == D i j (place b (nth p pts (0, 0)%Z)) - D i j (place b (nth 0 pts (0, 0)%Z)))%Q.
  Proof using Htri Ht Hs Hl Hgt Hlinks Hst Hdates Hb Hhist Hsmooth.
    intros pts Ew Ec Etri Et Es Etc Esc Hw. destruct (tile_read wrap Ew) as (Hp & _ & rows' & Ec' & Lr & Hd). fold pts in Hp, Hd.
    rewrite Ec in Ec'. injection Ec' as <-. rewrite Ec. pose proof (Htri _ _ Etri) as Hgs. set (gs := delaunay (length pts) tri) in *.
    rewrite dates_length in Lr.
    destruct (C23_smooth smcf gs gt tsched ssched cpu (Emcf s_space s_time set tdist tcent (sdist pts) (scent pts)) (Cube 2 0 rows) tc sc
      (fun t v => Phi (nth t (st_dates st) ""%string) (place b (nth v pts (0, 0)%Z)))) as (U & EU & LU & HU); auto.
    - unfold classify, em_nepochs. cbn. rewrite (solver_of _ _ Hgt Et). cbn. rewrite Lr, Hdates, Nat.eqb_refl. reflexivity.
    - intros r I. cbn in I. apply (In_nth _ _ []) in I as (t & Bt & <-). change (g_npoints gs) with (length pts). destruct (Hd t Bt) as [-> _]. lia.
    - cbn [cu_data]. intros t v Bt Bv. change (g_npoints gs) with (length pts) in Bv. destruct (Hd t) as [_ Hd2]; [lia|].
      apply (Hhist _ _ _ (Hd2 v _ (nth_error_nth' _ (0, 0)%Z Bv))).
    - intros i j a c Ii Ia. pose proof (side_smooth pts tri a c i j Hp Etri Ia Ii) as K. exact K.
    - exists U. split; [exact EU|]. split; [exact LU|]. intros k i j Ek. 
      destruct (HU k i j) as [U1 U2]; [apply nth_error_Some; congruence|now apply nth_error_nth|]. split; [exact U1|]. intros p Bp. rewrite (U2 p Bp). reflexivity.
  Qed.

  (** Phases of a band, given the band of the solution. *)
  Lemma band_right wrap rows U k i j :
    let pts := nonzero (tile_mask st b) in
    SlcModel.read_tile 0%Q st b = Ok wrap -> cube_of wrap = Cube 2 0 rows -> nth_error (g_links gt) k = Some (i, j) ->
    let f := TileFile pts b U (map (fun ij => phase_diff (at2 rows (fst ij) 0) (at2 rows (snd ij) 0) 0) (g_links gt)) in
    (forall p, p < length pts -> (nth p (nth k U []) 0 == D i j (place b (nth p pts (0, 0)%Z)) - D i j (place b (nth 0 pts (0, 0)%Z)))%Q) ->
    exists m : Z, (forall p x, nth_error (file_coords f) p = Some x -> (MergeSpec.phase_of f k p == D i j x + twopi * inject_Z m)%Q) /\
      (forall x, nth_error (file_coords f) 0 = Some x -> (- half <= MergeSpec.phase_of f k 0 <= half)%Q).
  Proof using Hb Hdates Hhist Hl Hlinks Hst Phi b gt set st.
    intros pts Ew Ec Ek f HU. destruct (tile_read wrap Ew) as (Hp & _ & rows' & Ec' & Lr & Hd). fold pts in Hp, Hd.
    rewrite Ec in Ec'. injection Ec' as <-. pose proof (Hlinks i j (nth_error_In _ _ Ek)) as [Bij _].
    assert (forall p, (MergeSpec.phase_of f k p == nth p (nth k U []) 0 + phase_diff (at2 rows i 0) (at2 rows j 0) 0)%Q) as E.
    { intros p. unfold f, MergeSpec.phase_of, at_. cbn [tf_uw tf_offset].
      assert (nth k (map (fun ij => phase_diff (at2 rows (fst ij) 0) (at2 rows (snd ij) 0) 0) (g_links gt)) 0%Q
              = phase_diff (at2 rows i 0) (at2 rows j 0) 0) as ->; [|reflexivity].
      apply nth_error_nth. rewrite nth_error_map, Ek. reflexivity. }
    destruct (Nat.eq_dec (length pts) 0) as [Z0|Pos].
    { exists 0%Z. assert (length (file_coords f) = 0) as L0 by (unfold file_coords, f; cbn; now rewrite map_length).
      split; [intros p x X|intros x X]; apply nth_error_In in X; destruct (file_coords f); [destruct X|discriminate|destruct X|discriminate]. }
    assert (exists m, (phase_diff (at2 rows i 0) (at2 rows j 0) 0 == D i j (place b (nth 0 pts (0, 0)%Z)) + twopi * inject_Z m)%Q) as (m & Em).
    { destruct (pd_cong (at2 rows i 0) (at2 rows j 0) 0) as [m E0].
      assert (nth_error pts 0 = Some (nth 0 pts (0, 0)%Z)) as N0 by (apply nth_error_nth'; lia).
      destruct (Hd i) as [_ Di]; [lia|]. destruct (Hd j) as [_ Dj]; [lia|].
      destruct (Hhist _ _ _ (Di 0 _ N0)) as [mi Ei]. destruct (Hhist _ _ _ (Dj 0 _ N0)) as [mj Ej]. 
      exists (m + mj - mi)%Z. unfold at2 in *. rewrite E0, Ei, Ej. unfold true_ifg. unfold Z.sub. rewrite !inject_Z_plus, inject_Z_opp. ring. }
    exists m. split.
    - intros p x Ex. rewrite E. unfold file_coords, f in Ex. cbn [tf_tile tf_points] in Ex. rewrite nth_error_map in Ex.
      destruct (nth_error pts p) as [y|] eqn:Ep; [|discriminate]. cbn in Ex. injection Ex as <-.
      assert (p < length pts) as Bp by (apply nth_error_Some; congruence). rewrite (HU p Bp), Em, (nth_error_nth _ _ _ Ep). unfold place. ring.
    - intros x _. rewrite E. rewrite (HU 0) by lia. pose proof (pd_near (at2 rows i 0) (at2 rows j 0) 0) as N. lra.
  Qed.

  Lemma tile_exact f : unwrap = Ok f ->
    forall k i j, nth_error (g_links gt) k = Some (i, j) -> exists m : Z,
      (forall p x, nth_error (file_coords f) p = Some x -> (MergeSpec.phase_of f k p == D i j x + twopi * inject_Z m)%Q) /\
      (forall x, nth_error (file_coords f) 0 = Some x -> (- half <= MergeSpec.phase_of f k 0 <= half)%Q).
  Proof using Htri Ht Hs Hl Hgt Hlinks Hst Hdates Hb Hhist Hsmooth.
    unfold unwrap_one_tile. intros Hf k i j Ek. destruct (make_solver gt) as [s_time|] eqn:Et; [|discriminate]. cbn [bind] in Hf.
    change (map (map (above (st_threshold st))) (read_temporal_coherence st b)) with (tile_mask st b) in Hf.
    set (pts := nonzero (tile_mask st b)) in Hf. destruct (triangles pts) as [tri|] eqn:Etri; [|discriminate]. cbn [bind] in Hf.
    destruct (make_solver (delaunay (length pts) tri)) as [s_space|] eqn:Es; [|discriminate]. cbn [bind] in Hf.
    destruct (SlcModel.read_tile 0%Q st b) as [wrap|] eqn:Ew; [|discriminate]. cbn [bind] in Hf.
    destruct (negb _); [discriminate|]. destruct (tile_read wrap Ew) as (_ & _ & rows & Ec & _).
    destruct (unwrap_cube _ _ _ _ _ _) as [U|] eqn:Eu; [|discriminate]. cbn [bind] in Hf.
    rewrite Ec in Hf. cbn [cu_data] in Hf. injection Hf as <-.
    eapply band_right; eauto.
    pose proof (solver_of _ _ Hgt Et) as Est. pose proof (solver_of _ _ (Htri _ _ Etri) Es) as Ess.
    assert (exists tc, pick_cost (t_cost_type set) (length (g_links gt)) tdist tcent = Ok tc) as (tc & Etc).
    { unfold unwrap_cube in Eu. destruct (classify _ _); [|discriminate]. cbn [bind] in Eu. destruct (unwrap_gradients_in_time _ _ _ _ _ _) eqn:E; [|discriminate].
      unfold unwrap_gradients_in_time in E. destruct (pick_cost _ _ _ _) as [tc|] eqn:Ep; [|discriminate]. exists tc. unfold em_ifgs in Ep. cbn in Ep. rewrite Est in Ep. exact Ep. }
    assert (exists sc, pick_cost (s_cost_type set) (length (g_links (delaunay (length pts) tri))) (sdist pts) (scent pts) = Ok sc /\
      (1 <= space_workers (s_worker_count set) cpu)%Z) as (sc & Esc & Hw).
    { unfold unwrap_cube in Eu. destruct (classify _ _); [|discriminate]. cbn [bind] in Eu. destruct (unwrap_gradients_in_time _ _ _ _ _ _) eqn:E; [|discriminate]. cbn [bind] in Eu.
      unfold unwrap_gradients_in_space in Eu. destruct (pick_cost _ _ _ _) as [sc|] eqn:Ep; [|discriminate]. cbn [bind] in Eu. exists sc. split.
      - unfold em_links in Ep. cbn in Ep. rewrite Ess in Ep. exact Ep.
      - cbn [em_set] in Eu. destruct (Z.leb_spec (space_workers (s_worker_count set) cpu) 0); [discriminate|lia]. }
    destruct (solved wrap tri s_space s_time rows tc sc Ew Ec Etri Et Es Etc Esc Hw) as (U' & EU & _ & HU). fold pts in EU, HU.
    rewrite EU in Eu. injection Eu as ->. apply (HU k i j Ek).
  Qed.
End Tile.

(** The valid pixels of a tile, computed. *)
Lemma mask_pixels st b : (0 <= xmin b)%Z -> (0 <= ymin b)%Z -> tile_pixels st b (nonzero (tile_mask st b)).
Proof.
  intros Bx By. split; [apply nonzero_sorted|]. intros p. split.
  - intros I. destruct (nonzero_form _ _ I) as (i & j & ->). apply nonzero_iff, mask_selected in I. destruct I as (Bi & Bj & q & E & Hq).
    unfold place. cbn [fst snd]. split; [|lia]. exists q. split; [|exact Hq]. rewrite image_window by auto. exact E.
  - destruct p as [r c]. intros ((q & E & Hq) & Hr). unfold place in E. cbn [fst snd] in *.
    replace (r, c) with (Z.of_nat (Z.to_nat r), Z.of_nat (Z.to_nat c)) by (f_equal; lia). apply nonzero_iff, mask_selected.
    split; [lia|]. split; [lia|]. exists q. split; [|exact Hq]. rewrite <- image_window by auto. rewrite <- E. f_equal. f_equal; lia.
Qed.

Lemma tile_pixels_unique st b pts pts' : tile_pixels st b pts -> tile_pixels st b pts' -> pts = pts'.
Proof.
  intros [S1 P1] [S2 P2]. apply (sorted_unique before); auto; [intros x; unfold before; lia|intros x y z; unfold before; lia|].
  intros x. rewrite P1, P2. reflexivity.
Qed.

(** Checking smoothness by computation. *)
Definition smooth_b (st : slc_stack Q) (Phi : string -> Z * Z -> Q) (b : bbox) (pts : list (Z * Z)) (tri : list (nat * nat * nat)) : bool :=
  let n := length (st_dates st) in
  forallb (fun t => let '(u, v, w) := t in
    forallb (fun a => forallb (fun c => forallb (fun i => forallb (fun j =>
      negb ((i <? j) && (j - i <=? 3)) ||
      let D n := true_ifg Phi (nth i (st_dates st) ""%string) (nth j (st_dates st) ""%string) (place b (nth n pts (0, 0)%Z)) in
      let d := (D c - D a)%Q in negb (Qle_bool d (- half)) && negb (Qle_bool half d))
      (seq 0 n)) (seq 0 n)) [u; v; w]) [u; v; w]) tri.

Lemma smooth_check triangles st Phi b tri : (0 <= xmin b)%Z -> (0 <= ymin b)%Z -> let pts := nonzero (tile_mask st b) in
  triangles pts = Ok tri -> smooth_b st Phi b pts tri = true -> smooth triangles st Phi b.
Proof.
  intros Bx By pts Et C pts' tri' u v w P E I a c Ia Ic i j Hij Hd. cbv zeta.
  rewrite (tile_pixels_unique st b pts' pts P) in * by now apply mask_pixels. rewrite Et in E. injection E as <-.
  unfold smooth_b in C. rewrite forallb_forall in C. specialize (C _ I). cbv beta iota in C.
  rewrite forallb_forall in C. specialize (C a Ia). rewrite forallb_forall in C. specialize (C c Ic).
  rewrite forallb_forall in C. specialize (C i ltac:(apply in_seq; lia)). rewrite forallb_forall in C. specialize (C j ltac:(apply in_seq; lia)). cbv zeta in C.
  apply orb_prop in C as [C|C]; [lia|]. apply andb_prop in C as [C1 C2]. apply negb_true_iff in C1, C2.
  split; apply Qnot_le_lt; intros L; apply Qle_bool_iff in L; congruence.
Qed.
