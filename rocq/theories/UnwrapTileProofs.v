(** Proofs about unwrapping one tile. *)
From Verif Require Import Base BaseLemmas GraphModel GraphSpec McfModel McfSpec PhaseProofs EmcfModel EmcfSpec CubeProofs Props_Mcf Props_Emcf
  TileModel TileSpec SlcModel SlcSpec SlcProofs Props_Slc OverlapModel OverlapSpec MergeModel MergeSpec UnwrapTileModel PipelineSpec.
From Coq Require Import List Sorting.Sorted ZifyBool.
Import ListNotations.
Set Default Goal Selector "!".
Local Open Scope nat_scope.

Lemma chunks_concat {A} w (rows : list (list A)) : (forall r, In r rows -> length r = w) -> chunks w (length rows) (concat rows) = rows.
Proof.
  induction rows as [|r rows IH]; intros H; [reflexivity|]. cbn [length concat chunks].
  assert (length r = w) as L by (apply H; now left). subst w.
  rewrite firstn_app, Nat.sub_diag, firstn_all, app_nil_r. rewrite skipn_app, Nat.sub_diag, skipn_all. cbn [skipn app].
  f_equal. apply IH. intros x I. apply H. now right.
Qed.

Lemma before_nodup l : StronglySorted before l -> NoDup l.
Proof.
  induction 1 as [|p l S IH F]; constructor; auto. intros I. rewrite Forall_forall in F. specialize (F p I). unfold before in F. lia.
Qed.

Lemma image_window {A} (img : list (list A)) a b i j : (0 <= a)%Z -> (0 <= b)%Z ->
  image_at img (Z.of_nat i + a, Z.of_nat j + b)%Z = pixel_at img (Z.to_nat a + i) (Z.to_nat b + j).
Proof.
  intros Ha Hb. unfold image_at. cbn [fst snd]. destruct (_ && _) eqn:E; [|lia].
  replace (Z.to_nat (Z.of_nat i + a)) with (Z.to_nat a + i) by lia. replace (Z.to_nat (Z.of_nat j + b)) with (Z.to_nat b + j) by lia. reflexivity.
Qed.

Lemma dates_length (st : slc_stack Q) : length (st_dates st) = length (st_files st).
Proof. unfold st_dates, dates_of. rewrite (Permutation_length (sort_str_perm _)). apply map_length. Qed.

Section Tile.
  Context (smcf : list arc -> list Z -> option (list Z))
          (triangles : list (Z * Z) -> res (list (nat * nat * nat)))
          (tsched : nat -> list nat -> list nat) (ssched : list nat -> list nat) (cpu : Z)
          (set : settings) (tdist tcent : list Z) (sdist scent : list (Z * Z) -> list Z).
  Hypothesis Hsm : smcf_sound smcf.
  Hypothesis Htri : forall pts tri, triangles pts = Ok tri -> planar (delaunay (length pts) tri).
  Hypothesis Ht : forall b l, Permutation (tsched b l) l.
  Hypothesis Hs : forall l, Permutation (ssched l) l.
  Hypothesis Hl : 0 < links_per_batch set.
  Context (st : slc_stack Q) (gt : graph) (b : bbox) (f : tile_file).
  Hypothesis Hgt : planar gt.
  Hypothesis Hst : NoDup (map fst (st_files st)).
  Hypothesis Hdates : length (st_files st) = g_npoints gt.
  Hypothesis Hb : (0 <= xmin b)%Z /\ (0 <= ymin b)%Z.
  Hypothesis Hf : unwrap_one_tile smcf triangles tsched ssched cpu set tdist tcent sdist scent st gt b = Ok f.

  Lemma tile_out :
    tf_tile f = b /\ tile_bands (length (g_links gt)) f /\ StronglySorted before (tf_points f) /\
    (forall x, In x (file_coords f) <-> valid_pixel st x /\ has_pixel b (fst x) (snd x)) /\
    (forall k d1 d2 p x, nth_error (g_links gt) k = Some (d1, d2) -> nth_error (file_coords f) p = Some x ->
       ifg_value st (nth d1 (st_dates st) ""%string) (nth d2 (st_dates st) ""%string) x (MergeSpec.phase_of f k p)).
  Proof.
    unfold unwrap_one_tile in Hf. destruct (make_solver gt) as [s_time|] eqn:Et; [|discriminate]. cbn [bind] in Hf.
    change (map (map (above (st_threshold st))) (read_temporal_coherence st b)) with (tile_mask st b) in Hf.
    set (pts := nonzero (tile_mask st b)) in Hf. destruct (triangles pts) as [tri|] eqn:Etri; [|discriminate]. cbn [bind] in Hf.
    pose proof (Htri _ _ Etri) as Hgs. set (gs := delaunay (length pts) tri) in *.
    destruct (make_solver gs) as [s_space|] eqn:Es; [|discriminate]. cbn [bind] in Hf.
    destruct (SlcModel.read_tile 0%Q st b) as [wrap|] eqn:Ew; [|discriminate]. cbn [bind] in Hf.
    destruct (negb _); [discriminate|].
    apply C50_read_tile in Ew as (pts' & rows & Ewr & Lr & Sr & Hp & Hrow); [|exact Hst].
    assert (pts' = pts) as ->.
    { apply (sorted_unique before); [intros x; unfold before; lia|intros x y z; unfold before; lia|exact Sr|apply nonzero_sorted|].
      intros p. rewrite Hp. unfold pts. split.
      - intros (i & j & -> & H). apply nonzero_iff, mask_selected, H.
      - intros H. destruct (nonzero_form _ _ H) as (i & j & ->). exists i, j. split; [reflexivity|]. apply mask_selected, nonzero_iff, H. }
    assert (forall t, t < length rows -> length (nth t rows []) = length pts /\ forall p i j, nth_error pts p = Some (Z.of_nat i, Z.of_nat j) ->
      slc_phase st (nth t (st_dates st) ""%string) (Z.of_nat i + xmin b, Z.of_nat j + ymin b)%Z = Some (nth p (nth t rows []) 0%Q)) as Hd.
    { intros t Bt. destruct (nth_error (st_dates st) t) as [d|] eqn:Ed; [|apply nth_error_None in Ed; lia].
      destruct (Hrow t d (nth t rows []) Ed (nth_error_nth' _ _ Bt)) as [Lrow Hd]. split; [exact Lrow|]. intros p i j Ep.
      assert (p < length pts) as Bp by (apply nth_error_Some; congruence).
      rewrite (nth_error_nth _ _ ""%string Ed). unfold slc_phase. destruct (dict_get d (st_files st)) as [[file|]|]; [| |destruct Hd].
      - destruct Hd as (img & -> & Hd). rewrite image_window by apply Hb. rewrite <- (Hd p i j Ep). apply nth_error_nth'. lia.
      - f_equal. symmetry. apply nth_error_nth. auto. }
    assert (cube_of wrap = Cube 2 0 rows) as Ec.
    { rewrite Ewr. unfold cube_of, nd_ndim. cbn. rewrite <- Lr, chunks_concat; [reflexivity|].
      intros r I. apply (In_nth _ _ []) in I as (t & Bt & <-). apply Hd, Bt. }
    rewrite Ec in Hf. cbn [cu_data] in Hf. destruct (unwrap_cube _ _ _ _ _ _) as [U|] eqn:Eu; [|discriminate]. cbn [bind] in Hf. injection Hf as <-.
    pose proof (solver_of _ _ Hgt Et) as Est. rewrite dates_length in Lr.
    apply (C22_sound smcf gs gt tsched ssched cpu _ _ false) in Eu as [LU HU]; auto.
    2:{ unfold classify, em_nepochs. cbn. rewrite Est. cbn. rewrite Lr, Hdates, Nat.eqb_refl. reflexivity. }
    cbn [cu_data] in HU. change (g_npoints gs) with (length pts) in HU.
    cbn [tf_tile tf_uw tf_offset tf_points]. split; [reflexivity|]. split; [|split; [exact Sr|split]].
    - split; [exact LU|]. cbn [tf_offset tf_uw tf_points]. split; [apply map_length|].
      intros r I. apply (In_nth _ _ []) in I as (n & Bn & <-). apply HU. lia.
    - intros x. unfold file_coords. cbn [tf_tile tf_points]. rewrite in_map_iff. split.
      + intros (p & <- & I). apply Hp in I as (i & j & -> & Bi & Bj & q & E & Hq). cbn [fst snd]. split.
        * exists q. split; [|exact Hq]. rewrite image_window by apply Hb. exact E.
        * unfold has_pixel. lia.
      + intros [(q & E & Hq) Hx]. unfold has_pixel in Hx. destruct x as [r c]. cbn [fst snd] in Hx.
        exists (r - xmin b, c - ymin b)%Z. cbn [fst snd]. split; [f_equal; lia|]. apply Hp.
        exists (Z.to_nat (r - xmin b)), (Z.to_nat (c - ymin b)). split; [f_equal; lia|]. split; [lia|]. split; [lia|]. exists q. split; [|exact Hq].
        rewrite <- image_window by apply Hb. rewrite <- E. f_equal. f_equal; lia.
    - intros k d1 d2 p x Ek Ex. unfold file_coords in Ex. cbn [tf_tile tf_points] in Ex. rewrite nth_error_map in Ex.
      destruct (nth_error pts p) as [y|] eqn:Ep; [|discriminate]. cbn in Ex. injection Ex as <-.
      assert (p < length pts) as Bp by (apply nth_error_Some; congruence).
      assert (k < length (g_links gt)) as Bk by (apply nth_error_Some; congruence).
      pose proof (nth_error_In _ _ Ek) as Ik. apply (pl_lt gt Hgt) in Ik.
      pose proof (nth_error_In _ _ Ep) as Iy. apply Hp in Iy as (i & j & -> & _). cbn [fst snd].
      exists (nth p (nth d1 rows []) 0%Q), (nth p (nth d2 rows []) 0%Q).
      split; [apply Hd; [lia|exact Ep]|]. split; [apply Hd; [lia|exact Ep]|].
      destruct (HU k Bk) as (_ & _ & Hk). destruct (Hk p Bp) as [m1 E1]. unfold ifg_phase in E1. rewrite (nth_error_nth _ _ _ Ek) in E1. cbn [fst snd] in E1.
      unfold phase_of, at_. cbn [tf_uw tf_offset].
      assert (nth k (map (fun ij => phase_diff (at2 rows (fst ij) 0) (at2 rows (snd ij) 0) 0) (g_links gt)) 0%Q
              = phase_diff (at2 rows d1 0) (at2 rows d2 0) 0) as ->.
      { apply nth_error_nth. rewrite nth_error_map, Ek. reflexivity. }
      destruct (pd_cong (at2 rows d1 0) (at2 rows d2 0) 0) as [m2 E2]. unfold at2 in *.
      exists (m1 + m2)%Z. rewrite E1, E2, inject_Z_plus. ring.
  Qed.
End Tile.
