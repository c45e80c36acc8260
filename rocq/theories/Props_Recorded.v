(** Which overlaps are recorded (C33), and what recorded overlaps alone guarantee
    about the adjustment of the tiles (C39). *)
From Verif Require Import Base BaseLemmas PoolProofs TileModel TileSpec TileProofs OverlapModel OverlapSpec OverlapProofs
  BulkProofs MergeModel MergeSpec AdjustProofs FixedProofs MergeBatchProofs DescribeProofs Props_Tile Props_Overlap Props_Merge.
From Coq Require Import List ZifyBool Permutation.
Import ListNotations.
Set Default Goal Selector "!".
Local Open Scope Z_scope.
Local Notation tl ts i := (nth i ts dtile).

(** A pair of tiles is recorded exactly when the two files share a pixel and share
    at least the required number of pixels. *)
Theorem C33_recorded_iff comps min_points files t f H W :
  compute_phasediff_deciles comps min_points files t = Ok f -> (forall n e, length (comps n e) = n) ->
  length files = ntiles t -> (forall n, (n < ntiles t)%nat -> tf_tile (nth n files dfile) = tile_at t n) ->
  (forall fl, In fl files -> NoDup (tf_points fl)) -> (forall fl, In fl files -> in_grid H W (file_coords fl)) -> H * W <= 2 ^ 32 ->
  (forall n x, (n < ntiles t)%nat -> In x (file_coords (nth n files dfile)) -> has_pixel (tile_at t n) (fst x) (snd x)) ->
  forall i j, In (i, j) (of_overlaps f) <->
    (i < j < ntiles t)%nat /\ exists l, NoDup l /\ l <> [] /\ min_points <= Z.of_nat (length l) /\
      forall x, In x l <-> In x (file_coords (nth i files dfile)) /\ In x (file_coords (nth j files dfile)).
Proof.
  intros Hc Hl Hn Ht Hp Hg Hfit Hin i j. split.
  - intros I. destruct (computed comps min_points files t f Hc Hl) as (gs & Eg & Ef & Eo & _). destruct (C26_overlaps t) as (O1 & _).
    pose proof (map_res_nth _ _ _ Eg) as [Lg Kg]. rewrite Eo in I. apply in_map_iff in I as (g & Ep & Ig).
    rewrite Ef in Ig. apply in_flat_map in Ig as ([g'|] & Io & Ig); [|destruct Ig]. destruct Ig as [->|[]].
    apply (In_nth _ _ None) in Io as (k & Bk & Ek). rewrite Lg in Bk. specialize (Kg k (O, O) None Bk). rewrite Ek in Kg.
    destruct (nth k (get_overlaps t) (O, O)) as [i' j'] eqn:Eij.
    assert (In (i', j') (get_overlaps t)) as Ip by (rewrite <- Eij; now apply nth_In). pose proof (O1 _ _ Ip) as B.
    destruct (pair_recorded min_points files t H W Hn Ht Hp Hg Hfit i' j' g B Kg) as (Ep' & _).
    rewrite Ep in Ep'. injection Ep' as <- <-. split; [exact B|].
    pose proof (C33_recorded_overlap min_points files t i j g H W) as K. cbv beta zeta in K. fold dfile in K.
    rewrite (load_points files t Ht i ltac:(lia)), (load_points files t Ht j ltac:(lia)) in K.
    assert (forall n, (n < ntiles t)%nat -> In (nth n files dfile) files) as Hi by (intros n Bn; apply nth_In; lia).
    specialize (K (Hg _ (Hi i ltac:(lia))) (Hg _ (Hi j ltac:(lia))) Hfit Kg). destruct K as (_ & K2 & _ & _ & K5 & K6).
    exists (map (at_pt (file_coords (nth i files dfile))) (og_c1 g)). split; [exact K5|]. rewrite map_length. split; [|split; [exact K2|exact K6]].
    intros X. apply map_eq_nil in X. unfold overlap_pair in Kg. destruct (load_uw_tile _ _), (load_uw_tile _ _).
    destruct (find_common_points _ _ _) as [[c1 c2]|]; [|discriminate]. cbn [bind] in Kg. destruct (_ <? _); [discriminate|].
    destruct (pairwise_unwrapped_diff_deciles _ _) eqn:Ed; [|discriminate]. cbn [bind] in Kg. injection Kg as <-. cbn [og_c1] in X. subst c1.
    rewrite C34_bad_input in Ed; [discriminate|]. right. right. cbn. lia.
  - intros (B & l & Nd & Ne & M & Hx).
    assert (Permutation l (common_pixels (nth i files dfile) (nth j files dfile))) as P.
    { apply NoDup_Permutation; [exact Nd|apply NoDup_filter, (fcoords_nodup files t Hn Hp), nth_In; lia|]. intros x. rewrite Hx, in_common. reflexivity. }
    apply (computed_pair comps min_points files t f H W Hc Hl Hn Ht Hp Hg Hfit Hin); auto.
    + intros X. rewrite X in P. apply Permutation_sym, Permutation_nil in P. contradiction.
    + rewrite <- (Permutation_length P). exact M.
Qed.

(** When the tiles of every recorded overlap agree on the shared pixels, the
    adjustment changes nothing, in whatever order the tiles are visited in each
    pass. Tiles that share pixels without being recorded may disagree. *)
Theorem C39_fixed_recorded cg ilu triangles f nb orders ts omap m ts' :
  recorded f ts -> (forall t, In t ts -> ready nb t) -> overlap_map f = Ok omap ->
  (forall d, Permutation (orders d) (seq 0 (length ts))) ->
  (forall i j b x, In (i, j) (of_overlaps f) -> (b < nb)%nat -> contains (tl ts i) x = true -> contains (tl ts j) x = true ->
     (phase_at (tl ts i) b x == phase_at (tl ts j) b x)%Q) ->
  adjust_tiles_in cg ilu triangles orders f omap m ts = Ok ts' ->
  forall i b p, (i < length ts)%nat -> (b < nb)%nat -> (p < npoints (tl ts i))%nat ->
    (at_ (uw_phase (tl ts' i)) b p == at_ (uw_phase (tl ts i)) b p)%Q.
Proof. intros. eapply adjust_same; eauto. Qed.

(** * Cases *)

(** Tiles 0 and 1 share row 1 and agree on it. Tile 2 shares five pixels of row 2
    with tile 1, too few to be recorded, and is one unit above it. *)
Definition rc_points : list (Z * Z) := map (fun c => (0, Z.of_nat c)) (seq 0 5).
Definition rc_files : list tile_file :=
  [TileFile ex_points (BBox 0 0 2 12) [repeat 0%Q 24] [0%Q];
   TileFile ex_points (BBox 1 0 3 12) [repeat 0%Q 24] [0%Q];
   TileFile rc_points (BBox 2 0 4 12) [repeat 1%Q 5] [0%Q]].
Definition rc_set : tileset := TileSet (4, 12) [BBox 0 0 2 12; BBox 1 0 3 12; BBox 2 0 4 12].
Definition rc_overlaps : overlap_file := OFile [OGroup (0, 1)%nat (seq 12 12) (seq 0 12) [repeat 0 11]] [0; 0; 0]%nat [(0, 1)%nat].
Definition rc_triangles (p : list (Z * Z)) : res (list (nat * nat * nat)) :=
  if (length p =? 24)%nat then ex_triangles p else Ok [(0, 1, 2); (2, 3, 4)]%nat.

Lemma rc_computed : compute_phasediff_deciles ex_comps 11 rc_files rc_set = Ok rc_overlaps.
Proof. vm_compute. reflexivity. Qed.
Lemma rc_ok fl : In fl rc_files -> file_ok fl /\ NoDup (tf_points fl).
Proof.
  intros I. split.
  - destruct I as [<-|[<-|[<-|[]]]]; intros r [<-|[]]; reflexivity.
  - assert (tf_points fl = ex_points \/ tf_points fl = rc_points) as [->| ->] by (destruct I as [<-|[<-|[<-|[]]]]; auto).
    + apply (NoDup_count_occ' (fun a b : Z * Z => ltac:(repeat decide equality))). intros x I'. cbn in I'.
      repeat (destruct I' as [<-|I']; [vm_compute; reflexivity|]). destruct I'.
    + apply (NoDup_count_occ' (fun a b : Z * Z => ltac:(repeat decide equality))). intros x I'. cbn in I'.
      repeat (destruct I' as [<-|I']; [vm_compute; reflexivity|]). destruct I'.
Qed.
Lemma rc_tiles n : (n < ntiles rc_set)%nat -> tf_tile (nth n rc_files dfile) = tile_at rc_set n.
Proof. destruct n as [|[|[|n]]]; intros B; try reflexivity. cbn in B. lia. Qed.
Lemma rc_grid fl : In fl rc_files -> in_grid 4 12 (file_coords fl).
Proof. intros [<-|[<-|[<-|[]]]] r c I; cbn in I; repeat (destruct I as [I|I]; [injection I as <- <-; lia|]); destruct I. Qed.
Lemma rc_pixels n x : (n < ntiles rc_set)%nat -> In x (file_coords (nth n rc_files dfile)) -> has_pixel (tile_at rc_set n) (fst x) (snd x).
Proof. intros B I. destruct n as [|[|[|n]]]; [| | |cbn in B; lia]; cbn in I; repeat (destruct I as [<-|I]; [unfold has_pixel; cbn; lia|]); destruct I. Qed.

(** The pair (0, 1) is recorded and (1, 2) is not, though those share pixels. *)
Example C33_recorded_witness :
  (forall i j, In (i, j) (of_overlaps rc_overlaps) <->
    (i < j < 3)%nat /\ exists l, NoDup l /\ l <> [] /\ 11 <= Z.of_nat (length l) /\
      forall x, In x l <-> In x (file_coords (nth i rc_files dfile)) /\ In x (file_coords (nth j rc_files dfile))) /\
  of_overlaps rc_overlaps = [(0, 1)%nat] /\
  In (2, 3) (file_coords (nth 1 rc_files dfile)) /\ In (2, 3) (file_coords (nth 2 rc_files dfile)).
Proof.
  split; [|split; [reflexivity|split; cbn; tauto]].
  apply (C33_recorded_iff ex_comps 11 rc_files rc_set rc_overlaps 4 12 rc_computed); try (exact rc_tiles || exact rc_grid || exact rc_pixels || reflexivity).
  - intros n e. apply repeat_length.
  - intros fl I. now apply rc_ok.
  - lia.
Qed.

Lemma rc_recorded : recorded_files rc_overlaps rc_files.
Proof.
  apply (computed_recorded ex_comps 11 rc_files rc_set rc_overlaps 4 12 rc_computed); try (exact rc_tiles || exact rc_grid || reflexivity).
  - intros n e. apply repeat_length.
  - intros fl I. now apply rc_ok.
  - lia.
Qed.
Lemma rc_agree ts : start_tiles rc_files [[0; 0; 0]%Q] [0%nat] = Ok ts ->
  forall i j b x, In (i, j) (of_overlaps rc_overlaps) -> (b < 1)%nat -> contains (tl ts i) x = true -> contains (tl ts j) x = true ->
    (phase_at (tl ts i) b x == phase_at (tl ts j) b x)%Q.
Proof.
  intros E i j b x [K|[]] Bb. injection K as <- <-. assert (b = O) as -> by lia. vm_compute in E. injection E as <-.
  intros Ci Cj. apply contains_spec in Ci as (p & P). apply nth_error_In in P. cbn in P.
  repeat (destruct P as [<-|P]; [first [vm_compute; reflexivity|vm_compute in Cj; discriminate]|]). destruct P.
Qed.

(** The theorem applies to this run, with the tiles visited in either direction:
    the recorded pair agrees and nothing moves. *)
Example C39_fixed_recorded_witness : exists ts omap ts',
  start_tiles rc_files [[0; 0; 0]%Q] [0%nat] = Ok ts /\ overlap_map rc_overlaps = Ok omap /\
  adjust_tiles_in ex_cg (fun _ => true) rc_triangles (fun _ => [2; 1; 0]%nat) rc_overlaps omap 2 ts = Ok ts' /\
  (forall i b p, (i < length ts)%nat -> (b < 1)%nat -> (p < npoints (tl ts i))%nat ->
    (at_ (uw_phase (tl ts' i)) b p == at_ (uw_phase (tl ts i)) b p)%Q).
Proof.
  destruct (start_tiles rc_files [[0; 0; 0]%Q] [0]%nat) as [ts|] eqn:E; [|vm_compute in E; discriminate]. exists ts, [[1]; [0]; []]%nat.
  pose proof E as E0. apply (started [[0; 0; 0]%Q] rc_files rc_ok) in E0 as (F & R & _). pose proof (rc_agree ts E) as Ha.
  assert (length ts = 3%nat) as L by (apply (f_equal (@length _)) in F; now rewrite map_length in F).
  destruct (adjust_tiles_in ex_cg (fun _ => true) rc_triangles (fun _ => [2; 1; 0]%nat) rc_overlaps [[1]; [0]; []]%nat 2 ts) as [ts'|] eqn:E'.
  2:{ exfalso. vm_compute in E. injection E as <-. vm_compute in E'. discriminate. }
  exists ts'. split; [auto|]. split; [reflexivity|]. split; [auto|].
  apply (C39_fixed_recorded ex_cg (fun _ => true) rc_triangles rc_overlaps 1 (fun _ => [2; 1; 0]%nat) ts [[1]; [0]; []]%nat 2 ts'); auto.
  - now apply rc_recorded.
  - intros u I. apply R, I.
  - intros _. rewrite L. exact (Permutation_rev [2; 1; 0]%nat).
Qed.

(** Overlaps below the minimum are ignored, and tiles that share them can disagree
    after the adjustment, although every contract holds. *)
Theorem C39_skipped_refuted : exists files min_points t f bulk ts omap ts' x,
  compute_phasediff_deciles ex_comps min_points files t = Ok f /\ recorded_files f files /\ (forall fl, In fl files -> file_ok fl) /\
  start_tiles files bulk [0%nat] = Ok ts /\ overlap_map f = Ok omap /\ get_max_degree (map file_coords files) (shape t) = Ok 2%nat /\
  adjust_tiles ex_cg (fun _ => true) rc_triangles f omap 2 ts = Ok ts' /\
  contains (tl ts' 1) x = true /\ contains (tl ts' 2) x = true /\ ~ (phase_at (tl ts' 1) 0 x == phase_at (tl ts' 2) 0 x)%Q.
Proof.
  exists rc_files, 11, rc_set, rc_overlaps, [[0; 0; 0]%Q].
  destruct (start_tiles rc_files [[0; 0; 0]%Q] [0]%nat) as [ts|] eqn:E; [|vm_compute in E; discriminate]. exists ts, [[1]; [0]; []]%nat.
  destruct (adjust_tiles ex_cg (fun _ => true) rc_triangles rc_overlaps [[1]; [0]; []]%nat 2 ts) as [ts'|] eqn:E'.
  2:{ exfalso. vm_compute in E. injection E as <-. vm_compute in E'. discriminate. }
  exists ts', (2, 3). split; [exact rc_computed|]. split; [exact rc_recorded|]. split; [intros fl I; now apply rc_ok|]. split; [auto|]. split; [reflexivity|].
  split; [vm_compute; reflexivity|split; [auto|]]. 
  vm_compute in E. injection E as <-. vm_compute in E'. injection E' as <-. split; [reflexivity|split; [reflexivity|]]. vm_compute. discriminate.
Qed.

Print Assumptions C33_recorded_iff.
Print Assumptions C39_fixed_recorded.
Print Assumptions C39_skipped_refuted.
