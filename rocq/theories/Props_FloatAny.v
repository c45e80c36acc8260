(** Property C80: with rounding, whatever the stack, the output stays the measured
    phase up to whole cycles and a small error. *)
From Verif Require Import Base BaseLemmas PoolProofs GraphModel GraphSpec GraphProofs Hop3Proofs CertSolver McfModel McfSpec PhaseProofs EmcfModel EmcfSpec CubeProofs StripProofs
  TileModel TileSpec OverlapModel OverlapSpec BulkModel BulkSpec BulkProofs MergeModel MergeSpec Props_Mcf Props_Merge
  SlcModel SlcSpec SlcProofs UnwrapTileModel UnwrapTileProofs PipelineSpec PipelineProofs Props_Pipeline ExactSpec ExactTileProofs ExactWitness Props_Exact
  FloatModel FloatMcfModel FloatMcfSpec FloatMcfRound FloatPhaseProofs FloatCubeModel FloatTimeProofs Props_FloatMcf Props_FloatCube
  DualProofs McfModel AdjustProofs DescribeProofs FloatMergeModel FloatMergeSpec FloatMergeRun Props_FloatMerge FloatTileModel FloatTileSpec FloatRunModel FloatRunProofs Props_FloatRun
  FloatAnySpec FloatAnyProofs FloatAnyTile FloatAnyRun.
From Coq Require Import String.
From Coq Require Import List Sorting.Sorted ZifyBool Lqa.
Import ListNotations.
Set Default Goal Selector "!".
Local Open Scope Q_scope.
Opaque twopi.
Local Notation num := Props_FloatMcf.num.

(** Error of the output where no value on file exceeds [B] and the output does not
    exceed [Y]. *)
Definition any_err (u w M K B Y : Q) (L : nat) : Q := any_tile u w M K B L + 12 * u * (B + 2 * Y + 10).

Lemma near_ifg_trans e e' st d1 d2 x y y' : near_cong e' y' y -> near_ifg e st d1 d2 x y -> near_ifg (e + e') st d1 d2 x y'.
Proof.
  intros [z Z] (a & b & Ea & Eb & k & W). exists a, b. split; [exact Ea|]. split; [exact Eb|]. exists (k + z)%Z. unfold within in *. rewrite inject_Z_add.
  apply abs_le in Z, W. apply abs_le. set (z1 := inject_Z z) in *. set (z2 := inject_Z k) in *. clearbody z1 z2. lra.
Qed.
Lemma near_ifg_le e e' st d1 d2 x y : e <= e' -> near_ifg e st d1 d2 x y -> near_ifg e' st d1 d2 x y.
Proof. intros H (a & b & Ea & Eb & N). exists a, b. split; [exact Ea|]. split; [exact Eb|]. now apply near_cong_le with e. Qed.

(** The solver on a cube of any data: value [v] of row [n] is the phase of that
    interferogram at the point, less that of the first point, up to whole cycles. *)
Theorem C80_cube F u w M smcf K gs gt e tsched ssched cpu is_ifg c0 U L :
  formats_ok F u w -> 0 <= M -> 200 * u * (M + 1) <= 1 -> w <= 1 # 100 -> (0 <= K)%Z -> flows_within K smcf ->
  planar gs -> planar gt -> make_solver gs = Ok (em_space e) -> make_solver gt = Ok (em_time e) ->
  (forall b l, Permutation (tsched b l) l) -> (forall l, Permutation (ssched l) l) -> (0 < links_per_batch (em_set e))%nat ->
  (forall row x, In row (cu_data c0) -> In x row -> - M <= x <= M) ->
  classify e c0 = Ok is_ifg -> depth_le (g_links gs) (g_npoints gs) L ->
  unwrap_cube_fl F smcf tsched ssched cpu e c0 = Ok U ->
  length U = length (g_links gt) /\
  forall n, (n < length (g_links gt))%nat -> length (nth n U []) = g_npoints gs /\
    forall B, (forall y, In y (nth n U []) -> - B <= y <= B) ->
    forall v, (v < g_npoints gs)%nat ->
      near_cong (any_cube u w M (inject_Z K) B L) (nth v (nth n U []) 0)
        (ifg_phase is_ifg (g_links gt) (cu_data c0) n v - ifg_phase is_ifg (g_links gt) (cu_data c0) n 0).
Proof.
  intros HF HM0 Hu Hw HK Hs Pgs Pgt Es Et Ht Hss Hl HM Ec HD E.
  exact (cube_any F u w HF M HM0 Hu Hw smcf K HK Hs gs gt Pgs Pgt e (solver_of _ _ Pgs Es) (solver_of _ _ Pgt Et) tsched ssched cpu Ht Hss Hl is_ifg (cu_data c0) HM
    c0 U L eq_refl Ec E HD).
Qed.

Section Any.
  (* the formats: of the unwrapping, of the merge, of offsets and comparisons; nothing is asked of the last two *)
  Context (F : formats) (fl fd fc : Q -> Q) (u w M : Q) (K : Z) (L : nat).
  Hypothesis HF : formats_ok F u w.
  Hypothesis Hfl : rounding fl u.
  Hypothesis HM0 : 0 <= M.
  Hypothesis Hu : 200 * u * (M + 1) <= 1.
  Hypothesis Hu3 : u <= 1 # 1000.
  Hypothesis Hw : w <= 1 # 100.
  Hypothesis HK : (0 <= K)%Z.
  (* the solvers, the triangulation and the worker pools; the solvers of the merge are arbitrary *)
  Context (smcf : list arc -> list Z -> option (list Z))
          (triangles : list (Z * Z) -> res (list (nat * nat * nat)))
          (tsched : nat -> list nat -> list nat) (ssched : list nat -> list nat) (cpu : Z)
          (set : settings) (tdist tcent : list Z) (sdist scent : list (Z * Z) -> list Z)
          (comps : nat -> list (nat * nat) -> list nat) (minp : Z) (mip_solve : mip -> option (list Z)) (lsq : list (list Q) -> list Q -> list Q)
          (solve : list (Z * Z) -> list bool -> list Q -> res (list Q)).
  Hypothesis Hsm : flows_within K smcf.
  Hypothesis Htri : forall pts tri, triangles pts = Ok tri -> planar (delaunay (length pts) tri).
  Hypothesis Ht : forall b l, Permutation (tsched b l) l.
  Hypothesis Hs : forall l, Permutation (ssched l) l.
  Hypothesis Hl : (0 < links_per_batch set)%nat.
  (* the stack and the tiles *)
  Context (st : slc_stack Q) (t : tileset) (gt : graph).
  Hypothesis Hgt : hop3 (Z.of_nat (length (st_files st))) = Ok gt.
  Hypothesis Hst : NoDup (map fst (st_files st)).
  Hypothesis Hbox : forall q, (q < ntiles t)%nat -> (0 <= xmin (tile_at t q))%Z /\ (0 <= ymin (tile_at t q))%Z.
  Hypothesis HM : samples_within M st.
  Hypothesis Hdepth : forall q, (q < ntiles t)%nat -> depth_by L triangles st (tile_at t q).
  Notation unwrap := (unwrap_one_tile_fl F smcf triangles tsched ssched cpu set tdist tcent sdist scent st gt).
  Notation date i := (nth i (st_dates st) ""%string).

  (** The file of a tile. *)
  Theorem C80_tile q f k i j B p x : (q < ntiles t)%nat -> unwrap (tile_at t q) = Ok f -> file_within B f ->
    nth_error (g_links gt) k = Some (i, j) -> nth_error (file_coords f) p = Some x ->
    near_ifg (any_tile u w M (inject_Z K) B L) st (date i) (date j) x (MergeSpec.phase_of f k p).
  Proof using HF HM0 Hu Hw HK Hsm Htri Ht Hs Hl Hgt Hst Hbox HM Hdepth.
    intros Bq Ef HB Ek Ex. pose proof Hgt as Hgt'. apply hop3_is in Hgt' as [N4 Egt].
    assert (planar gt) as Pgt by (rewrite Egt; apply hop3_planar; auto).
    assert (length (st_files st) = g_npoints gt) as Ld by (rewrite Egt; reflexivity).
    destruct (tile_any F u w M HF HM0 Hu Hw smcf K HK Hsm triangles tsched ssched cpu set tdist tcent sdist scent Htri Ht Hs Hl st gt (tile_at t q) L
      Pgt Hst Ld (Hbox q Bq) HM (Hdepth q Bq) f Ef) as (_ & _ & _ & _ & _ & H). now apply (H k i j B Ek HB).
  Qed.

  (** The output. *)
  Theorem C80_run k i j B r x : nth_error (g_links gt) k = Some (i, j) ->
    (forall q f, (q < ntiles t)%nat -> unwrap (tile_at t q) = Ok f -> file_within B f) ->
    band_fl fl fd fc unwrap comps minp mip_solve lsq solve t (stack_mask st) k = Ok r -> in_shape (shape t) x = true ->
    ((exists q, (q < ntiles t)%nat /\ has_pixel (tile_at t q) (fst x) (snd x)) /\ valid_pixel st x /\
       exists y, pixel r x = Some y /\
       forall Y, - Y <= y <= Y -> near_ifg (any_err u w M (inject_Z K) B Y L) st (date i) (date j) x y) \/
    (~ ((exists q, (q < ntiles t)%nat /\ has_pixel (tile_at t q) (fst x) (snd x)) /\ valid_pixel st x) /\ pixel r x = None).
  Proof using All.
    intros Ek HB Er Hx. unfold band_fl in Er. destruct (map_res unwrap (tiles t)) as [files|] eqn:Ef; [|discriminate]. cbn [bind] in Er.
    apply map_res_nth in Ef as [Lf Kf]. pose proof Hgt as Hgt'. apply hop3_is in Hgt' as [N4 Egt].
    assert (planar gt) as Pgt by (rewrite Egt; apply hop3_planar; auto).
    assert (length (st_files st) = g_npoints gt) as Ld by (rewrite Egt; reflexivity). clear Egt.
    set (bands := length (g_links gt)) in *. assert (k < bands)%nat as Bk by (apply nth_error_Some; congruence).
    assert (forall q, (q < ntiles t)%nat -> unwrap (tile_at t q) = Ok (nth q files dfile)) as Hun.
    { intros q Bq. unfold tile_at. now apply Kf. }
    assert (forall g, In g files -> exists q, (q < ntiles t)%nat /\ unwrap (tile_at t q) = Ok g) as HI.
    { intros g I. apply (In_nth _ _ dfile) in I as (q & Bq & <-). rewrite Lf in Bq. exists q. split; [exact Bq|now apply Hun]. }
    assert (forall q g, (q < ntiles t)%nat -> unwrap (tile_at t q) = Ok g -> tile_bands bands g /\ StronglySorted before (tf_points g) /\
      (forall x, In x (file_coords g) <-> valid_pixel st x /\ has_pixel (tile_at t q) (fst x) (snd x)) /\
      (file_coords g <> [] -> forall o, In o (tf_offset g) -> - (5) <= o <= 5)) as HT.
    { intros q g Bq Eg. destruct (tile_any F u w M HF HM0 Hu Hw smcf K HK Hsm triangles tsched ssched cpu set tdist tcent sdist scent Htri Ht Hs Hl st gt (tile_at t q) L
        Pgt Hst Ld (Hbox q Bq) HM (Hdepth q Bq) g Eg) as (_ & T1 & T2 & T3 & T4 & _). auto. }
    destruct (merged_any fl fd fc u Hfl Hu3 comps minp mip_solve lsq solve t (stack_mask st) files bands k) with (r := r) (x := x)
      as [[No E]|(g & p & y & Ig & Ep & Ey & Hy)]; auto.
    - intros g I. destruct (HI g I) as (q & Bq & Eq). now apply (HT q g Bq Eq).
    - intros g I. destruct (HI g I) as (q & Bq & Eq). destruct (HT q g Bq Eq) as (_ & T2 & _). unfold file_coords.
      apply FinFun.Injective_map_NoDup; [|now apply before_nodup]. intros [a b] [a' b'] H. cbn [fst snd] in H. injection H as H1 H2. f_equal; lia.
    - right. split; [|exact E]. intros [(q & Bq & Hq) V]. apply (No (nth q files dfile)); [apply nth_In; now rewrite Lf|].
      apply (HT q _ Bq (Hun q Bq)). auto.
    - left. destruct (HI g Ig) as (q & Bq & Eq). destruct (HT q g Bq Eq) as ((T1 & T2 & T3) & _ & T4 & T5).
      assert (In x (file_coords g)) as Ix by (eapply nth_error_In; eauto). destruct (proj1 (T4 x) Ix) as [V Hq].
      split; [eauto|]. split; [exact V|]. exists y. split; [exact Ey|]. intros Y BY. unfold any_err.
      apply near_ifg_trans with (MergeSpec.phase_of g k p); [|exact (C80_tile q g k i j B p x Bq Eq (HB q g Bq Eq) Ek Ep)].
      assert (p < length (tf_points g))%nat as Bp.
      { assert (p < length (file_coords g))%nat as X by (apply nth_error_Some; congruence). unfold file_coords in X. now rewrite map_length in X. }
      apply near_cong_le with (12 * u * (B + 5 + 2 * Y + 5)).
      { ring_simplify. apply Qle_refl. }
      apply Hy; [|exact BY]. unfold MergeSpec.phase_of, at_.
      assert (- B <= nth p (nth k (tf_uw g) []) 0 <= B) as H1.
      { assert (In (nth k (tf_uw g) []) (tf_uw g)) as I1 by (apply nth_In; lia). apply (HB q g Bq Eq _ _ I1). apply nth_In. now rewrite (T3 _ I1). }
      assert (- (5) <= nth k (tf_offset g) 0 <= 5) as H2 by (apply T5; [intros X; rewrite X in Ix; destruct Ix|apply nth_In; lia]).
      lra.
  Qed.
End Any.

(** In the formats of spurt, for samples that are angles, at most ten cycles on an
    arc and phases up to 1000: an error of at most three hundred thousandths of a
    radian, and two millionths for each side between a point and the first. *)
Theorem C80_single smcf triangles tsched ssched cpu set tdist tcent sdist scent comps minp mip_solve lsq solve st t gt L k i j r x y :
  flows_within 10 smcf -> (forall pts tri, triangles pts = Ok tri -> planar (delaunay (length pts) tri)) ->
  (forall b l, Permutation (tsched b l) l) -> (forall l, Permutation (ssched l) l) -> (0 < links_per_batch set)%nat ->
  hop3 (Z.of_nat (length (st_files st))) = Ok gt -> NoDup (map fst (st_files st)) ->
  (forall q, (q < ntiles t)%nat -> (0 <= xmin (tile_at t q))%Z /\ (0 <= ymin (tile_at t q))%Z) -> samples_within 4 st ->
  (forall q, (q < ntiles t)%nat -> depth_by L triangles st (tile_at t q)) ->
  let unwrap := unwrap_one_tile_fl single smcf triangles tsched ssched cpu set tdist tcent sdist scent st gt in
  nth_error (g_links gt) k = Some (i, j) ->
  (forall q f, (q < ntiles t)%nat -> unwrap (tile_at t q) = Ok f -> file_within 1000 f) ->
  band_fl rnd32 rnd64 rnd64 unwrap comps minp mip_solve lsq solve t (stack_mask st) k = Ok r ->
  in_shape (shape t) x = true -> pixel r x = Some y -> - 1000 <= y <= 1000 ->
  near_ifg ((3 # 100000) * num L + (3 # 1000)) st (nth i (st_dates st) ""%string) (nth j (st_dates st) ""%string) x y.
Proof.
  intros Hsm Htri Ht Hs Hl Hgt Hst Hbox HM HD unwrap Ek HB Er Hx Ey BY.
  destruct (C80_run single rnd32 rnd64 rnd64 u32 u64 4 10 L C69_formats) with (smcf := smcf) (triangles := triangles) (tsched := tsched) (ssched := ssched) (cpu := cpu) (set := set)
    (tdist := tdist) (tcent := tcent) (sdist := sdist) (scent := scent) (comps := comps) (minp := minp) (mip_solve := mip_solve) (lsq := lsq) (solve := solve)
    (st := st) (t := t) (gt := gt) (k := k) (i := i) (j := j) (B := 1000) (r := r) (x := x) as [(_ & _ & y' & Ey' & H)|[_ E]]; auto.
  - exact (fo_d _ _ _ C69_formats).
  - discriminate.
  - vm_compute; discriminate.
  - vm_compute; discriminate.
  - vm_compute; discriminate.
  - lia.
  - rewrite Ey in Ey'. injection Ey' as <-. apply near_ifg_le with (2 := H 1000 BY). unfold any_err, any_tile, any_cube.
    assert (any_link u32 u64 4 (inject_Z 10) + u64 * (7 * 1000 + 2 * (7 + 8 * inject_Z 10)) <= 3 # 100000) as A by (vm_compute; discriminate).
    assert (2 * u32 * 1000 + u32 * (20 * (4 + 1) + 4) + 12 * u32 * (1000 + 2 * 1000 + 10) <= 3 # 1000) as C by (vm_compute; discriminate).
    assert (0 <= num L) as L0 by (unfold num; change 0 with (inject_Z 0); rewrite <- Zle_Qle; lia).
    apply (Qmult_le_compat_r _ _ (num L)) in A; [|exact L0].
    set (a := any_link _ _ _ _ + _) in *. clearbody a. rewrite (Qmult_comm (num L)). lra.
  - congruence.
Qed.

(** * A case *)

(** Seven by two pixels in two tiles, phases with no regularity, and a solver that
    can be run. *)
Definition wild_image (t : nat) : list (list Q) :=
  map (fun r => map (fun c => Z.of_nat ((t * (r * r + 3 * c + 5 * t)) mod 13) - 6 # 2)%Z [0; 1]%nat) (seq 0 7).
Definition wild_stack : slc_stack Q :=
  SlcStack [("20200101", None); ("20200113", Some "a"); ("20200125", Some "b"); ("20200206", Some "c")]%string
    (map (fun r => [Some (4 # 5); if (r =? 6)%nat then None else Some (4 # 5)]) (seq 0 7)) (1 # 2)
    (fun f => if String.eqb f "a" then Some (wild_image 1) else if String.eqb f "b" then Some (wild_image 2) else if String.eqb f "c" then Some (wild_image 3) else None).
Definition wild_tiles : tileset := TileSet (7, 2)%Z [BBox 0 0 6 2; BBox 0 0 7 2].
Definition capped (K : Z) (arcs : list arc) (supply : list Z) : option (list Z) :=
  match cert_smcf arcs supply with
  | Some f => if forallb (fun x => (0 <=? x) && (x <=? K))%Z f then Some f else None
  | None => None
  end.
Definition wild_unwrap (gt : graph) := unwrap_one_tile_fl single (capped 10) px_triangles (fun _ l => rev l) (@rev nat) 4 (Settings Constant Constant 2 0 0) [] []
  (fun _ => []) (fun _ => []) wild_stack gt.

Lemma capped_within K : flows_within K (capped K).
Proof.
  intros arcs supply f x. unfold capped. destruct (cert_smcf arcs supply) as [f'|]; [|discriminate]. destruct (forallb _ _) eqn:E; [|discriminate].
  intros [= <-] I. rewrite forallb_forall in E. specialize (E x I). lia.
Qed.

(** There are residues in time. *)
Example wild_residues : match SlcModel.read_tile 0%Q wild_stack (BBox 0 0 7 2) with
  | Ok wrap => existsb (fun l => existsb (fun z => negb (z =? 0)%Z)
      (time_residues (dual_solver (hop3_graph 4)) (link_column false (hop3_link_list 4) (cu_data (cube_of wrap)) l))) [(0, 1); (0, 2); (4, 6); (6, 8)]%nat
  | Err _ => false end = true.
Proof. Transparent twopi. vm_compute. reflexivity. Qed.
Opaque twopi.

Lemma wild_image_at t x v : image_at (wild_image t) x = Some v -> - (4) <= v <= 4.
Proof.
  unfold image_at. destruct (_ && _) eqn:B; [|discriminate]. unfold pixel_at, wild_image. rewrite nth_error_map.
  destruct (nth_error (seq 0 7) (Z.to_nat (fst x))) as [r|] eqn:Er; [|discriminate]. cbn [option_map].
  rewrite nth_error_map. destruct (nth_error [0; 1]%nat (Z.to_nat (snd x))) as [c|] eqn:Ec; [|discriminate]. cbn [option_map].
  set (n := (t * (r * r + 3 * c + 5 * t))%nat). pose proof (Nat.mod_upper_bound n 13 ltac:(lia)) as H. set (m := (n mod 13)%nat) in *. clearbody m.
  match goal with |- Some ?a = _ -> _ => set (z := a) end. intros [= <-]. subst z. unfold Qle. cbn [Qnum Qden Qopp]. lia.
Qed.
Example wild_samples : samples_within 4 wild_stack.
Proof.
  intros d x v. unfold slc_phase. cbn [wild_stack st_files dict_get fst snd].
  repeat (destruct (String.eqb _ _); [first [apply wild_image_at|intros [= <-]; split; vm_compute; discriminate]|]). discriminate.
Qed.
Example wild_depth q : (q < 2)%nat -> depth_by 20 px_triangles wild_stack (tile_at wild_tiles q).
Proof.
  intros Bq pts tri P E. unfold px_triangles in E. destruct (Nat.ltb_spec (length pts) 3); [discriminate|]. injection E as <-.
  assert (forall b, (0 <= xmin b)%Z -> (0 <= ymin b)%Z -> tile_pixels wild_stack b pts -> length pts = length (nonzero (tile_mask wild_stack b))) as K.
  { intros b B1 B2 P'. f_equal. eapply tile_pixels_unique; [exact P'|]. now apply mask_pixels. }
  assert (length pts <= 20)%nat as L.
  { destruct q as [|[|]]; try lia; (apply K in P; [rewrite P; apply Nat.leb_le; vm_compute; reflexivity|cbn; lia|cbn; lia]). }
  intros v Hv. destruct (strip_depth (length pts) ltac:(lia) v Hv) as (n & Bn & Hn). exists n. split; [lia|exact Hn].
Qed.

(** One run of the workflow: the values on file and those of the output are small. *)
Definition small_file (f : tile_file) : bool := forallb (forallb (fun x => Qle_bool (- (1000)) x && Qle_bool x 1000)) (tf_uw f).
Definition wild_good (gt : graph) : bool :=
  match map_res (wild_unwrap gt) (tiles wild_tiles) with
  | Ok files => forallb small_file files &&
      match merged_fl rnd32 rnd64 rnd64 labels_of 11 exact_mip exact_lsq fm_solve wild_tiles (stack_mask wild_stack) files 4 with
      | Ok r => match pixel r (6, 0)%Z with Some y => Qle_bool (- (1000)) y && Qle_bool y 1000 | None => false end
      | Err _ => false
      end
  | Err _ => false
  end.
Transparent twopi.
Lemma wild_runs : wild_good (hop3_graph 4) = true.
Proof. vm_cast_no_check (eq_refl true). Qed.
Opaque twopi.

Lemma small_within f : small_file f = true -> file_within 1000 f.
Proof.
  intros H row x I J. unfold small_file in H. rewrite forallb_forall in H. specialize (H row I). rewrite forallb_forall in H. specialize (H x J).
  apply andb_prop in H as [H1 H2]. apply Qle_bool_iff in H1, H2. auto.
Qed.

(** The hypotheses hold of this stack, the run ends well and the theorem gives the
    phase of one pixel up to whole cycles. *)
Example C80_witness : exists gt r y, hop3 4 = Ok gt /\
  band_fl rnd32 rnd64 rnd64 (wild_unwrap gt) labels_of 11 exact_mip exact_lsq fm_solve wild_tiles (stack_mask wild_stack) 4 = Ok r /\
  pixel r (6, 0)%Z = Some y /\ near_ifg (1 # 250) wild_stack "20200113" "20200206" (6, 0)%Z y /\ pixel r (6, 1)%Z = None.
Proof.
  destruct (hop3 4) as [gt|] eqn:Egt; [|discriminate]. exists gt.
  assert (wild_good gt = true) as G by (pose proof Egt as E; apply (hop3_is 4) in E as [_ ->]; exact wild_runs).
  unfold wild_good in G. destruct (map_res (wild_unwrap gt) (tiles wild_tiles)) as [files|] eqn:Ef; [|discriminate]. apply andb_prop in G as [G1 G2].
  destruct (merged_fl _ _ _ _ _ _ _ _ _ _ _ _) as [r|] eqn:Er; [|discriminate]. destruct (pixel r (6, 0)%Z) as [y|] eqn:Ey; [|discriminate].
  apply andb_prop in G2 as [Y1 Y2]. apply Qle_bool_iff in Y1, Y2.
  assert (band_fl rnd32 rnd64 rnd64 (wild_unwrap gt) labels_of 11 exact_mip exact_lsq fm_solve wild_tiles (stack_mask wild_stack) 4 = Ok r) as Eb.
  { unfold band_fl. rewrite Ef. exact Er. }
  exists r, y. split; [reflexivity|]. split; [exact Eb|]. split; [exact Ey|].
  assert (forall q f, (q < ntiles wild_tiles)%nat -> wild_unwrap gt (tile_at wild_tiles q) = Ok f -> file_within 1000 f) as HB.
  { intros q f Bq Eq. apply map_res_nth in Ef as [Lf Kf]. specialize (Kf q (BBox 0 0 0 0) dfile Bq). unfold tile_at in Eq. rewrite Eq in Kf. apply ok_inj in Kf. subst f.
    apply small_within. rewrite forallb_forall in G1. apply G1, nth_In. rewrite Lf. exact Bq. }
  assert (nth_error (g_links gt) 4 = Some (1, 3)%nat) as Ek by (apply (hop3_is 4) in Egt as [_ ->]; reflexivity).
  assert (NoDup (map fst (st_files wild_stack))) as Hst by (repeat constructor; cbn; intuition discriminate).
  assert (forall q, (q < ntiles wild_tiles)%nat -> (0 <= xmin (tile_at wild_tiles q))%Z /\ (0 <= ymin (tile_at wild_tiles q))%Z) as Hbox.
  { intros q Bq. cbn in Bq. destruct q as [|[|]]; try lia; cbn; lia. }
  split.
  - apply near_ifg_le with ((3 # 100000) * num 20 + (3 # 1000)); [vm_compute; discriminate|].
    apply (C80_single (capped 10) px_triangles (fun _ l => rev l) (@rev nat) 4 (Settings Constant Constant 2 0 0) [] [] (fun _ => []) (fun _ => [])
      labels_of 11 exact_mip exact_lsq fm_solve wild_stack wild_tiles gt 20 4 1 3 r); auto.
    + apply capped_within.
    + apply px_planar.
    + intros _ l. apply Permutation_sym, Permutation_rev.
    + intros l. apply Permutation_sym, Permutation_rev.
    + cbn; lia.
    + apply wild_samples.
    + apply wild_depth.
  - destruct (C80_run single rnd32 rnd64 rnd64 u32 u64 4 10 20 C69_formats (fo_d _ _ _ C69_formats) ltac:(discriminate) ltac:(vm_compute; discriminate) ltac:(vm_compute; discriminate)
      ltac:(vm_compute; discriminate) ltac:(lia) (capped 10) px_triangles (fun _ l => rev l) (@rev nat) 4 (Settings Constant Constant 2 0 0) [] [] (fun _ => []) (fun _ => [])
      labels_of 11 exact_mip exact_lsq fm_solve (capped_within 10) px_planar (fun _ l => Permutation_sym (Permutation_rev l)) (fun l => Permutation_sym (Permutation_rev l))
      ltac:(cbn; lia) wild_stack wild_tiles gt Egt Hst Hbox wild_samples wild_depth 4 1 3 1000 r (6, 1)%Z Ek HB Eb eq_refl) as [(_ & (z & V & _) & _)|[_ E]]; [|exact E].
    vm_compute in V. discriminate V.
Qed.

Print Assumptions C80_cube.
Print Assumptions C80_tile.
Print Assumptions C80_run.
Print Assumptions C80_single.
