(** Property C71: how far rounding takes the output of the whole workflow from the
    true phase. *)
From Verif Require Import Base BaseLemmas PoolProofs GraphModel GraphSpec GraphProofs Hop3Proofs McfModel McfSpec PhaseProofs EmcfModel StripProofs
  TileModel TileSpec OverlapModel OverlapSpec BulkModel BulkSpec BulkProofs MergeModel MergeSpec AdjustProofs DescribeProofs Props_Merge
  SlcModel SlcSpec SlcProofs UnwrapTileModel UnwrapTileProofs PipelineSpec PipelineProofs Props_Pipeline ExactSpec ExactTileProofs ExactWitness Props_Exact
  FloatModel FloatMcfModel FloatMcfSpec FloatMcfRound FloatPhaseProofs FloatResidueProofs FloatCubeModel Props_FloatMcf Props_FloatCube Props_FloatSmooth
  FloatMergeModel FloatMergeSpec FloatMergeRun Props_FloatMerge FloatTileModel FloatTileSpec FloatTileProofs FloatRunModel FloatRunProofs.
From Coq Require Import String.
From Coq Require Import List Sorting.Sorted ZifyBool Lqa.
Import ListNotations.
Set Default Goal Selector "!".
Local Open Scope Q_scope.
Opaque twopi.
Local Notation num := Props_FloatMcf.num.

(** No intermediate phase exceeds this, for true phases up to [P]. *)
Definition reach_of (P B : Q) : Q := 2 * P + B + 6.
(** Error of the output. *)
Definition run_err (u w M P B : Q) (L : nat) : Q := tile_err u w M B L + 11 * u * (reach_of P B + 3).

(** What is needed of the sizes: of an unwrapped tile, of a comparison of two
    tiles and of the passes of the adjustment, where at most [N] tiles overlap. *)
Record run_sizes (u w M P B K : Q) (L N : nat) : Prop := {
  rs_B : 0 <= B;
  rs_P : 0 <= P;
  rs_u : u <= 1 # 1000;
  rs_hop : (num L + 1) * hop_err u w M 4 B <= 1;
  rs_R : reach_of P B <= 100000;
  rs_over : tile_err u w M B L + 5 * u * reach_of P B <= 1 # 40;
  rs_N : inject_Z (Z.of_nat N) * u <= 1 # 100;
  rs_uR : u * (reach_of P B + 2) <= 1 # 100;
  rs_h : 2 * u * inject_Z (Z.of_nat N) * (reach_of P B + 10 * K) <= 1 # 10;
  rs_drift : drift K (2 * u * inject_Z (Z.of_nat N) * (reach_of P B + 10 * K)) (N - 1)
    (tile_err u w M B L + 6 * u * (reach_of P B + 1)) <= 1
}.

Lemma covered_files N t files : length files = ntiles t -> covered_at_most N t ->
  (forall q x, (q < ntiles t)%nat -> In x (file_coords (nth q files dfile)) -> has_pixel (tile_at t q) (fst x) (snd x)) ->
  overlap_at_most N files.
Proof.
  intros Hl H Hx x. rewrite <- (map_id files) at 1. rewrite <- (map_seq_nth (fun f => f) files dfile).
  set (p := fun f => existsb (point_eqb x) (file_coords f)).
  assert (forall l, length (filter p (map (fun i => nth i files dfile) l)) = length (filter (fun i => p (nth i files dfile)) l)) as ->.
  { induction l as [|i l IH]; cbn [map filter]; [reflexivity|]. destruct (p (nth i files dfile)); cbn [length]; now rewrite IH. }
  apply (H x); [apply NoDup_filter, seq_NoDup|]. intros q I. apply filter_In in I as [I1 I2]. apply in_seq in I1. split; [lia|].
  apply existsb_exists in I2 as (y & Iy & Ey). assert (x = y) as -> by (destruct x, y; unfold point_eqb in Ey; cbn [fst snd] in Ey; f_equal; lia).
  apply Hx; [lia|exact Iy].
Qed.

Lemma hop3_triangles n gt : hop3 (Z.of_nat n) = Ok gt -> forall c, In c (g_cycles gt) -> length c = 3%nat.
Proof.
  intros E c I. apply hop3_is in E as [_ ->]. cbn [hop3_graph g_cycles] in I. apply in_map_iff in I as ([[a b] d] & <- & _). reflexivity.
Qed.

Lemma tile_err_nonneg u w M B L : 0 <= u -> 0 <= w -> 0 <= M -> 0 <= B -> 0 <= tile_err u w M B L.
Proof.
  intros U W HM HB. assert (0 <= u * M /\ 0 <= u * B /\ 0 <= w * B) as (A1 & A2 & A3) by (repeat split; now apply Qmult_le_0_compat).
  unfold tile_err, cube_err. assert (0 <= hop_err u w M 4 B) as Hh by (unfold hop_err, grad_err, diff_err; lra).
  assert (0 <= num L * hop_err u w M 4 B) by (apply Qmult_le_0_compat; [unfold num; change 0 with (inject_Z 0); rewrite <- Zle_Qle; lia|exact Hh]). lra.
Qed.

Section Run.
  (* the formats: of the unwrapping, of the merge, of offsets and comparisons *)
  Context (F : formats) (fl fd fc : Q -> Q) (u w v M P B K : Q) (L N : nat).
  Hypothesis HF : tile_formats F u w M.
  Hypothesis Hfl : rounding fl u.
  Hypothesis Hfd : rounding fd v.
  Hypothesis Hfc : rounding fc v.
  Hypothesis Hvu : v <= u.
  Hypothesis HK : 1 <= K.
  Hypothesis Hsz : run_sizes u w M P B K L N.
  (* the solvers, the triangulation and the worker pools; the network solver is arbitrary *)
  Context (smcf : list arc -> list Z -> option (list Z))
          (triangles : list (Z * Z) -> res (list (nat * nat * nat)))
          (tsched : nat -> list nat -> list nat) (ssched : list nat -> list nat) (cpu : Z)
          (set : settings) (tdist tcent : list Z) (sdist scent : list (Z * Z) -> list Z)
          (comps : nat -> list (nat * nat) -> list nat) (minp : Z) (mip_solve : mip -> option (list Z)) (lsq : list (list Q) -> list Q -> list Q)
          (solve : list (Z * Z) -> list bool -> list Q -> res (list Q)).
  Hypothesis Htri : forall pts tri, triangles pts = Ok tri -> planar (delaunay (length pts) tri).
  Hypothesis Ht : forall b l, Permutation (tsched b l) l.
  Hypothesis Hs : forall l, Permutation (ssched l) l.
  Hypothesis Hl : (0 < links_per_batch set)%nat.
  Hypothesis Hmip : mip_sound mip_solve.
  Hypothesis Hcomp : components_ok comps.
  Hypothesis Hsolve : amplifies K solve.
  (* the stack and the tiles *)
  Context (st : slc_stack Q) (t : tileset) (gt : graph) (Phi : string -> Z * Z -> Q) (h : Z) (wd : Z).
  Hypothesis Hgt : hop3 (Z.of_nat (length (st_files st))) = Ok gt.
  Hypothesis Hst : NoDup (map fst (st_files st)).
  Hypothesis Hcoh : coh_shape st h wd.
  Hypothesis Hshape : shape t = (h, wd).
  Hypothesis Hfit : (h * wd <= 2 ^ 32)%Z.
  Hypothesis Hbox : forall q, (q < ntiles t)%nat -> box_in_image (h, wd) (tile_at t q).
  Hypothesis Hcov : covered_at_most N t.
  Hypothesis Hlinked : forall q q' x, (q < ntiles t)%nat -> (q' < ntiles t)%nat -> valid_pixel st x ->
    has_pixel (tile_at t q) (fst x) (snd x) -> has_pixel (tile_at t q') (fst x) (snd x) -> linked st minp t q q'.
  (* the history *)
  Hypothesis Hhist : history st Phi.
  Hypothesis HM : samples_within M st.
  Hypothesis HP : forall i j x, is_ifg_of st i j -> valid_pixel st x -> Qabs (ifg_at st Phi i j x) <= P.
  Hypothesis Htiles : forall q, (q < ntiles t)%nat ->
    smooth_by (margin u M) triangles st Phi (tile_at t q) /\ varies_by B st Phi (tile_at t q) /\ depth_by L triangles st (tile_at t q).

  Notation unwrap := (unwrap_one_tile_fl F smcf triangles tsched ssched cpu set tdist tcent sdist scent st gt).

  (** Wherever the workflow has an output, it is the true phase up to [run_err] and
      whole cycles, the same number for linked tiles. It has one at the valid pixels
      of the tiles. *)
  Theorem C71_run k i j r : nth_error (g_links gt) k = Some (i, j) ->
    band_fl fl fd fc unwrap comps minp mip_solve lsq solve t (stack_mask st) k = Ok r ->
    exists c : nat -> Z, (forall a b, (a < ntiles t)%nat -> linked st minp t a b -> c a = c b) /\
      (forall q x, (q < ntiles t)%nat -> valid_pixel st x -> has_pixel (tile_at t q) (fst x) (snd x) ->
         exists y, pixel r x = Some y /\ within (run_err u w M P B L) y (ifg_at st Phi i j x + twopi * inject_Z (c q))) /\
      (forall x, in_shape (h, wd) x = true ->
         (forall q, (q < ntiles t)%nat -> ~ (valid_pixel st x /\ has_pixel (tile_at t q) (fst x) (snd x))) -> pixel r x = None).
  Proof using All.
    intros Ek Er. unfold band_fl in Er. destruct (map_res unwrap (tiles t)) as [files|] eqn:Ef; [|discriminate]. cbn [bind] in Er.
    apply map_res_nth in Ef as [Lf Kf]. destruct Hsz as [Z1 Z2 Z3 Z4 Z5 Z6 Z7 Z8 Z9 Z10].
    pose proof Hgt as Hgt'. apply hop3_is in Hgt' as [N4 Egt].
    assert (planar gt) as Pgt by (rewrite Egt; apply hop3_planar; auto).
    assert (length (st_files st) = g_npoints gt) as Ld by (rewrite Egt; reflexivity).
    assert (forall a b, In (a, b) (g_links gt) -> is_ifg_of st a b) as Lk.
    { intros a b I. rewrite Egt in I. unfold is_ifg_of. rewrite dates_length. cbn [g_links hop3_graph] in I. now apply hop3_link_list_In in I. }
    pose proof HF as [F1 F2 _ _ _ _ _]. pose proof (rd_nonneg _ _ Hfl) as U0. pose proof (rd_nonneg _ _ (fo_e _ _ _ F1)) as W0.
    set (bands := length (g_links gt)). set (e := tile_err u w M B L). set (R := reach_of P B). set (C := B + 5).
    assert (forall q, (q < ntiles t)%nat -> unwrap (tile_at t q) = Ok (nth q files dfile)) as Hu.
    { intros q Bq. unfold tile_at. now apply Kf. }
    assert (forall q, (q < ntiles t)%nat -> tf_tile (nth q files dfile) = tile_at t q /\ tile_bands bands (nth q files dfile) /\ StronglySorted before (tf_points (nth q files dfile)) /\
      (forall x, In x (file_coords (nth q files dfile)) <-> valid_pixel st x /\ has_pixel (tile_at t q) (fst x) (snd x)) /\
      forall k i j, nth_error (g_links gt) k = Some (i, j) -> exists m : Z,
        forall p x, nth_error (file_coords (nth q files dfile)) p = Some x ->
          within e (MergeSpec.phase_of (nth q files dfile) k p) (ifg_at st Phi i j x + twopi * inject_Z m) /\ Qabs (ifg_at st Phi i j x + twopi * inject_Z m) <= C) as HT.
    { intros q Bq. destruct (Htiles q Bq) as (S1 & S2 & S3). pose proof (Hbox q Bq) as Hb.
      apply (tile_fl F u w M B L HF smcf triangles tsched ssched cpu set tdist tcent sdist scent Htri Ht Hs Hl st gt (tile_at t q) Phi Pgt (hop3_triangles _ _ Hgt) Lk Hst Ld);
        auto. unfold box_in_image in Hb. lia. }
    set (ij := fun k => nth k (g_links gt) (0, 0)%nat). set (D := fun k x => ifg_at st Phi (fst (ij k)) (snd (ij k)) x).
    assert (forall k, (k < bands)%nat -> nth_error (g_links gt) k = Some (fst (ij k), snd (ij k))) as Hij.
    { intros k' Bk'. rewrite <- surjective_pairing. unfold ij. now apply nth_error_nth'. }
    destruct (choose (fun k (m : nat -> Z) => forall q, (q < ntiles t)%nat ->
        (forall p x, nth_error (file_coords (nth q files dfile)) p = Some x ->
           within e (MergeSpec.phase_of (nth q files dfile) k p) (D k x + twopi * inject_Z (m q)) /\ Qabs (D k x + twopi * inject_Z (m q)) <= C) /\
        Qabs (twopi * inject_Z (m q)) <= P + C) (fun _ => 0%Z) bands) as (m & Hm).
    { intros k' Bk'. apply (choose (fun q m =>
        (forall p x, nth_error (file_coords (nth q files dfile)) p = Some x ->
           within e (MergeSpec.phase_of (nth q files dfile) k' p) (D k' x + twopi * inject_Z m) /\ Qabs (D k' x + twopi * inject_Z m) <= C) /\
        Qabs (twopi * inject_Z m) <= P + C) 0%Z). intros q Bq. destruct (HT q Bq) as (_ & _ & _ & Hc & Hk). destruct (Hk _ _ _ (Hij k' Bk')) as (m & Hm).
      destruct (file_coords (nth q files dfile)) as [|x0 l] eqn:E0.
      - exists 0%Z. split; [intros p x E; destruct p; discriminate E|]. change (inject_Z 0) with 0. rewrite Qmult_0_r. change (Qabs 0) with 0. unfold C. lra.
      - exists m. split; [exact Hm|]. destruct (Hm 0%nat x0 eq_refl) as [_ H2]. apply abs_le in H2.
        assert (valid_pixel st x0) as V0 by (apply Hc; now left). pose proof (HP _ _ x0 (Lk _ _ (nth_error_In _ _ (Hij k' Bk'))) V0) as H1. apply abs_le in H1. apply abs_le. lra. }
    assert (forall x, valid_pixel st x -> in_shape (shape t) x = true) as Ins.
    { intros x (z & J & _). rewrite Hshape. apply (image_in _ h wd) in J; auto. unfold in_shape, in_image in *. cbn [fst snd] in *. lia. }
    assert (k < bands)%nat as Bk by (apply nth_error_Some; congruence).
    assert (ij k = (i, j)) as Eij by (unfold ij; now apply nth_error_nth).
    assert (0 <= e) as E0 by (apply tile_err_nonneg; lra).
    assert (length files = ntiles t) as Lft by exact Lf.
    assert (overlap_at_most N files) as HN.
    { apply (covered_files N t files Lft Hcov). intros q x Bq I. now apply (HT q Bq) in I. }
    assert (forall q, (q < ntiles t)%nat -> let f := nth q files dfile in tf_tile f = tile_at t q /\ tile_bands bands f /\ StronglySorted before (tf_points f) /\
      forall x, In x (file_coords f) <-> valid_pixel st x /\ has_pixel (tile_at t q) (fst x) (snd x)) as HFq.
    { intros q Bq. destruct (HT q Bq) as (T1 & T2 & T3 & T4 & _). auto. }
    assert (forall k' q p x, (k' < bands)%nat -> (q < ntiles t)%nat -> nth_error (file_coords (nth q files dfile)) p = Some x ->
      within e (MergeSpec.phase_of (nth q files dfile) k' p) (D k' x + twopi * inject_Z (m k' q)) /\ Qabs (D k' x + twopi * inject_Z (m k' q)) <= C) as HMm.
    { intros k' q p x Bk' Bq E. now apply (Hm k' Bk' q Bq). }
    assert (fst (shape t) * snd (shape t) <= 2 ^ 32)%Z as Hfit' by (rewrite Hshape; exact Hfit).
    assert (0 <= C) as C0 by (unfold C; lra). assert (C + 1 <= R) as RC by (unfold R, C, reach_of; lra). assert (2 * P + C <= R) as RP by (unfold R, C, reach_of; lra).
    assert (forall k' q, (k' < bands)%nat -> (q < ntiles t)%nat -> Qabs (twopi * inject_Z (m k' q)) <= P + C) as HMP by (intros k' q Bk' Bq; now apply (Hm k' Bk' q Bq)).
    assert (forall k' x, (k' < bands)%nat -> valid_pixel st x -> Qabs (D k' x) <= P) as HPD.
    { intros k' x Bk' V. apply HP; [|exact V]. apply (Lk _ _ (nth_error_In _ _ (Hij k' Bk'))). }
    destruct (Nat.eq_dec (ntiles t) 1) as [N1|N1].
    - exists (fun _ => m k 0%nat). split; [reflexivity|].
      assert (forall x, in_shape (shape t) x = true -> ~ In x (file_coords (nth 0 files dfile)) /\ pixel r x = None \/
        exists y, In x (file_coords (nth 0 files dfile)) /\ pixel r x = Some y /\ within (e + 11 * u * (R + 3)) y (D k x + twopi * inject_Z (m k 0%nat))) as RS.
      { eapply run_single with (C := C); eauto. }
      destruct (HFq 0%nat ltac:(lia)) as (_ & _ & _ & T4). split.
      + intros q x Bq V Hx. assert (q = 0)%nat as -> by lia. assert (In x (file_coords (nth 0 files dfile))) as Ix by (apply T4; auto).
        destruct (RS x (Ins x V)) as [[No _]|(y & _ & Ey & Wy)]; [contradiction|]. exists y. split; [exact Ey|]. unfold D in Wy. rewrite Eij in Wy. exact Wy.
      + intros x Hx No. rewrite <- Hshape in Hx. destruct (RS x Hx) as [[_ E]|(y & Ix & _)]; [exact E|]. exfalso. apply (No 0%nat ltac:(lia)). now apply T4.
    - assert (exists c : nat -> Z, (forall a b, (a < ntiles t)%nat -> linked st minp t a b -> c a = c b) /\
        forall x, in_shape (shape t) x = true ->
        (forall q, (q < ntiles t)%nat -> ~ In x (file_coords (nth q files dfile))) /\ pixel r x = None \/
        exists q y, (q < ntiles t)%nat /\ In x (file_coords (nth q files dfile)) /\ pixel r x = Some y /\
          within (e + 11 * u * (R + 3)) y (D k x + twopi * inject_Z (c q))) as (c & Cl & RF).
      { eapply run_field with (fl := fl) (fd := fd) (fc := fc) (lsq := lsq) (C := C) (P := P) (v := v) (K := K) (N := N); eauto. }
      exists c. split; [exact Cl|]. split.
      + intros q x Bq V Hx. assert (In x (file_coords (nth q files dfile))) as Ix by (apply (HFq q Bq); auto).
        destruct (RF x (Ins x V)) as [[No _]|(q' & y & Bq' & Iq' & Ey & Wy)]; [now destruct (No q Bq)|]. exists y. split; [exact Ey|].
        apply (HFq q' Bq') in Iq' as [_ Hx']. rewrite (Cl q q' Bq (Hlinked q q' x Bq Bq' V Hx Hx')). unfold D in Wy. rewrite Eij in Wy. exact Wy.
      + intros x Hx No. rewrite <- Hshape in Hx. destruct (RF x Hx) as [[_ E]|(q' & y & Bq' & Iq' & _)]; [exact E|]. exfalso. apply (No q' Bq'). now apply (HFq q' Bq').
  Qed.
End Run.

(** ** Single precision *)
Lemma single_tiles : tile_formats single u32 u64 4.
Proof.
  split; try exact C69_formats; try (vm_compute; split; discriminate); vm_compute; discriminate.
Qed.
Lemma num_le L n : (L <= n)%nat -> 0 <= num L <= num n.
Proof. intros H. unfold num. change 0 with (inject_Z 0). rewrite <- !Zle_Qle. lia. Qed.
Lemma single_tile_err L : tile_err u32 u64 4 1000 L <= num L * (1 # 50000) + (1 # 7500).
Proof.
  unfold tile_err, cube_err. destruct (num_le L L (le_n L)) as [N0 _].
  assert (num L * hop_err u32 u64 4 4 1000 <= num L * (1 # 50000)) by (rewrite !(Qmult_comm (num L)); apply Qmult_le_compat_r; [vm_compute; discriminate|exact N0]).
  assert (u64 * (1000 + 1) + u32 * (2 * 1000 + 2) + u32 * (20 * (4 + 1) + 4) <= 1 # 7500) by (vm_compute; discriminate). lra.
Qed.
Lemma single_sizes L : (L <= 1000)%nat -> run_sizes u32 u64 4 2000 1000 1 L 4.
Proof.
  intros HL. pose proof (num_le L 1000 HL) as [N0 N1]. change (num 1000) with 1000 in N1. pose proof (single_tile_err L) as E.
  assert (tile_err u32 u64 4 1000 L <= 202 # 10000) as E' by lra. clear E.
  assert (hop_err u32 u64 4 4 1000 <= 1 # 50000) as HE by (vm_compute; discriminate).
  split.
  1, 2, 3, 5, 7, 8, 9: vm_compute; discriminate.
  - apply Qle_trans with ((num L + 1) * (1 # 50000)); [|lra]. rewrite !(Qmult_comm (num L + 1)). apply Qmult_le_compat_r; [exact HE|lra].
  - assert (5 * u32 * reach_of 2000 1000 <= 2 # 1000) by (vm_compute; discriminate). lra.
  - assert (6 * u32 * (reach_of 2000 1000 + 1) <= 18 # 10000) as A by (vm_compute; discriminate).
    assert (2 * u32 * inject_Z (Z.of_nat 4) * (reach_of 2000 1000 + 10 * 1) <= 24 # 10000) as H by (vm_compute; discriminate).
    revert A E' H. generalize (6 * u32 * (reach_of 2000 1000 + 1)) (tile_err u32 u64 4 1000 L) (2 * u32 * inject_Z (Z.of_nat 4) * (reach_of 2000 1000 + 10 * 1)).
    intros a b c A E H. cbn [drift Nat.sub]. lra.
Qed.

(** Samples between -4 and 4, at most four tiles over any pixel, a Dirichlet solver
    that obeys the maximum principle, no side of a triangle with a change of
    half a cycle less 1/30000, true phases up to 2000 that vary by 1000 in a tile:
    the output is the true phase up to whole cycles and 1/50000 per link from the
    first point of a tile, plus 1/280. *)
Theorem C71_single smcf triangles tsched ssched cpu set tdist tcent sdist scent comps minp mip_solve lsq solve st t gt Phi h wd L k i j r :
  (forall pts tri, triangles pts = Ok tri -> planar (delaunay (length pts) tri)) ->
  (forall b l, Permutation (tsched b l) l) -> (forall l, Permutation (ssched l) l) -> (0 < links_per_batch set)%nat ->
  mip_sound mip_solve -> components_ok comps -> amplifies 1 solve ->
  hop3 (Z.of_nat (length (st_files st))) = Ok gt -> NoDup (map fst (st_files st)) -> coh_shape st h wd -> shape t = (h, wd) -> (h * wd <= 2 ^ 32)%Z ->
  (forall q, (q < ntiles t)%nat -> box_in_image (h, wd) (tile_at t q)) -> covered_at_most 4 t ->
  (forall q q' x, (q < ntiles t)%nat -> (q' < ntiles t)%nat -> valid_pixel st x ->
     has_pixel (tile_at t q) (fst x) (snd x) -> has_pixel (tile_at t q') (fst x) (snd x) -> linked st minp t q q') ->
  history st Phi -> samples_within 4 st ->
  (forall i j x, is_ifg_of st i j -> valid_pixel st x -> Qabs (ifg_at st Phi i j x) <= 2000) ->
  (L <= 1000)%nat ->
  (forall q, (q < ntiles t)%nat ->
     smooth_by (1 # 30000) triangles st Phi (tile_at t q) /\ varies_by 1000 st Phi (tile_at t q) /\ depth_by L triangles st (tile_at t q)) ->
  nth_error (g_links gt) k = Some (i, j) ->
  band_fl rnd32 rnd64 rnd64 (unwrap_one_tile_fl single smcf triangles tsched ssched cpu set tdist tcent sdist scent st gt)
    comps minp mip_solve lsq solve t (stack_mask st) k = Ok r ->
  exists c : nat -> Z, (forall a b, (a < ntiles t)%nat -> linked st minp t a b -> c a = c b) /\
    (forall q x, (q < ntiles t)%nat -> valid_pixel st x -> has_pixel (tile_at t q) (fst x) (snd x) ->
       exists y, pixel r x = Some y /\ within (num L * (1 # 50000) + (1 # 280)) y (ifg_at st Phi i j x + twopi * inject_Z (c q))) /\
    (forall x, in_shape (h, wd) x = true ->
       (forall q, (q < ntiles t)%nat -> ~ (valid_pixel st x /\ has_pixel (tile_at t q) (fst x) (snd x))) -> pixel r x = None).
Proof.
  intros Htri Ht Hs Hl Hmip Hcomp Hsol Hgt Hst Hcoh Hsh Hfit Hbox Hcov Hlk Hh HM HP HL Ht1 Ek Er.
  destruct (C71_run single rnd32 rnd64 rnd64 u32 u64 u64 4 2000 1000 1 L 4 single_tiles (fo_s _ _ _ C69_formats) (fo_e _ _ _ C69_formats) (fo_e _ _ _ C69_formats)
    ltac:(vm_compute; discriminate) ltac:(lra) (single_sizes L HL) smcf triangles tsched ssched cpu set tdist tcent sdist scent comps minp mip_solve lsq solve
    Htri Ht Hs Hl Hmip Hcomp Hsol st t gt Phi h wd Hgt Hst Hcoh Hsh Hfit Hbox Hcov Hlk Hh HM HP) with (k := k) (i := i) (j := j) (r := r) as (c & C1 & C2 & C3); auto.
  - intros q Bq. destruct (Ht1 q Bq) as (S1 & S2 & S3). split; [|auto]. intros pts tri a b d E1 E2 E3 x y Ix Iy i' j' I.
    specialize (S1 pts tri a b d E1 E2 E3 x y Ix Iy i' j' I). assert (margin u32 4 <= 1 # 30000) by (vm_compute; discriminate). lra.
  - exists c. split; [exact C1|]. split; [|exact C3]. intros q x Bq V Hx. destruct (C2 q x Bq V Hx) as (y & Ey & Wy). exists y. split; [exact Ey|].
    unfold within in *. apply Qle_trans with (1 := Wy). unfold run_err. pose proof (single_tile_err L).
    assert (11 * u32 * (reach_of 2000 1000 + 3) <= 33 # 10000) by (vm_compute; discriminate). lra.
Qed.

(** * Cases *)

(** Four acquisitions of ten by two pixels, two of them not valid, in samples that
    both formats hold exactly. The phase of acquisition [t] is nearly half of
    [t * (row + column)]. *)
Definition fr_image (t : nat) : list (list Q) :=
  map (fun r => map (fun c => Z.of_nat (2 * (t * (r + c))) - 25 * Z.of_nat ((t * (r + c) + 5) / 12) # 4)%Z [0; 1]%nat) (seq 0 10).
Definition fr_stack : slc_stack Q :=
  SlcStack (st_files px_stack) (st_coh px_stack) (1 # 2)
    (fun f => if String.eqb f "a" then Some (fr_image 1) else if String.eqb f "b" then Some (fr_image 2) else if String.eqb f "c" then Some (fr_image 3) else None).
Definition fr_phase (d : string) (x : Z * Z) : Q :=
  let n := (px_time d * (fst x + snd x))%Z in (2 * n - 25 * ((n + 5) / 12) # 4) + twopi * inject_Z ((n + 5) / 12).
Definition fr_tiles : tileset := TileSet (10, 2)%Z [BBox 0 0 8 2; BBox 2 0 10 2].
Definition fr_unwrap (gt : graph) := unwrap_one_tile_fl single (fun _ _ => None) px_triangles (fun _ l => rev l) (@rev nat) 4 (Settings Constant Constant 2 0 0) [] [] (fun _ => []) (fun _ => []) fr_stack gt.

Lemma fr_image_at t x v : image_at (fr_image t) x = Some v -> (0 <= fst x < 10)%Z /\ (0 <= snd x < 2)%Z /\
  v = (2 * (Z.of_nat t * (fst x + snd x)) - 25 * ((Z.of_nat t * (fst x + snd x) + 5) / 12) # 4).
Proof.
  unfold image_at. destruct (_ && _) eqn:B; [|discriminate]. unfold pixel_at, fr_image. rewrite nth_error_map.
  destruct (nth_error (seq 0 10) (Z.to_nat (fst x))) as [r|] eqn:Er; [|discriminate]. cbn [option_map].
  assert (Z.to_nat (fst x) < 10)%nat as Br by (rewrite <- (seq_length 10 0); apply nth_error_Some; congruence).
  rewrite (nth_error_nth' _ 0%nat) in Er by (now rewrite seq_length). rewrite seq_nth in Er by auto. injection Er as <-.
  rewrite nth_error_map. destruct (nth_error [0; 1]%nat (Z.to_nat (snd x))) as [c|] eqn:Ec; [|discriminate]. cbn [option_map]. match goal with |- Some ?a = _ -> _ => set (z := a) end. intros [= <-]. subst z.
  assert (c = Z.to_nat (snd x) /\ (c < 2)%nat) as [-> Bc] by (destruct (Z.to_nat (snd x)) as [|[|[|k]]]; cbn in Ec; try discriminate; injection Ec as <-; split; (reflexivity || lia)).
  split; [lia|]. split; [lia|]. rewrite ?Nat.add_0_l. f_equal.
  rewrite Nat2Z.inj_div. replace (Z.of_nat (t * (Z.to_nat (fst x) + Z.to_nat (snd x)) + 5)) with (Z.of_nat t * (fst x + snd x) + 5)%Z by lia.
  change (Z.of_nat 12) with 12%Z. lia.
Qed.
Lemma fr_dates d x v : slc_phase fr_stack d x = Some v -> d = "20200101"%string /\ v = 0 \/
  exists t, (t <= 3)%nat /\ px_time d = Z.of_nat t /\ image_at (fr_image t) x = Some v.
Proof.
  unfold slc_phase, px_time. cbn [fr_stack px_stack st_files dict_get fst snd].
  destruct (String.eqb_spec d "20200101") as [->|N0]; [cbn; intros [= <-]; auto|].
  destruct (String.eqb_spec d "20200113") as [->|N1]; [cbn; right; exists 1%nat; auto|].
  destruct (String.eqb_spec d "20200125") as [->|N2]; [cbn; right; exists 2%nat; auto|].
  destruct (String.eqb_spec d "20200206") as [->|N3]; [cbn; right; exists 3%nat; auto|].
  repeat (rewrite (proj2 (String.eqb_neq _ _)) by congruence). discriminate.
Qed.
Example fr_history : history fr_stack fr_phase.
Proof.
  intros d x v E. unfold fr_phase. apply fr_dates in E as [[-> ->]|(t & _ & -> & E)].
  - exists 0%Z. replace (px_time "20200101") with 0%Z by reflexivity. cbn. ring.
  - apply fr_image_at in E as (_ & _ & ->). set (n := (Z.of_nat t * (fst x + snd x))%Z). exists (- ((n + 5) / 12))%Z. rewrite inject_Z_opp. ring.
Qed.
Example fr_samples : samples_within 4 fr_stack.
Proof.
  intros d x v E. apply fr_dates in E as [[-> ->]|(t & Bt & _ & E)]; [split; discriminate|]. apply fr_image_at in E as (B1 & B2 & ->).
  set (n := (Z.of_nat t * (fst x + snd x))%Z). assert (0 <= n <= 30)%Z by (unfold n; nia). clearbody n. unfold Qle. cbn [Qnum Qden Qopp]. Z.to_euclidean_division_equations. lia.
Qed.
Example fr_coh : coh_shape fr_stack 10 2.
Proof. exact px_coh. Qed.

Lemma fr_bound x i j : is_ifg_of fr_stack i j -> valid_pixel fr_stack x -> Qabs (ifg_at fr_stack fr_phase i j x) <= 100.
Proof.
  intros _ (z & J & _). apply (image_in _ 10 2) in J; [|apply fr_coh]. unfold in_image in J. unfold ifg_at, true_ifg, fr_phase. cbv zeta.
  assert (forall d, (0 <= px_time d <= 3)%Z) as T by (intros d; unfold px_time; repeat (destruct (String.eqb _ _); [lia|]); lia).
  set (a := (px_time (nth j (st_dates fr_stack) ""%string) * (fst x + snd x))%Z). set (b := (px_time (nth i (st_dates fr_stack) ""%string) * (fst x + snd x))%Z).
  assert (0 <= a <= 30)%Z as Ba by (pose proof (T (nth j (st_dates fr_stack) ""%string)); unfold a; nia).
  assert (0 <= b <= 30)%Z as Bb by (pose proof (T (nth i (st_dates fr_stack) ""%string)); unfold b; nia).
  assert (forall n, (0 <= n <= 30)%Z -> -4 <= (2 * n - 25 * ((n + 5) / 12) # 4) <= 4 /\ 0 <= twopi * inject_Z ((n + 5) / 12) <= 13) as K.
  { intros n Bn. split; [unfold Qle; cbn [Qnum Qden Qopp]; Z.to_euclidean_division_equations; lia|]. assert (0 <= inject_Z ((n + 5) / 12) <= 2) as H by (change 0 with (inject_Z 0); change 2 with (inject_Z 2); rewrite <- !Zle_Qle; Z.to_euclidean_division_equations; lia).
    pose proof twopi_lo. pose proof twopi_hi. split; [apply Qmult_le_0_compat; lra|]. apply Qle_trans with (twopi * 2); [|lra].
    rewrite !(Qmult_comm twopi). apply Qmult_le_compat_r; lra. }
  apply K in Ba, Bb. apply Qabs_Qle_condition. lra.
Qed.

(** Checking smoothness with a margin by computation. *)
Definition smooth_by_b (mu : Q) (st : slc_stack Q) (Phi : string -> Z * Z -> Q) (b : bbox) (pts : list (Z * Z)) (tri : list (nat * nat * nat)) : bool :=
  let n := length (st_dates st) in
  forallb (fun t => let '(u, v, w) := t in
    forallb (fun a => forallb (fun c => forallb (fun i => forallb (fun j =>
      negb ((i <? j) && (j - i <=? 3))%nat ||
      negb (Qle_bool (half - mu) (Qabs (ifg_at st Phi i j (place b (nth c pts (0, 0)%Z)) - ifg_at st Phi i j (place b (nth a pts (0, 0)%Z))))))
      (seq 0 n)) (seq 0 n)) [u; v; w]) [u; v; w]) tri.
Lemma smooth_by_check mu triangles st Phi b tri : (0 <= xmin b)%Z -> (0 <= ymin b)%Z -> let pts := nonzero (tile_mask st b) in
  triangles pts = Ok tri -> smooth_by_b mu st Phi b pts tri = true -> smooth_by mu triangles st Phi b.
Proof.
  intros Bx By pts Et C pts' tri' u v w P E I a c Ia Ic i j [Hij Hd].
  rewrite (tile_pixels_unique st b pts' pts P) in * by now apply mask_pixels. rewrite Et in E. injection E as <-.
  unfold smooth_by_b in C. rewrite forallb_forall in C. specialize (C _ I). cbv beta iota in C.
  rewrite forallb_forall in C. specialize (C a Ia). rewrite forallb_forall in C. specialize (C c Ic).
  rewrite forallb_forall in C. specialize (C i ltac:(apply in_seq; lia)). rewrite forallb_forall in C. specialize (C j ltac:(apply in_seq; lia)).
  apply orb_prop in C as [C|C]; [lia|]. apply negb_true_iff in C. apply Qnot_le_lt. intros L. apply Qle_bool_iff in L. congruence.
Qed.

(** Point [n] of a strip is at most [n] sides from the first one. *)
Lemma strip_depth n : (3 <= n)%nat -> depth_le (g_links (delaunay n (strip n))) n n.
Proof.
  intros Hn v Hv. exists v. split; [lia|]. induction v as [|v IH]; [constructor|]. apply hops_S with v; [apply IH; lia|]. left. apply strip_links; lia.
Qed.

Example fr_tile q : (q < 2)%nat -> smooth_by (1 # 30000) px_triangles fr_stack fr_phase (tile_at fr_tiles q) /\
  varies_by 1000 fr_stack fr_phase (tile_at fr_tiles q) /\ depth_by 20 px_triangles fr_stack (tile_at fr_tiles q).
Proof.
  intros Bq. split; [|split].
  - destruct q as [|[|]]; try lia; (eapply smooth_by_check; [cbn; lia|cbn; lia|reflexivity|vm_compute; reflexivity]).
  - intros x y i j I Vx _ Vy _. pose proof (fr_bound x i j I Vx) as Bx. pose proof (fr_bound y i j I Vy) as By. apply abs_le in Bx, By. apply abs_le. lra.
  - intros pts tri P E. unfold px_triangles in E. destruct (Nat.ltb_spec (length pts) 3); [discriminate|]. injection E as <-.
    assert (forall b, (0 <= xmin b)%Z -> (0 <= ymin b)%Z -> tile_pixels fr_stack b pts -> length pts = length (nonzero (tile_mask fr_stack b))) as K.
    { intros b B1 B2 P'. f_equal. eapply tile_pixels_unique; [exact P'|]. now apply mask_pixels. }
    assert (length pts <= 20)%nat as L.
    { destruct q as [|[|]]; try lia; (apply K in P; [rewrite P; apply Nat.leb_le; vm_compute; reflexivity|cbn; lia|cbn; lia]). }
    intros v Hv. destruct (strip_depth (length pts) ltac:(lia) v Hv) as (n & Bn & Hn). exists n. split; [lia|exact Hn].
Qed.
Example fr_overlapping b1 b2 : (forall r c, (2 <= r < 8)%Z -> (0 <= c < 2)%Z -> has_pixel b1 r c /\ has_pixel b2 r c) -> overlapping fr_stack 11 b1 b2.
Proof.
  intros Hb. exists [(2, 0); (2, 1); (3, 0); (4, 0); (4, 1); (5, 0); (5, 1); (6, 0); (6, 1); (7, 0); (7, 1)]%Z.
  split; [repeat constructor; cbn; intuition congruence|]. split; [discriminate|]. split; [cbn; lia|].
  intros x I. repeat (destruct I as [<-|I]; [split; [exists (4 # 5)%Q; split; vm_compute; reflexivity|apply Hb; cbn; lia]|]). destruct I.
Qed.
Lemma fr_linked q q' : (q < ntiles fr_tiles)%nat -> (q' < ntiles fr_tiles)%nat -> linked fr_stack 11 fr_tiles q q'.
Proof.
  intros B B'. apply linked_step with q; auto; [constructor|]. apply fr_overlapping. intros r c Br Bc. cbn in B, B'.
  destruct q as [|[|]], q' as [|[|]]; try lia; unfold has_pixel; cbn; lia.
Qed.

(** The hypotheses hold of this stack, the run ends well and the theorem gives the
    phase of one pixel. *)
Example C71_witness : exists gt r y (c : Z), hop3 4 = Ok gt /\
  band_fl rnd32 rnd64 rnd64 (fr_unwrap gt) labels_of 11 exact_mip exact_lsq fm_solve fr_tiles (stack_mask fr_stack) 4 = Ok r /\
  pixel r (8, 1)%Z = Some y /\ within (1 # 200) y (ifg_at fr_stack fr_phase 1 3 (8, 1)%Z + twopi * inject_Z c).
Proof.
  destruct (hop3 4) as [gt|] eqn:Egt; [|discriminate]. exists gt.
  destruct (band_fl rnd32 rnd64 rnd64 (fr_unwrap gt) labels_of 11 exact_mip exact_lsq fm_solve fr_tiles (stack_mask fr_stack) 4) as [r|] eqn:Er.
  2:{ exfalso. apply (f_equal (fun r => match r with Ok _ => true | Err _ => false end)) in Er. revert Er.
      apply (hop3_is 4) in Egt as [_ ->]. vm_compute. discriminate. }
  exists r. destruct (C71_single (fun _ _ => None) px_triangles (fun _ l => rev l) (@rev nat) 4 (Settings Constant Constant 2 0 0) [] [] (fun _ => []) (fun _ => [])
    labels_of 11 exact_mip exact_lsq fm_solve fr_stack fr_tiles gt fr_phase 10 2 20 4 1 3 r) as (c & _ & C & _); auto.
  - apply px_planar.
  - intros _ l. apply Permutation_sym, Permutation_rev.
  - intros l. apply Permutation_sym, Permutation_rev.
  - cbn; lia.
  - apply exact_mip_sound.
  - apply components_witness.
  - apply fm_amplifies.
  - repeat constructor; cbn; intuition discriminate.
  - apply fr_coh.
  - lia.
  - intros q Bq. cbn in Bq. destruct q as [|[|]]; try lia; unfold box_in_image; cbn; lia.
  - intros x l Hl Hq. apply Nat.le_trans with (length (seq 0 2)); [|cbn; lia]. apply NoDup_incl_length; [exact Hl|]. intros q I. apply in_seq. apply Hq in I as [I _]. cbn in I. lia.
  - intros q q' x Bq Bq' _ _ _. now apply fr_linked.
  - apply fr_history.
  - apply fr_samples.
  - intros i j x I V. pose proof (fr_bound x i j I V). lra.
  - lia.
  - apply fr_tile.
  - apply (hop3_is 4) in Egt as [_ ->]. reflexivity.
  - destruct (C 1%nat (8, 1)%Z) as (y & Ey & Wy).
    all: try (cbn; lia).
    + exists (4 # 5)%Q. split; vm_compute; reflexivity.
    + unfold has_pixel. cbn.
      lia.
    + exists y, (c 1%nat). split; [reflexivity|]. split; [reflexivity|]. split; [exact Ey|]. unfold within in *. apply Qle_trans with (1 := Wy). vm_compute. discriminate.
Qed.

Print Assumptions C71_run.
Print Assumptions C71_single.
