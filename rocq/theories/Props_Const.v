(** C90: a constant phase added to a date adds a constant to its interferograms. *)
From Verif Require Import Base BaseLemmas PoolProofs GraphModel GraphSpec GraphProofs Hop3Proofs StripProofs McfModel McfSpec PhaseProofs EmcfModel InvariantSpec
  TileModel TileSpec SlcModel SlcSpec SlcProofs Props_Slc OverlapModel OverlapSpec BulkModel BulkSpec BulkProofs MergeModel MergeSpec AdjustProofs MergeBatchProofs
  UnwrapTileModel UnwrapTileProofs PipelineSpec PipelineProofs Props_Pipeline ExactSpec ExactTileProofs ExactRunProofs WorkflowModel TimeSeriesProofs DescribeProofs Props_Workflow
  ShiftSpec ShiftProofs ShiftMergeProofs Props_Shift PerturbSpec Props_Perturb ReferenceSpec Props_Reference ConstSpec Props_Exact ExactWitness.
From Coq Require Import List Permutation ZifyBool Lqa.
Import ListNotations.
Set Default Goal Selector "!".
Local Open Scope nat_scope.
Opaque twopi.

(** A number of cycles that brings [d] near zero. *)
Lemma some_cycles d : exists k : Z, (- twopi <= d + twopi * inject_Z k <= twopi)%Q.
Proof.
  exists (- pd_cycles 0 d 0)%Z. pose proof (pd_near 0 d 0) as B. rewrite pd_eq in B. rewrite inject_Z_opp. unfold half in B. pose proof twopi_pos. lra.
Qed.

(** Both near zero: the numbers of cycles differ by at most two. *)
Lemma near_cycles d k k' : (- twopi <= d + twopi * inject_Z k <= twopi)%Q -> (- twopi <= d + twopi * inject_Z k' <= twopi)%Q -> (-2 <= k' - k <= 2)%Z.
Proof.
  intros A B. pose proof twopi_pos as P.
  assert (forall a b : Z, (twopi * inject_Z a <= twopi * inject_Z b + 2 * twopi)%Q -> (a - b <= 2)%Z) as K.
  { intros a b E. assert (twopi * inject_Z a <= twopi * inject_Z (b + 2))%Q as E' by (rewrite inject_Z_plus; change (inject_Z 2) with 2%Q; lra).
    apply Qmult_le_l in E'; [|exact P]. rewrite <- Zle_Qle in E'. lia. }
  split; [|apply K; lra]. specialize (K k k' ltac:(lra)). lia.
Qed.

Section Tile.
  Context (smcf : list arc -> list Z -> option (list Z))
          (triangles : list (Z * Z) -> res (list (nat * nat * nat)))
          (tsched : nat -> list nat -> list nat) (ssched : list nat -> list nat) (cpu : Z)
          (set : settings) (tdist tcent : list Z) (sdist scent : list (Z * Z) -> list Z).
  Hypothesis Hsm : smcf_sound smcf.
  Hypothesis Htri : forall pts tri, triangles pts = Ok tri -> planar (delaunay (length pts) tri).
  Hypothesis Ht : forall b l, Permutation (tsched b l) l.
  Hypothesis Hs : forall l, Permutation (ssched l) l.
  Hypothesis Hl : 0 < links_per_batch set.
  Notation unwrap := (unwrap_one_tile smcf triangles tsched ssched cpu set tdist tcent sdist scent).

  (** A tile: the same outcome and the same pixels. Each interferogram changes by what is
      added to it, plus one number of cycles for the whole tile, which keeps the phase
      of the first pixel within half a cycle of zero. *)
  Theorem C90_tile st st' gt b c :
    hop3 (Z.of_nat (length (st_files st))) = Ok gt -> NoDup (map fst (st_files st)) ->
    (0 <= xmin b)%Z -> (0 <= ymin b)%Z -> readable st -> readable st' ->
    constants_added st st' c -> sides_decided triangles st (g_links gt) b ->
    same_outcome (fun f f' => tf_points f' = tf_points f /\ tf_tile f' = tf_tile f /\
        forall n, n < length (g_links gt) -> exists k : Z,
          (- twopi <= step (g_links gt) c n + twopi * inject_Z k <= twopi)%Q /\
          forall p, p < length (tf_points f) ->
            (MergeSpec.phase_of f' n p == MergeSpec.phase_of f n p + step (g_links gt) c n + twopi * inject_Z k)%Q)
      (unwrap st gt b) (unwrap st' gt b).
  Proof using Htri Hl Hsm Ht Hs.
    intros G Nf Bx By R R' Mv D.
    assert (forall n x, drift (g_links gt) (fun t (_ : Z * Z) => c t) n x = step (g_links gt) c n) as Dr by reflexivity.
    pose proof (tile_moved smcf triangles tsched ssched cpu set tdist tcent sdist scent Hsm Htri Ht Hs Hl st st' gt b (fun t _ => c t) G Nf Bx By R R' Mv) as K.
    cbv zeta in K. specialize (fun S => K S).
    assert (forall n x y, drift (g_links gt) (fun t (_ : Z * Z) => c t) n x - drift (g_links gt) (fun t (_ : Z * Z) => c t) n y == 0)%Q as D0 by (intros; rewrite !Dr; ring).
    match type of K with ?S -> _ => assert S as Hst end.
    { intros pts tri n P T Bn u v a d J A B. destruct (nth n (g_links gt) (0, 0)) as [i j] eqn:E. cbn [fst snd] in *.
      assert (In (i, j) (g_links gt)) as I by (rewrite <- E; now apply nth_In).
      destruct (stays_same (d - a)%Q (D pts tri i j P T I u v a d J A B)) as (w & C & B1 & B2). exists w. split; [exact C|]. split; [exact B1|].
      rewrite D0. exact B2. }
    specialize (K Hst). destruct (unwrap st gt b) as [f|], (unwrap st' gt b) as [f'|]; cbn [same_outcome] in *; auto.
    destruct K as (K1 & K2 & _ & _ & K). split; [exact K1|]. split; [exact K2|]. intros n Bn. destruct (K n Bn) as (k & A & B).
    destruct (tf_points f) as [|y l] eqn:Ep.
    - destruct (some_cycles (step (g_links gt) c n)) as (k0 & E0). exists k0. split; [exact E0|]. cbn [length]. lia.
    - exists k. split.
      + destruct (nth_error (file_coords f) 0) as [x|] eqn:E0; [exact (proj1 (B x eq_refl))|].
        unfold file_coords in E0. rewrite Ep in E0. discriminate.
      + intros p Bp. destruct (nth_error (file_coords f) p) as [x|] eqn:Ex; [exact (A p x Ex)|].
        apply nth_error_None in Ex. unfold file_coords in Ex. rewrite map_length, Ep in Ex. lia.
  Qed.

  (** All tiles. *)
  Lemma files_const st st' gt (t : tileset) h w c files :
    hop3 (Z.of_nat (length (st_files st))) = Ok gt -> NoDup (map fst (st_files st)) -> coh_shape st h w -> (h * w <= 2 ^ 32)%Z ->
    (forall b, In b (tiles t) -> (0 <= xmin b)%Z /\ (0 <= ymin b)%Z) -> readable st -> readable st' ->
    constants_added st st' c -> (forall b, In b (tiles t) -> sides_decided triangles st (g_links gt) b) ->
    map_res (unwrap st gt) (tiles t) = Ok files ->
    exists files', map_res (unwrap st' gt) (tiles t) = Ok files' /\
      cut_files t h w (length (g_links gt)) files /\ cut_files t h w (length (g_links gt)) files' /\ same_layout files files' /\
      exists k : nat -> nat -> Z, forall n i, n < length (g_links gt) -> i < length (tiles t) ->
        (- twopi <= step (g_links gt) c n + twopi * inject_Z (k n i) <= twopi)%Q /\
        forall p, p < length (tf_points (nth i files no_file)) ->
          (MergeSpec.phase_of (nth i files' no_file) n p
           == MergeSpec.phase_of (nth i files no_file) n p + step (g_links gt) c n + twopi * inject_Z (k n i))%Q.
  Proof using Htri Hl Hsm Ht Hs.
    intros G Nf Csh Hhw Hpos Hrd Hrd' Mv Sd E. pose proof Mv as (Ed & Ec & Eth & _). pose proof (same_dates _ _ Ed Nf) as [Nf' Lf'].
    pose proof G as G2. apply hop3_is in G2 as [N4 Egt].
    assert (planar gt) as Pgt by (rewrite Egt; apply hop3_planar; auto).
    assert (length (st_files st) = g_npoints gt) as Ld by (rewrite Egt; reflexivity).
    assert (forall b, In b (tiles t) -> same_outcome (fun f f' => tf_points f' = tf_points f /\ tf_tile f' = tf_tile f /\
        forall n, n < length (g_links gt) -> exists k : Z,
          (- twopi <= step (g_links gt) c n + twopi * inject_Z k <= twopi)%Q /\
          forall p, p < length (tf_points f) ->
            (MergeSpec.phase_of f' n p == MergeSpec.phase_of f n p + step (g_links gt) c n + twopi * inject_Z k)%Q) (unwrap st gt b) (unwrap st' gt b)) as K.
    { intros b I. destruct (Hpos b I). apply C90_tile; auto. }
    assert (exists files', map_res (unwrap st' gt) (tiles t) = Ok files') as (files' & E').
    { apply map_res_ok_iff. intros b I. specialize (K b I).
      destruct (proj1 (map_res_ok_iff (unwrap st gt) (tiles t)) (ex_intro _ files E) b I) as (f & Efb). rewrite Efb in K.
      destruct (unwrap st' gt b) as [f'|]; [eauto|contradiction]. }
    exists files'. split; [exact E'|]. pose proof E as E2. pose proof E' as E2'. apply map_res_nth in E2 as [L V]. apply map_res_nth in E2' as [L' V'].
    assert (forall k, k < length (tiles t) -> unwrap st gt (tile_at t k) = Ok (nth k files no_file)) as W by (intros k Bk; exact (V k _ no_file Bk)).
    assert (forall k, k < length (tiles t) -> unwrap st' gt (tile_at t k) = Ok (nth k files' no_file)) as W' by (intros k Bk; exact (V' k _ no_file Bk)).
    pose proof (files_cut smcf triangles tsched ssched cpu set tdist tcent sdist scent Hsm Htri Ht Hs Hl) as FC.
    split; [apply (FC st); auto; lia|]. split; [apply (FC st'); [exact Pgt|exact Hhw|exact Hpos|exact Nf'|congruence|unfold coh_shape; now rewrite Ec|lia|exact W']|].
    assert (forall i, i < length (tiles t) -> let f := nth i files no_file in let f' := nth i files' no_file in tf_points f' = tf_points f /\ tf_tile f' = tf_tile f /\
        forall n, n < length (g_links gt) -> exists k : Z,
          (- twopi <= step (g_links gt) c n + twopi * inject_Z k <= twopi)%Q /\
          forall p, p < length (tf_points f) ->
            (MergeSpec.phase_of f' n p == MergeSpec.phase_of f n p + step (g_links gt) c n + twopi * inject_Z k)%Q) as Zt.
    { intros i Bi. specialize (K (tile_at t i) (nth_In _ _ Bi)). rewrite (W i Bi), (W' i Bi) in K. exact K. }
    split; [split; [lia|]|].
    - intros i. destruct (Nat.lt_ge_cases i (length (tiles t))) as [B|B]; [destruct (Zt i B) as (Z1 & Z2 & _); auto|].
      rewrite !nth_overflow by lia. auto.
    - destruct (finite_choice (fun _ => 0%Z) (length (g_links gt)) (fun n (kk : nat -> Z) => forall i, i < length (tiles t) ->
        (- twopi <= step (g_links gt) c n + twopi * inject_Z (kk i) <= twopi)%Q /\
        forall p, p < length (tf_points (nth i files no_file)) ->
          (MergeSpec.phase_of (nth i files' no_file) n p == MergeSpec.phase_of (nth i files no_file) n p + step (g_links gt) c n + twopi * inject_Z (kk i))%Q)) as (k & Hk).
      { intros n Bn. apply (finite_choice 0%Z (length (tiles t)) (fun i kk =>
          (- twopi <= step (g_links gt) c n + twopi * inject_Z kk <= twopi)%Q /\
          forall p, p < length (tf_points (nth i files no_file)) ->
            (MergeSpec.phase_of (nth i files' no_file) n p == MergeSpec.phase_of (nth i files no_file) n p + step (g_links gt) c n + twopi * inject_Z kk)%Q)). intros i Bi. destruct (Zt i Bi) as (_ & _ & Q). destruct (Q n Bn) as (k & Q1 & Q2). exists k. auto. }
      exists k. intros n i Bn Bi. exact (Hk n Bn i Bi).
  Qed.
End Tile.

(** Tile files with [d n] added to band [n]. *)
Definition add_step (d : nat -> Q) (f : tile_file) : tile_file :=
  TileFile (tf_points f) (tf_tile f) (tf_uw f) (map (fun n => nth n (tf_offset f) 0 + d n)%Q (seq 0 (length (tf_offset f)))).
Lemma add_step_phase d f n p : n < length (tf_offset f) -> (MergeSpec.phase_of (add_step d f) n p == MergeSpec.phase_of f n p + d n)%Q.
Proof.
  intros B. unfold MergeSpec.phase_of, add_step. cbn [tf_uw tf_offset]. rewrite (map_nth' _ _ n 0) by (now rewrite seq_length). rewrite seq_nth by auto. cbn [Nat.add]. ring.
Qed.
Lemma add_step_nth d files i : i < length files -> nth i (map (add_step d) files) no_file = add_step d (nth i files no_file).
Proof. intros B. now apply map_nth'. Qed.

(** From the stack to the merged rasters. The second run gives what the first one gives
    plus what is added to the interferogram, and a number of cycles that is the same for
    tiles linked by recorded overlaps. As in C76, in every recorded overlap more than half of
    the shared pixels have the same relative number of cycles, these numbers belong to
    offsets [M], and the merged phase may take another number of cycles where it is
    exactly half a cycle away from the model. *)
Theorem C90_stack smcf triangles tsched ssched cpu set tdist tcent sdist scent st st' gt t h w c comps min_points f files cg ilu omap solve lsq method valid bulk R M :
  smcf_sound smcf -> (forall pts tri, triangles pts = Ok tri -> planar (delaunay (length pts) tri)) ->
  (forall b l, Permutation (tsched b l) l) -> (forall l, Permutation (ssched l) l) -> 0 < links_per_batch set ->
  (forall n e, length (comps n e) = n) -> respects cg ->
  hop3 (Z.of_nat (length (st_files st))) = Ok gt -> NoDup (map fst (st_files st)) -> coh_shape st h w -> (h * w <= 2 ^ 32)%Z ->
  (forall b, In b (tiles t) -> (0 <= xmin b)%Z /\ (0 <= ymin b)%Z) -> readable st -> readable st' ->
  constants_added st st' c -> (forall b, In b (tiles t) -> sides_decided triangles st (g_links gt) b) ->
  let unwrap := unwrap_one_tile smcf triangles tsched ssched cpu set tdist tcent sdist scent in
  let bands := length (g_links gt) in
  map_res (unwrap st gt) (tiles t) = Ok files -> compute_phasediff_deciles comps min_points files t = Ok f -> overlap_map f = Ok omap ->
  get_bulk_offsets solve lsq method f t valid = Ok (bulk, R) ->
  bulk_solver_ok comps solve lsq method (forall u v, u < ntiles t -> v < ntiles t -> reach (of_overlaps f) u v) ->
  explained f files bands M ->
  (forall b i j, b < bands -> In (i, j) (of_overlaps f) -> (-32766 <= M b j - M b i <= 32765)%Z) ->
  (forall b i j, b < bands -> i < length files -> j < length files -> (Z.abs (M b i - M b j) <= 2 ^ 31 - 3)%Z) ->
  exists files', map_res (unwrap st' gt) (tiles t) = Ok files' /\
    forall f' omap' bulk' R', compute_phasediff_deciles comps min_points files' t = Ok f' -> overlap_map f' = Ok omap' ->
    get_bulk_offsets solve lsq method f' t valid = Ok (bulk', R') ->
    exists K : nat -> nat -> Z, (forall b i j, b < bands -> reach (of_overlaps f) i j -> K b i = K b j) /\
    forall md sh idx outs, merge_batch cg ilu triangles f omap md bulk sh files idx = Ok outs ->
    exists outs', merge_batch cg ilu triangles f' omap' md bulk' sh files' idx = Ok outs' /\
      length outs = length idx /\ length outs' = length idx /\
      forall n b arr diff model, nth_error idx n = Some b -> nth_error outs n = Some (arr, diff, model) ->
      exists arr' diff' model', nth_error outs' n = Some (arr', diff', model') /\
        forall x j, in_shape sh x = true -> j < length files -> In x (file_coords (nth j files no_file)) -> tied f files x ->
        let d := step (g_links gt) c b in
        stepped d (K b j) (pixel model x) (pixel model' x) /\ same_value (pixel diff x) (pixel diff' x) /\
        (stepped d (K b j) (pixel arr x) (pixel arr' x) \/
         exists v v' w, pixel arr x = Some v /\ pixel arr' x = Some v' /\ pixel model x = Some w /\ half_cycle_tie v w).
Proof.
  intros Hsm Htri Ht Hs Hl Hcc Hcg G Nf Csh Hhw Hpos Hrd Hrd' Mv Sd unwrap bands E Hc Hom Hb Hsol Hex Hm1 Hm2.
  destruct (files_const smcf triangles tsched ssched cpu set tdist tcent sdist scent Hsm Htri Ht Hs Hl st st' gt t h w c files G Nf Csh Hhw Hpos Hrd Hrd' Mv Sd E)
    as (files' & E' & C & C' & Ly & k & Hk). fold bands in C, C', Hk.
  exists files'. split; [exact E'|]. intros f' omap' bulk' R' Hc' Hom' Hb'.
  assert (0 < bands) as Pos.
  { apply hop3_is in G as [N4 Egt]. assert (In (0, 1) (g_links gt)) as I by (rewrite Egt; cbn [g_links hop3_graph]; apply hop3_link_list_In; lia).
    unfold bands. destruct (g_links gt); [destruct I|cbn; lia]. }
  set (d := step (g_links gt) c) in *. set (mid := map (add_step d) files).
  pose proof C as (Cn & _ & Ct & Cf).
  assert (length mid = length files) as Lm by (apply map_length).
  assert (forall i, tf_points (nth i mid no_file) = tf_points (nth i files no_file) /\ tf_tile (nth i mid no_file) = tf_tile (nth i files no_file)) as Pm.
  { intros i. destruct (Nat.lt_ge_cases i (length files)) as [B|B]; [|rewrite !nth_overflow by lia; auto]. unfold mid. rewrite add_step_nth by auto. auto. }
  assert (forall i, file_coords (nth i mid no_file) = file_coords (nth i files no_file)) as Fm.
  { intros i. unfold file_coords. destruct (Pm i) as [-> ->]. reflexivity. }
  assert (cut_files t h w bands mid) as Cm.
  { split; [lia|]. split; [exact Hhw|]. split; [intros n Bn; rewrite (proj2 (Pm n)); now apply Ct|].
    intros fl I. unfold mid in I. apply in_map_iff in I as (f0 & <- & I). destruct (Cf f0 I) as (A1 & A2 & A3 & A4 & A5).
    split; [exact A1|]. split; [exact A2|]. split; [exact A3|]. split; [|exact A5]. unfold add_step. cbn [tf_offset]. now rewrite map_length, seq_length. }
  assert (same_layout files mid) as Lay by (split; [exact Lm|exact Pm]).
  assert (forall b i p, b < bands -> i < length files -> (MergeSpec.phase_of (nth i mid no_file) b p == MergeSpec.phase_of (nth i files no_file) b p + d b)%Q) as Phm.
  { intros b i p Bb Bi. unfold mid. rewrite add_step_nth by auto. apply add_step_phase. destruct (Cf (nth i files no_file) (nth_In _ _ Bi)) as (_ & _ & _ & A & _). rewrite A. exact Bb. }
  assert (same_field bands (fun b _ => d b) files mid) as Sf.
  { intros b i p x Bb Ex. destruct (Nat.lt_ge_cases i (length files)) as [B|B]; [now apply Phm|].
    rewrite (nth_overflow files) in Ex by lia. destruct p; discriminate. }
  destruct (C84_merge comps min_points files mid t f h w bands _ cg ilu triangles omap Hcc Hcg C Cm Lay Sf Hc Hom) as (Hcm & Kmid).
  assert (same_layout mid files') as Lay'.
  { destruct Ly as [L1 L2]. split; [lia|]. intros i. destruct (L2 i) as [-> ->]. destruct (Pm i) as [-> ->]. auto. }
  assert (more_cycles bands k mid files') as Mc.
  { intros b i p Bb Bp. rewrite (proj1 (Pm i)) in Bp.
    destruct (Nat.lt_ge_cases i (length files)) as [B|B]; [|rewrite (nth_overflow files) in Bp by lia; cbn in Bp; lia].
    destruct (Hk b i Bb ltac:(unfold ntiles in Cn; lia)) as [_ Q]. rewrite (Q p Bp), (Phm b i p Bb B). reflexivity. }
  assert (forall b i j, b < bands -> i < length files -> j < length files -> (-2 <= k b j - k b i <= 2)%Z) as Kb.
  { intros b i j Bb Bi Bj. unfold ntiles in Cn. eapply near_cycles; [apply (Hk b i)|apply (Hk b j)]; auto; lia. }
  assert (forall i j, In (i, j) (of_overlaps f) -> i < length files /\ j < length files) as Bo.
  { intros i j I. destruct Hex as [X1 _]. destruct (X1 0 i j Pos I) as [_ (l & _ & Ll & P)]. destruct l as [|x l]; [cbn in Ll; lia|].
    destruct (P x (or_introl eq_refl)) as (p & q & A & B & _).
    assert (forall u r, nth_error (file_coords (nth u files no_file)) r = Some x -> u < length files) as Q.
    { intros u r V. destruct (Nat.lt_ge_cases u (length files)) as [Y|Y]; [exact Y|]. rewrite (nth_overflow files) in V by lia. destruct r; discriminate. }
    split; eapply Q; eauto. }
  assert (explained f mid bands M) as Exm.
  { destruct Hex as [X1 X2]. split; [|intros b i j Bb Bi Bj; apply X2; auto; lia]. intros b i j Bb I. destruct (X1 b i j Bb I) as [Y1 (l & N & Ll & P)]. split; [exact Y1|].
    destruct (Bo i j I) as [Bi Bj]. exists l. split; [exact N|]. unfold common_pixels in *. rewrite !Fm. split; [exact Ll|].
    intros x J. destruct (P x J) as (p & q & A & B & V). exists p, q. split; [exact A|]. split; [exact B|]. rewrite !Phm by auto. rewrite <- V. ring. }
  destruct (C76_absorbed comps min_points mid files' t f f' h w bands solve lsq method valid bulk bulk' R R' k M cg ilu triangles omap omap') as (K & _ & K2 & K3); auto.
  { intros b i j Bb I. destruct (Bo i j I) as [Bi Bj]. specialize (Hm1 b i j Bb I). specialize (Kb b i j Bb Bi Bj). lia. }
  { intros b i j Bb Bi Bj. rewrite Lm in *. specialize (Hm2 b i j Bb Bi Bj). specialize (Kb b i j Bb Bi Bj). lia. }
  exists K. split; [exact K2|]. intros md sh idx outs Hm.
  destruct (Kmid md bulk sh idx outs Hm) as (mo & Emo & L1 & L2 & P). destruct (K3 md sh idx mo Emo) as (outs' & Eo & _ & L3 & P').
  exists outs'. split; [exact Eo|]. split; [exact L1|]. split; [exact L3|]. intros n b arr diff model In_ Io.
  destruct (P n b arr diff model In_ Io) as (arr1 & diff1 & model1 & I1 & Q). destruct (P' n b arr1 diff1 model1 In_ I1) as (arr' & diff' & model' & I2 & Q').
  exists arr', diff', model'. split; [exact I2|]. intros x j Sx Bj Ix Tx. cbv zeta. destruct (Q x Sx) as (A1 & A2 & A3).
  destruct (Q' x j Sx ltac:(lia) ltac:(now rewrite Fm)) as (B1 & B2 & B3). { intros u v Iu Iv. rewrite Fm in *. now apply Tx. }
  assert (forall o o1 o', plus_opt (d b) o o1 -> moved (K b j) o1 o' -> stepped (d b) (K b j) o o') as Cmp.
  { intros [v|] [v1|] [v'|]; cbn; try tauto. intros U V. rewrite V, U. reflexivity. }
  split; [now apply (Cmp _ _ _ A1)|]. split.
  { destruct (pixel diff x), (pixel diff1 x), (pixel diff' x); cbn in *; try tauto. now rewrite A2. }
  destruct B3 as [B3|(v & v' & ww & i & V1 & V2 & V3 & Tie & _)]; [left; now apply (Cmp _ _ _ A3)|right].
  rewrite V1 in A3. rewrite V3 in A1. destruct (pixel arr x) as [v0|]; [|destruct A3]. destruct (pixel model x) as [w0|]; [|destruct A1]. cbn in A1, A3.
  exists v0, v', w0. split; [reflexivity|]. split; [exact V2|]. split; [reflexivity|]. destruct Tie as [z Z]. exists z. rewrite <- Z, A1, A3. ring.
Qed.

(** * A case: thirteen pixels in a row, two tiles that share eleven of them *)
Definition cx_image (c : Q) (t : nat) : list (list Q) := map (fun r => [inject_Z (Z.of_nat (t * r mod 2)) + c]%Q) (seq 0 13).
Definition cx_stack (c : nat -> Q) : slc_stack Q :=
  SlcStack (st_files px_stack) (repeat [Some (4 # 5)%Q] 13) (1 # 2)
    (fun f => if String.eqb f "a" then Some (cx_image (c 1) 1) else if String.eqb f "b" then Some (cx_image (c 2) 2) else if String.eqb f "c" then Some (cx_image (c 3) 3) else None).
Definition cx_zero (_ : nat) : Q := 0.
Definition cx_c (t : nat) : Q := nth t [0; 3; 1; - (3)]%Q 0%Q.
Definition cx_tiles : tileset := TileSet (13, 1)%Z [BBox 0 0 12 1; BBox 1 0 13 1].
Definition cx_gt : graph := hop3_graph 4.

Lemma cx_at c t x p p' : image_at (cx_image 0 t) x = Some p -> image_at (cx_image c t) x = Some p' -> (p' == p + c)%Q.
Proof.
  unfold image_at. destruct (_ && _)%bool; [|discriminate]. unfold pixel_at, cx_image. rewrite !nth_error_map.
  destruct (nth_error (seq 0 13) _) as [r|]; [|discriminate]. cbn [option_map].
  destruct (Z.to_nat (snd x)) as [|[|k]]; cbn [nth_error]; try discriminate. intros P P'. apply some_inj in P, P'. rewrite <- P, <- P'. ring.
Qed.
Lemma cx_added : constants_added (cx_stack cx_zero) (cx_stack cx_c) cx_c.
Proof.
  split; [reflexivity|]. split; [reflexivity|]. split; [reflexivity|].
  intros t x p p' Bt _. change (length (st_dates (cx_stack cx_zero))) with 4 in Bt.
  destruct t as [|[|[|[|]]]]; try lia; intros P P'; apply cong2pi_eq.
  - cbn in P, P'. apply some_inj in P, P'. rewrite <- P, <- P'. reflexivity.
  - exact (cx_at 3 1 x p p' P P').
  - exact (cx_at 1 2 x p p' P P').
  - exact (cx_at (- (3)) 3 x p p' P P').
Qed.
Lemma cx_readable c : readable (cx_stack c).
Proof.
  intros d f. cbn [cx_stack px_stack st_files dict_get fst snd].
  repeat (destruct (String.eqb _ _); [intros E; first [discriminate E|injection E as <-; eexists; split; [reflexivity|reflexivity]]|]); discriminate.
Qed.
Lemma cx_coh c : coh_shape (cx_stack c) 13 1.
Proof. split; [reflexivity|]. intros r I. cbn [cx_stack st_coh] in I. apply repeat_spec in I. subst r. reflexivity. Qed.

(** The interferograms stay between minus one and one. *)
Lemma cx_value t x p : image_at (cx_image 0 t) x = Some p -> (0 <= p <= 1)%Q.
Proof.
  unfold image_at. destruct (_ && _)%bool; [|discriminate]. unfold pixel_at, cx_image. rewrite nth_error_map.
  destruct (nth_error (seq 0 13) _) as [r|]; [|discriminate]. cbn [option_map].
  destruct (Z.to_nat (snd x)) as [|[|k]]; cbn [nth_error]; try discriminate. intros P. apply some_inj in P. rewrite <- P.
  pose proof (Nat.mod_upper_bound (t * r) 2 ltac:(lia)) as B. destruct ((t * r) mod 2) as [|[|n]]; [split; apply Qle_bool_iff; reflexivity|split; apply Qle_bool_iff; reflexivity|lia].
Qed.
Lemma cx_phase t x p : t < 4 -> slc_phase (cx_stack cx_zero) (nth t (st_dates (cx_stack cx_zero)) ""%string) x = Some p -> (0 <= p <= 1)%Q.
Proof.
  intros Bt P. destruct t as [|[|[|[|]]]]; try lia.
  - cbn in P. apply some_inj in P. subst p. lra.
  - exact (cx_value 1 x p P).
  - exact (cx_value 2 x p P).
  - exact (cx_value 3 x p P).
Qed.
Transparent twopi.
Lemma cx_four : (4 < twopi)%Q.
Proof. reflexivity. Qed.
Opaque twopi.
Lemma cx_decided b : sides_decided px_triangles (cx_stack cx_zero) (g_links cx_gt) b.
Proof.
  intros pts tri i j _ _ I phase u v a d _ (p & q & P & Q & C) (p' & q' & P' & Q' & C') (k & K).
  assert (i < 4 /\ j < 4) as [Bi Bj] by (cbn in I; repeat (destruct I as [[= <- <-]|I]; [lia|]); destruct I).
  apply cx_phase in P, Q, P', Q'; auto. destruct C as [k1 E1]. destruct C' as [k2 E2].
  assert (q' - p' - (q - p) == twopi * (inject_Z (k - k2 + k1) + (1 # 2)))%Q as E.
  { unfold Z.sub. rewrite !inject_Z_plus, inject_Z_opp. rewrite E1, E2 in K.
    transitivity ((q' - p' + twopi * inject_Z k2) - (q - p + twopi * inject_Z k1) - twopi * inject_Z k2 + twopi * inject_Z k1)%Q; [ring|]. rewrite K. ring. }
  assert (-2 <= twopi * (inject_Z (k - k2 + k1) + (1 # 2)) <= 2)%Q as B by (rewrite <- E; lra).
  generalize dependent (k - k2 + k1)%Z. intros z _ B. pose proof cx_four as T. 
  destruct (Z.le_gt_cases 0 z) as [Hz|Hz].
  - assert (0 <= inject_Z z)%Q as Hq by (change 0%Q with (inject_Z 0); now rewrite <- Zle_Qle). 
    assert (twopi * (1 # 2) <= twopi * (inject_Z z + (1 # 2)))%Q by (apply Qmult_le_l; lra). lra.
  - assert (inject_Z z <= -1)%Q as Hq by (change (-1)%Q with (inject_Z (-1)); rewrite <- Zle_Qle; lia). 
    assert (twopi * (inject_Z z + (1 # 2)) <= twopi * (- (1 # 2)))%Q by (apply Qmult_le_l; lra). lra.
Qed.

(** What the first run writes, with simplified fractions. *)
Definition cx_val (n r : nat) : Q :=
  let (i, j) := nth n (g_links cx_gt) (0, 0) in inject_Z (Z.of_nat (j * r mod 2) - Z.of_nat (i * r mod 2)).
Definition cx_file (s : nat) (b : bbox) : tile_file :=
  TileFile (map (fun r => (Z.of_nat r, 0%Z)) (seq 0 12)) b
    (map (fun n => map (fun r => cx_val n (s + r) - cx_val n s)%Q (seq 0 12)) (seq 0 6)) (map (fun n => cx_val n s) (seq 0 6)).
Definition cx_red : list tile_file := [cx_file 0 (BBox 0 0 12 1); cx_file 1 (BBox 1 0 13 1)].
Definition cx_f : overlap_file := OFile [OGroup (0, 1) (seq 1 11) (seq 0 11) (repeat (repeat 0%Z 11) 6)] [0; 0] [(0, 1)].
Definition box_eqb (a b : bbox) : bool := ((xmin a =? xmin b) && (ymin a =? ymin b) && (xmax a =? xmax b) && (ymax a =? ymax b))%Z.
Definition like (f r : tile_file) : bool :=
  (length (tf_points f) =? 12) && forallb (fun p => point_eqb (nth p (tf_points f) (0, 0)%Z) (nth p (tf_points r) (0, 0)%Z)) (seq 0 12) && box_eqb (tf_tile f) (tf_tile r) &&
  forallb (fun n => forallb (fun p => Qeq_bool (MergeSpec.phase_of f n p) (MergeSpec.phase_of r n p)) (seq 0 12)) (seq 0 6).
Lemma two_like (o : res (list tile_file)) a b :
  match o with Ok [f; g] => like f a && like g b | _ => false end = true -> exists f g, o = Ok [f; g] /\ like f a = true /\ like g b = true.
Proof. destruct o as [[|f [|g [|]]]|]; try discriminate. intros E. apply andb_prop in E as [E1 E2]. eauto. Qed.
Transparent twopi.
Lemma cx_like : exists f g, map_res (px_unwrap (cx_stack cx_zero) cx_gt) (tiles cx_tiles) = Ok [f; g] /\
  like f (nth 0 cx_red no_file) = true /\ like g (nth 1 cx_red no_file) = true.
Proof. apply two_like. vm_compute. reflexivity. Qed.
Lemma cx_computed : compute_phasediff_deciles labels_of 11 cx_red cx_tiles = Ok cx_f.
Proof. vm_compute. reflexivity. Qed.
Opaque twopi.
Lemma like_same f r : length (tf_points r) = 12 -> like f r = true ->
  tf_points f = tf_points r /\ tf_tile f = tf_tile r /\ forall n p, n < 6 -> p < 12 -> (MergeSpec.phase_of f n p == MergeSpec.phase_of r n p)%Q.
Proof.
  intros L E. unfold like in E. apply andb_prop in E as [E E4]. apply andb_prop in E as [E E3]. apply andb_prop in E as [E1 E2].
  rewrite forallb_forall in E2, E4. split; [|split].
  - apply (nth_ext _ _ (0, 0)%Z (0, 0)%Z); [lia|]. intros p Bp. specialize (E2 p ltac:(apply in_seq; lia)). unfold point_eqb in E2. 
    destruct (nth p (tf_points f) _), (nth p (tf_points r) _). cbn [fst snd] in E2. f_equal; lia.
  - unfold box_eqb in E3. destruct (tf_tile f), (tf_tile r). cbn in E3. f_equal; lia.
  - intros n p Bn Bp. specialize (E4 n ltac:(apply in_seq; lia)). rewrite forallb_forall in E4. apply Qeq_bool_iff, E4, in_seq. lia.
Qed.

(** The hypotheses hold. Three is added to the second date, so the second tile starts
    beyond half a cycle and the first one does not. *)
Example C90_stack_witness : exists files, map_res (px_unwrap (cx_stack cx_zero) cx_gt) (tiles cx_tiles) = Ok files /\
  readable (cx_stack cx_zero) /\ readable (cx_stack cx_c) /\ coh_shape (cx_stack cx_zero) 13 1 /\
  constants_added (cx_stack cx_zero) (cx_stack cx_c) cx_c /\ (forall b, In b (tiles cx_tiles) -> sides_decided px_triangles (cx_stack cx_zero) (g_links cx_gt) b) /\
  compute_phasediff_deciles labels_of 11 files cx_tiles = Ok cx_f /\ overlap_map cx_f = Ok [[1]; [0]] /\
  (exists bulk R, get_bulk_offsets exact_mip exact_lsq "integer"%string cx_f cx_tiles (repeat [true] 13) = Ok (bulk, R)) /\
  explained cx_f files 6 (fun _ _ => 0%Z) /\ (step (g_links cx_gt) cx_c 0 == 3)%Q /\
  (MergeSpec.phase_of (nth 0 files no_file) 0 0 == 0)%Q /\ (MergeSpec.phase_of (nth 1 files no_file) 0 0 == 1)%Q.
Proof.
  destruct cx_like as (f & g & Em & Ef & Eg).
  apply like_same in Ef as (F1 & F2 & F3); [|reflexivity]. apply like_same in Eg as (G1 & G2 & G3); [|reflexivity].
  exists [f; g]. split; [exact Em|]. split; [apply cx_readable|]. split; [apply cx_readable|]. split; [apply cx_coh|]. split; [exact cx_added|]. split; [intros b _; apply cx_decided|].
  assert (cut_files cx_tiles 13 1 6 [f; g]) as Cf.
  { apply (files_cut (fun _ _ => None) px_triangles (fun _ l => rev l) (@rev nat) 4 (Settings Constant Constant 2 0 0) [] [] (fun _ => []) (fun _ => [])
      px_smcf px_planar (fun _ l => Permutation_sym (Permutation_rev l)) (fun l => Permutation_sym (Permutation_rev l)) ltac:(cbn; lia) (cx_stack cx_zero) cx_gt).
    - apply hop3_planar. lia.
    - lia.
    - intros b [<-|[<-|[]]]; cbn; lia.
    - repeat constructor; cbn; intuition discriminate.
    - reflexivity.
    - apply cx_coh.
    - reflexivity.
    - pose proof Em as Em2. apply map_res_nth in Em2 as [_ V]. intros k Bk. exact (V k _ no_file Bk). }
  clear Em.
  assert (same_layout cx_red [f; g]) as Ly by (split; [reflexivity|]; intros [|[|[|i]]]; cbn [nth]; auto).
  assert (cut_files cx_tiles 13 1 6 cx_red) as Cr.
  { destruct Cf as (C1 & C2 & C3 & C4). destruct (C4 f (or_introl eq_refl)) as (N1 & I1 & _). destruct (C4 g (or_intror (or_introl eq_refl))) as (N2 & I2 & _).
    unfold file_coords in I1, I2. rewrite F1, ?F2 in *. rewrite G1, ?G2 in *.
    split; [reflexivity|]. split; [lia|]. split; [intros [|[|n]] Bn; [reflexivity|reflexivity|cbn in Bn; lia]|].
    assert (forall s b, tile_bands 6 (cx_file s b)) as Tb.
    { intros s b. split; [reflexivity|]. split; [reflexivity|]. intros r I. unfold cx_file in *. cbn [tf_uw tf_points] in *. apply in_map_iff in I as (n & <- & _). now rewrite !map_length. }
    intros fl [<-|[<-|[]]]; (split; [assumption|]; split; [assumption|]; apply Tb). }
  assert (same_field 6 (fun _ _ => 0%Q) cx_red [f; g]) as Sf.
  { intros b i p x Bb Ex. rewrite Qplus_0_r. assert (p < length (file_coords (nth i cx_red no_file))) as Bp by (apply nth_error_Some; congruence).
    destruct i as [|[|[|i]]]; cbn [nth cx_red] in *; [apply F3; auto|apply G3; auto|destruct p; discriminate|destruct p; discriminate]. }
  assert (overlap_map cx_f = Ok [[1]; [0]]) as Eo by reflexivity.
  destruct (C84_merge labels_of 11 cx_red [f; g] cx_tiles cx_f 13 1 6 (fun _ _ => 0%Q) sh_cg (fun _ => true) wf_triangles [[1]; [0]] (proj1 components_witness) sh_respects Cr Cf Ly Sf cx_computed Eo) as (Ec & _).
  split; [exact Ec|]. split; [exact Eo|]. split; [eexists; eexists; vm_compute; reflexivity|].
  assert (file_coords f = file_coords (nth 0 cx_red no_file) /\ file_coords g = file_coords (nth 1 cx_red no_file)) as [Cof Cog] by (unfold file_coords; rewrite F1, F2, G1, G2; split; reflexivity).
  split; [split; [|intros b i j _ _ _; cbn; lia]|].
  - intros b i j Bb [I|[]]. injection I as <- <-. split; [lia|]. cbn [nth]. unfold most_differ, common_pixels. rewrite Cof, Cog.
    exists (map (fun r => (Z.of_nat r, 0%Z)) (seq 1 11)). split; [|split].
    + apply FinFun.Injective_map_NoDup; [intros a c Q; injection Q; lia|apply seq_NoDup].
    + vm_compute. lia.
    + intros x I. apply in_map_iff in I as (r & <- & I). apply in_seq in I. exists r, (r - 1). 
      assert (forall s b q, q < 12 -> nth_error (file_coords (cx_file s b)) q = Some (Z.of_nat q + xmin b, 0 + ymin b)%Z) as V.
      { intros s bb q Bq. unfold file_coords, cx_file. cbn [tf_points tf_tile]. rewrite !nth_error_map, (nth_error_nth' _ 0) by (now rewrite seq_length). rewrite seq_nth by auto. reflexivity. }
      split; [cbn [nth cx_red]; rewrite V by lia; cbn [xmin ymin]; do 2 f_equal; lia|]. split; [cbn [nth cx_red]; rewrite V by lia; cbn [xmin ymin]; do 2 f_equal; lia|].
      rewrite G3, F3 by lia. cbn [nth cx_red].
      assert (forall s bb n q, q < 12 -> n < 6 -> (MergeSpec.phase_of (cx_file s bb) n q == cx_val n (s + q)%nat)%Q) as W.
      { intros s bb n q Bq Bn. unfold MergeSpec.phase_of, at_, cx_file. cbn [tf_uw tf_offset]. rewrite !(map_nth' _ _ n 0) by (now rewrite seq_length). rewrite seq_nth by auto.
        rewrite (map_nth' _ _ q 0) by (now rewrite seq_length). rewrite seq_nth by auto. cbn [Nat.add]. ring. }
      rewrite !W by lia. replace (1 + (r - 1)) with (0 + r) by lia. change (inject_Z (0 - 0)) with 0%Q. ring.
  - split; [reflexivity|]. cbn [nth]. split; [rewrite F3 by lia; reflexivity|rewrite G3 by lia; reflexivity].
Qed.

Print Assumptions C90_tile.
Print Assumptions C90_stack.
Print Assumptions C90_stack_witness.
