(** C88: only the interferograms of a stack matter, not its reference date. *)
From Verif Require Import Base BaseLemmas PoolProofs GraphModel GraphSpec GraphProofs Hop3Proofs McfModel McfSpec PhaseProofs EmcfModel EmcfSpec
  InvariantSpec InvariantProofs TileModel TileSpec SlcModel SlcSpec SlcProofs Props_Slc OverlapModel OverlapSpec MergeModel MergeSpec
  UnwrapTileModel UnwrapTileProofs PipelineSpec ExactSpec WorkflowModel Props_Pipeline ShiftSpec CertSolver Props_Any Props_InvariantTile
  PerturbSpec Props_Perturb MaskedProofs ReferenceSpec.
From Coq Require Import List Permutation ZifyBool Lqa.
Import ListNotations.
Set Default Goal Selector "!".
Local Open Scope nat_scope.
Opaque twopi.

Lemma stays_same x : ~ half_way_phase x -> stays x 0.
Proof.
  intros H. exists (x - twopi * inject_Z (rint (x / twopi)))%Q. pose proof twopi_pos as P.
  set (k := rint (x / twopi)). pose proof (rint_bound (x / twopi)) as B. fold k in B.
  assert (x == (x / twopi) * twopi)%Q as Ex by (field; lra). set (q := (x / twopi)%Q) in *. clearbody q.
  split; [exists (- k)%Z; rewrite inject_Z_opp; ring|].
  assert (~ q == inject_Z k + (1 # 2))%Q as N1.
  { intros E. apply H. exists k. rewrite Ex, E. ring. }
  assert (~ q == inject_Z k - (1 # 2))%Q as N2.
  { intros E. apply H. exists (k - 1)%Z. unfold Z.sub. rewrite inject_Z_plus. change (inject_Z (- (1))) with (- (1))%Q. rewrite Ex, E. ring. }
  assert (- (1 # 2) < q - inject_Z k < 1 # 2)%Q as [L U].
  { split; apply Qnot_le_lt; intros K; [apply N2|apply N1]; lra. }
  assert (x - twopi * inject_Z k == (q - inject_Z k) * twopi)%Q as -> by (rewrite Ex; ring).
  apply (Qmult_lt_compat_r _ _ twopi P) in L. apply (Qmult_lt_compat_r _ _ twopi P) in U. unfold half. split; lra.
Qed.

(** Every date of a readable stack has a phase at every valid pixel. *)
Lemma phase_there st d x : readable st -> In d (st_dates st) -> valid_pixel st x -> exists p, slc_phase st d x = Some p.
Proof.
  intros R I (q & Eq & _). unfold slc_phase.
  assert (In d (map fst (st_files st))) as I' by (eapply Permutation_in; [apply sort_str_perm|exact I]).
  destruct (dict_get d (st_files st)) as [[f|]|] eqn:E; [|eauto|exfalso; now apply (proj1 (dict_get_none _ _)) in E].
  destruct (R d f E) as (img & -> & G). unfold image_at in *. destruct (_ && _)%bool; [|discriminate].
  unfold pixel_at in *. apply grid_nth in G as [L G]. destruct (nth_error (st_coh st) (Z.to_nat (fst x))) as [row|] eqn:Er; [|discriminate].
  assert (Z.to_nat (fst x) < length (st_coh st)) as Bi by (apply nth_error_Some; congruence).
  destruct (nth_error img (Z.to_nat (fst x))) as [row'|] eqn:Er'; [|apply nth_error_None in Er'; lia].
  pose proof (G _ _ _ Er' Er) as Gl.
  assert (Z.to_nat (snd x) < length row) by (apply nth_error_Some; congruence).
  destruct (nth_error row' (Z.to_nat (snd x))) as [p|] eqn:Ep; [eauto|]. apply nth_error_None in Ep. lia.
Qed.

(** What the reference date of the second stack adds at a pixel. *)
Definition added (st st' : slc_stack Q) (x : Z * Z) : Q :=
  match slc_phase st (nth 0 (st_dates st) ""%string) x, slc_phase st' (nth 0 (st_dates st) ""%string) x with
  | Some p, Some p' => (p' - p)%Q
  | _, _ => 0%Q
  end.

Lemma moved_by_added st st' : readable st -> readable st' -> same_ifgs st st' -> moved_stack st st' (fun _ => added st st').
Proof.
  intros R R' (Ed & Ec & Et & H). split; [exact Ed|]. split; [exact Ec|]. split; [exact Et|]. intros t x p p' Bt V Hp Hp'.
  set (d0 := nth 0 (st_dates st) ""%string).
  assert (In d0 (st_dates st)) as I0 by (apply nth_In; lia).
  assert (valid_pixel st' x) as V'.
  { unfold valid_pixel in *. now rewrite Ec, Et. }
  destruct (phase_there st d0 x R I0 V) as (p0 & E0). destruct (phase_there st' d0 x R' ltac:(now rewrite Ed) V') as (p0' & E0').
  unfold added. fold d0. rewrite E0, E0'. destruct (H d0 _ x p0 p p0' p' V E0 Hp E0' Hp') as [k K]. exists k. lra.
Qed.

Lemma decided_steady triangles st ifgs b s : decided triangles st ifgs b -> steady triangles st ifgs (fun _ => s) b.
Proof.
  intros D pts tri n P T Bn. cbv zeta. destruct (nth n ifgs (0, 0)) as [i j] eqn:E. cbn [fst snd].
  assert (In (i, j) ifgs) as I by (rewrite <- E; now apply nth_In).
  destruct (D pts tri i j P T I) as [D0 D1]. cbv zeta in D0, D1.
  assert (forall x (y z : Q), ~ half_way_phase x -> (y - y - (z - z) == 0)%Q -> stays x (y - y - (z - z))) as S.
  { intros x y z N _. destruct (stays_same x N) as (w & C & B1 & B2). exists w. split; [exact C|]. split; [exact B1|].
    assert (w + (y - y - (z - z)) == w + 0)%Q as -> by ring. exact B2. }
  unfold drift. split.
  - intros a A. destruct (stays_same a (D0 a A)) as (w & C & B1 & B2). exists w. split; [exact C|]. split; [exact B1|].
    set (y := s _). assert (w + (y - y) == w + 0)%Q as -> by ring. exact B2.
  - intros u v a c J A C. apply S; [exact (D1 u v a c J A C)|ring].
Qed.

(** * C88 *)
Section Tile.
  Context (smcf : list arc -> list Z -> option (list Z))
          (triangles : list (Z * Z) -> res (list (nat * nat * nat)))
          (tsched : nat -> list nat -> list nat) (ssched : list nat -> list nat) (cpu : Z)
          (set : settings) (tdist tcent : list Z) (sdist scent : list (Z * Z) -> list Z).
  Hypothesis Hsm : smcf_sound smcf.
  Hypothesis Htri : forall pts tri, triangles pts = Ok tri -> planar (delaunay (length pts) tri).
  Hypothesis Ht : forall b l, Permutation (tsched b l) l.
  Hypothesis Hs : forall l, Permutation (ssched l) l.
  Hypothesis Hl : 0 < links_per_batch set.
  Notation unwrap := (unwrap_one_tile smcf triangles tsched ssched cpu set tdist tcent sdist scent).

  (** A tile: the same outcome, with the same pixels and phases in the file. *)
  Theorem C88_tile st st' gt b :
    hop3 (Z.of_nat (length (st_files st))) = Ok gt -> NoDup (map fst (st_files st)) ->
    (0 <= xmin b)%Z -> (0 <= ymin b)%Z -> readable st -> readable st' ->
    same_ifgs st st' -> decided triangles st (g_links gt) b ->
    same_outcome (fun f f' => tf_points f' = tf_points f /\ tf_tile f' = tf_tile f /\
        forall n p, n < length (g_links gt) -> p < length (tf_points f) ->
          (MergeSpec.phase_of f' n p == MergeSpec.phase_of f n p)%Q)
      (unwrap st gt b) (unwrap st' gt b).
  Proof using Htri Hl Hsm Ht Hs.
    intros G Nf Bx By R R' S D.
    pose proof (C84_tile smcf triangles tsched ssched cpu set tdist tcent sdist scent Hsm Htri Ht Hs Hl st st' gt b _ G Nf Bx By R R'
      (moved_by_added st st' R R' S) (decided_steady _ _ _ _ _ D)) as K.
    destruct (unwrap st gt b) as [f|], (unwrap st' gt b) as [f'|]; cbn [same_outcome] in *; auto.
    destruct K as (K1 & K2 & K3). split; [exact K1|]. split; [exact K2|]. intros n p Bn Bp.
    destruct (nth_error (file_coords f) p) as [x|] eqn:E.
    - rewrite (K3 n p x Bn E). unfold drift. ring.
    - apply nth_error_None in E. unfold file_coords in E. rewrite map_length in E. lia.
  Qed.
End Tile.

(** From the stack to the merged rasters: the same overlap statistics, hence the same
    bulk offsets, and the same merged phase, residual and smooth model. *)
Theorem C88_stack smcf triangles tsched ssched cpu set tdist tcent sdist scent st st' gt t h w comps min_points f files cg ilu omap :
  smcf_sound smcf -> (forall pts tri, triangles pts = Ok tri -> planar (delaunay (length pts) tri)) ->
  (forall b l, Permutation (tsched b l) l) -> (forall l, Permutation (ssched l) l) -> 0 < links_per_batch set ->
  (forall n e, length (comps n e) = n) -> respects cg ->
  hop3 (Z.of_nat (length (st_files st))) = Ok gt -> NoDup (map fst (st_files st)) -> coh_shape st h w -> (h * w <= 2 ^ 32)%Z ->
  (forall b, In b (tiles t) -> (0 <= xmin b)%Z /\ (0 <= ymin b)%Z) -> readable st -> readable st' ->
  same_ifgs st st' -> (forall b, In b (tiles t) -> decided triangles st (g_links gt) b) ->
  let unwrap := unwrap_one_tile smcf triangles tsched ssched cpu set tdist tcent sdist scent in
  map_res (unwrap st gt) (tiles t) = Ok files -> compute_phasediff_deciles comps min_points files t = Ok f -> overlap_map f = Ok omap ->
  exists files', map_res (unwrap st' gt) (tiles t) = Ok files' /\ compute_phasediff_deciles comps min_points files' t = Ok f /\
    forall md bulk sh idx outs, merge_batch cg ilu triangles f omap md bulk sh files idx = Ok outs ->
    exists outs', merge_batch cg ilu triangles f omap md bulk sh files' idx = Ok outs' /\
      length outs = length idx /\ length outs' = length idx /\
      forall n arr diff model, nth_error outs n = Some (arr, diff, model) ->
      exists arr' diff' model', nth_error outs' n = Some (arr', diff', model') /\
        forall x, in_shape sh x = true ->
          same_value (pixel arr x) (pixel arr' x) /\ same_value (pixel diff x) (pixel diff' x) /\ same_value (pixel model x) (pixel model' x).
Proof.
  intros H1 H2 H3 H4 H5 H6 H7 G Nf Csh Hhw Hpos R R' S D unwrap E Ef Eo.
  destruct (C84_stack smcf triangles tsched ssched cpu set tdist tcent sdist scent st st' gt t h w (fun _ => added st st') comps min_points f files cg ilu omap
    H1 H2 H3 H4 H5 H6 H7 G Nf Csh Hhw Hpos R R' (moved_by_added st st' R R' S) (fun b I => decided_steady _ _ _ _ _ (D b I)) E Ef Eo)
    as (files' & E' & Ef' & K).
  exists files'. split; [exact E'|]. split; [exact Ef'|]. intros md bulk sh idx outs M.
  destruct (K md bulk sh idx outs M) as (outs' & M' & L & L' & P). exists outs'. split; [exact M'|]. split; [exact L|]. split; [exact L'|].
  intros n arr diff model N. assert (n < length idx) as Bn by (rewrite <- L; apply nth_error_Some; congruence).
  destruct (nth_error idx n) as [k|] eqn:Ek; [|apply nth_error_None in Ek; lia].
  destruct (P n k arr diff model Ek N) as (arr' & diff' & model' & N' & Px). exists arr', diff', model'. split; [exact N'|].
  intros x I. destruct (Px x I) as (A & B & C).
  assert (forall o o', plus_opt (drift (g_links gt) (fun _ => added st st') k x) o o' -> same_value o o') as Z.
  { intros [v|] [v'|] Q; cbn in *; auto. rewrite Q. unfold drift. ring. }
  auto.
Qed.

(** * A case: [rough_stack] with the third date as reference and whole cycles added *)
Definition ref_image (t : nat) : list (list Q) :=
  map (fun r => map (fun c => (if t =? 0 then 0 else nth c (nth r (rough_image t) []) 0) - nth c (nth r (rough_image 2) []) 0 + twopi * inject_Z (Z.of_nat (r * t)))%Q [0; 1]) (seq 0 7).
Definition ref_stack : slc_stack Q :=
  SlcStack [("20200125", None); ("20200101", Some "x"); ("20200113", Some "a"); ("20200206", Some "c")]%string
    (st_coh rough_stack) (st_threshold rough_stack)
    (fun f => if String.eqb f "a" then Some (ref_image 1) else if String.eqb f "x" then Some (ref_image 0) else if String.eqb f "c" then Some (ref_image 3) else None).

Lemma ref_readable : readable ref_stack.
Proof.
  intros d f. cbn [ref_stack rough_stack st_files dict_get fst snd].
  repeat (destruct (String.eqb _ _); [intros E; first [discriminate E|injection E as <-; eexists; split; [reflexivity|vm_compute; reflexivity]]|]); discriminate.
Qed.

Lemma image_pos {A} (img : list (list A)) x p : image_at img x = Some p -> exists r c, x = (Z.of_nat r, Z.of_nat c) /\ pixel_at img r c = Some p.
Proof.
  destruct x as [r c]. unfold image_at. cbn [fst snd]. destruct ((0 <=? r) && (0 <=? c))%Z eqn:E; [|discriminate].
  intros H. exists (Z.to_nat r), (Z.to_nat c). split; [f_equal; lia|exact H].
Qed.

(** Both stacks at a pixel: the phases differ by that of the new reference. *)
Lemma ref_at d x p p' : valid_pixel rough_stack x -> slc_phase rough_stack d x = Some p -> slc_phase ref_stack d x = Some p' ->
  cong2pi p' (p - nth (Z.to_nat (snd x)) (nth (Z.to_nat (fst x)) (rough_image 2) []) 0)%Q.
Proof.
  intros (q & V & _) H H'. apply image_pos in V as (r & c & -> & V). cbn [fst snd]. rewrite !Nat2Z.id.
  unfold pixel_at in V. cbn [rough_stack st_coh] in V. destruct (nth_error _ r) as [row|] eqn:Er in V; [|discriminate].
  assert (r < 7) as Br by (apply nth_error_Some in Er || (assert (nth_error (map (fun _ : nat => [Some (4 # 5)%Q; Some (4 # 5)%Q]) (seq 0 7)) r <> None) as N by congruence; apply nth_error_Some in N; rewrite map_length, seq_length in N; exact N)).
  assert (c < 2) as Bc.
  { rewrite nth_error_map in Er. destruct (nth_error (seq 0 7) r); [|discriminate]. injection Er as <-. assert (nth_error [Some (4 # 5)%Q; Some (4 # 5)%Q] c <> None) as N by congruence. apply nth_error_Some in N. exact N. }
  clear V Er row q.
  assert (forall (f : nat -> nat -> Q) v, image_at (map (fun r => map (f r) [0; 1]) (seq 0 7)) (Z.of_nat r, Z.of_nat c) = Some v -> v = f r c) as Im.
  { intros f v. unfold image_at. cbn [fst snd]. destruct (_ && _)%bool; [|discriminate]. unfold pixel_at. rewrite !Nat2Z.id, nth_error_map, (nth_error_nth' _ 0) by (now rewrite seq_length).
    rewrite seq_nth by auto. cbn [option_map Nat.add]. destruct c as [|[|c]]; [| |lia]; cbn [map nth_error]; intros Q; exact (eq_sym (some_inj _ _ Q)). }
  assert (forall t, nth c (nth r (rough_image t) []) 0%Q = (inject_Z (Z.of_nat ((t * (r * r + 3 * c + 5 * t)) mod 13)) * (1 # 2))%Q) as Ir.
  { intros t. unfold rough_image. rewrite (map_nth' _ _ _ 0) by (now rewrite seq_length). rewrite seq_nth by auto. destruct c as [|[|c]]; [reflexivity|reflexivity|lia]. }
  unfold slc_phase in H, H'. cbn [rough_stack ref_stack st_files dict_get] in H, H'.
  assert (d = "20200101" \/ d = "20200113" \/ d = "20200125" \/ d = "20200206")%string as Hd.
  { destruct (String.eqb_spec "20200101" d); [auto|]. destruct (String.eqb_spec "20200113" d); [auto|]. destruct (String.eqb_spec "20200125" d); [auto|].
    destruct (String.eqb_spec "20200206" d); [auto|discriminate]. }
  destruct Hd as [-> | [-> | [-> | ->]]]; cbn [String.eqb Ascii.eqb Bool.eqb] in H, H'; cbn [rough_stack ref_stack st_slc String.eqb Ascii.eqb Bool.eqb] in H, H'.
  - apply some_inj in H. unfold ref_image in H'. apply Im in H'. subst p p'. cbn [Nat.eqb]. exists (Z.of_nat (r * 0)). ring.
  - unfold rough_image in H. apply Im in H. unfold ref_image in H'. apply Im in H'. subst p p'. cbn [Nat.eqb]. exists (Z.of_nat (r * 1)). rewrite !Ir. ring.
  - unfold rough_image in H. apply Im in H. apply some_inj in H'. subst p p'. exists 0%Z. rewrite !Ir. ring.
  - unfold rough_image in H. apply Im in H. unfold ref_image in H'. apply Im in H'. subst p p'. cbn [Nat.eqb]. exists (Z.of_nat (r * 3)). rewrite !Ir. ring.
Qed.

Lemma ref_same : same_ifgs rough_stack ref_stack.
Proof.
  split; [reflexivity|]. split; [reflexivity|]. split; [reflexivity|]. intros d1 d2 x a b a' b' V A B A' B'.
  destruct (ref_at d1 x a a' V A A') as [k1 K1]. destruct (ref_at d2 x b b' V B B') as [k2 K2]. exists (k2 - k1)%Z.
  rewrite K1, K2. unfold Z.sub. rewrite inject_Z_plus, inject_Z_opp. ring.
Qed.

Lemma stays_decided x d : stays x d -> ~ half_way_phase x.
Proof.
  intros (w & [k K] & [B1 B2] & _) [j J]. pose proof twopi_pos as P. unfold half in *.
  assert (w == twopi * (inject_Z (k + j) + (1 # 2)))%Q as E by (rewrite K, J, inject_Z_plus; ring).
  rewrite E in B1, B2. destruct (Z_lt_le_dec (k + j) 0) as [L|L].
  - assert (inject_Z (k + j) <= inject_Z (- (1)))%Q as L' by (apply inject_Z_le_iff; lia). change (inject_Z (- (1))) with (- (1))%Q in L'.
    assert (twopi * (inject_Z (k + j) + (1 # 2)) <= twopi * (- (1 # 2)))%Q by (rewrite !(Qmult_comm twopi); apply Qmult_le_compat_r; lra). lra.
  - assert (inject_Z 0 <= inject_Z (k + j))%Q as L' by (apply inject_Z_le_iff; lia). change (inject_Z 0) with 0%Q in L'.
    assert (twopi * (1 # 2) <= twopi * (inject_Z (k + j) + (1 # 2)))%Q by (rewrite !(Qmult_comm twopi); apply Qmult_le_compat_r; lra). lra.
Qed.

(** Four dates, two overlapping tiles, phases with residues: the tiles unwrap. *)
Example C88_stack_witness : let st := rough_stack in let gt := hop3_graph 4 in
  hop3 (Z.of_nat (length (st_files st))) = Ok gt /\ NoDup (map fst (st_files st)) /\ coh_shape st 7 2 /\
  readable st /\ readable ref_stack /\ same_ifgs st ref_stack /\
  dict_get "20200101" (st_files st) = Some None /\ dict_get "20200125" (st_files ref_stack) = Some None /\
  (forall b, In b (tiles two_tiles) -> decided px_triangles st (g_links gt) b) /\
  exists files, map_res (rough_unwrap st gt) (tiles two_tiles) = Ok files.
Proof.
  cbv zeta. destruct C84_stack_witness as (W1 & W2 & W3 & W4 & _ & _ & _ & W8 & _ & W10).
  split; [exact W1|]. split; [exact W2|]. split; [exact W3|]. split; [exact W4|]. split; [exact ref_readable|]. split; [exact ref_same|].
  split; [reflexivity|]. split; [reflexivity|]. split; [|exact W10].
  intros b I pts tri i j P T J. apply (In_nth _ _ (0, 0)) in J as (n & Bn & En).
  destruct (W8 b I pts tri n P T Bn) as [S0 S1]. cbv zeta in S0, S1. rewrite En in S0, S1. cbn [fst snd] in S0, S1. cbv zeta. split.
  - intros a A. eapply stays_decided, S0, A.
  - intros u v a c K A C. eapply stays_decided, (S1 u v a c); eauto.
Qed.

(** Half a cycle is the limit: one date of this stack is half a cycle, or minus half a
    cycle, from the others. *)
Definition tie_stack (k : Z) : slc_stack Q :=
  SlcStack [("20200101", None); ("20200113", Some "a"); ("20200125", Some "b"); ("20200206", Some "b")]%string
    (repeat [Some (4 # 5)%Q] 3) (1 # 2)
    (fun f => Some (repeat [if String.eqb f "a" then (twopi * (inject_Z k + (1 # 2)))%Q else 0%Q] 3)).

Lemma tie_readable k : readable (tie_stack k).
Proof. intros d f _. eexists. split; reflexivity. Qed.

Lemma tie_at k d x p : slc_phase (tie_stack k) d x = Some p -> p = (if String.eqb d "20200113" then twopi * (inject_Z k + (1 # 2)) else 0)%Q.
Proof.
  assert (forall v w : Q, image_at (repeat [v] 3) x = Some w -> w = v) as I.
  { intros v w. unfold image_at. destruct (_ && _)%bool; [|discriminate]. unfold pixel_at.
    destruct (Z.to_nat (fst x)) as [|[|[|r]]]; cbn [nth_error repeat]; try (destruct (Z.to_nat (snd x)) as [|[|c]]; cbn [nth_error]; congruence). destruct r; discriminate. }
  unfold slc_phase. cbn [tie_stack st_files st_slc dict_get].
  destruct (String.eqb_spec "20200101" d) as [<-|N1]; [intros [= <-]; reflexivity|].
  destruct (String.eqb_spec "20200113" d) as [<-|N2]; [intros H; apply I in H; exact H|].
  destruct (String.eqb_spec d "20200113") as [->|N3]; [congruence|].
  destruct (String.eqb_spec "20200125" d) as [<-|N4]; [intros H; apply I in H; exact H|].
  destruct (String.eqb_spec "20200206" d) as [<-|N5]; [intros H; apply I in H; exact H|discriminate].
Qed.

Transparent twopi.
Lemma tie_runs : match rough_unwrap (tie_stack 0) (hop3_graph 4) (BBox 0 0 3 1), rough_unwrap (tie_stack (- (1))) (hop3_graph 4) (BBox 0 0 3 1) with
  | Ok f, Ok f' => Qeq_bool (MergeSpec.phase_of f' 0 0) (MergeSpec.phase_of f 0 0 - twopi)
  | _, _ => false end = true.
Proof. vm_cast_no_check (eq_refl true). Qed.
Opaque twopi.
Theorem C88_ties_refuted : exists st st' gt b f f',
  hop3 (Z.of_nat (length (st_files st))) = Ok gt /\ NoDup (map fst (st_files st)) /\ readable st /\ readable st' /\ same_ifgs st st' /\
  rough_unwrap st gt b = Ok f /\ rough_unwrap st' gt b = Ok f' /\
  (MergeSpec.phase_of f' 0 0 == MergeSpec.phase_of f 0 0 - twopi)%Q.
Proof.
  pose proof tie_runs as K.
  destruct (rough_unwrap (tie_stack 0) (hop3_graph 4) (BBox 0 0 3 1)) as [f|] eqn:E; [|discriminate K].
  destruct (rough_unwrap (tie_stack (- (1))) (hop3_graph 4) (BBox 0 0 3 1)) as [f'|] eqn:E'; [|discriminate K].
  exists (tie_stack 0), (tie_stack (- (1))), (hop3_graph 4), (BBox 0 0 3 1), f, f'.
  split; [reflexivity|]. split; [repeat constructor; cbn; intuition discriminate|]. split; [apply tie_readable|]. split; [apply tie_readable|]. split; [|split; [exact E|split; [exact E'|]]].
  - split; [reflexivity|]. split; [reflexivity|]. split; [reflexivity|]. intros d1 d2 x a b a' b' _ A B A' B'.
    apply tie_at in A, B, A', B'. subst a b a' b'.
    destruct (String.eqb d1 _), (String.eqb d2 _); [exists 0%Z|exists 1%Z|exists (- (1))%Z|exists 0%Z]; cbn [inject_Z Z.opp]; change (inject_Z (- (1))) with (- (1))%Q; change (inject_Z 1) with 1%Q; change (inject_Z 0) with 0%Q; ring.
  - now apply Qeq_bool_iff.
Qed.

Print Assumptions C88_tile.
Print Assumptions C88_stack.
Print Assumptions C88_ties_refuted.
