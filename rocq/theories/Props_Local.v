(** C77: a change of a tile spreads at most one overlap per pass. *)
From Verif Require Import Base BaseLemmas PoolProofs GraphModel GraphSpec TileModel TileSpec OverlapModel OverlapSpec BulkModel BulkSpec BulkProofs
  MergeModel MergeSpec AdjustProofs MergeBatchProofs DescribeProofs Props_Merge Props_Workflow ExactSpec ExactWitness Props_Exact
  ShiftSpec ShiftProofs ShiftMergeProofs LocalSpec Props_Shift.
From Coq Require Import String.
From Coq Require Import List ZifyBool Lqa.
Import ListNotations.
Set Default Goal Selector "!".
Local Open Scope Q_scope.
Opaque twopi.

Lemma within_more olaps D n j : within olaps D n j -> within olaps D (S n) j.
Proof. induction 1 as [n j I|n i j W IH E]; [now apply within_start|]. eapply within_step; eauto. Qed.

Lemma within_neighbour f D n i j : In j (neighbours f i) -> within (of_overlaps f) D n j -> within (of_overlaps f) D (S n) i.
Proof.
  intros I W. unfold neighbours in I. apply in_flat_map in I as ([a b] & Ie & I). cbn [fst snd] in I. apply in_app_iff in I as [I|I].
  - destruct (a =? i)%nat eqn:E; [|destruct I]. destruct I as [->|[]]. apply Nat.eqb_eq in E as ->. eapply within_step; eauto.
  - destruct (b =? i)%nat eqn:E; [|destruct I]. destruct I as [->|[]]. apply Nat.eqb_eq in E as ->. eapply within_step; eauto.
Qed.

Lemma within_shrinks f D n : forall m j, ~ within (of_overlaps f) D (m + n) j -> shrinks f n (fun i => ~ within (of_overlaps f) D m i) j.
Proof.
  induction n as [|n IH]; intros m j N; cbn [shrinks]; [now rewrite Nat.add_0_r in N|].
  assert (forall k (P Q : nat -> Prop) i, (forall a, P a -> Q a) -> shrinks f k P i -> shrinks f k Q i) as Mono.
  { clear. induction k as [|k IH]; intros P Q i PQ H; cbn in *; [auto|]. eapply IH; [|exact H]. intros a [A B]. split; auto. }
  apply (Mono n (fun i => ~ within (of_overlaps f) D (S m) i)).
  - intros a Na. split; [intros W; apply Na, within_more, W|]. intros b I W. apply Na. eapply within_neighbour; eauto.
  - apply IH. now replace (S m + n)%nat with (m + S n)%nat by lia.
Qed.

(** [files'] is [files] with other phases in the tiles [D], and other bulk offsets
    for them. Then the second merge succeeds when the first does, and the outputs
    agree at every pixel all of whose tiles are more than [md - 1] overlaps away
    from [D], where [md] is the largest number of tiles at a pixel. *)
Theorem C77_local comps min_points files files' t f f' H W bands bulk bulk' cg ilu triangles omap omap' (D : nat -> Prop) :
  (forall n e, length (comps n e) = n) -> respects cg ->
  cut_files t H W bands files -> cut_files t H W bands files' -> same_layout files files' ->
  (forall j, ~ D j -> nth j files' no_file = nth j files no_file) ->
  compute_phasediff_deciles comps min_points files t = Ok f -> compute_phasediff_deciles comps min_points files' t = Ok f' ->
  length bulk' = bands -> (forall b, (b < bands)%nat -> length (nth b bulk' []) = length files') ->
  (forall b j, (b < bands)%nat -> (j < length files)%nat -> ~ D j -> nth j (nth b bulk' []) 0 == nth j (nth b bulk []) 0) ->
  overlap_map f = Ok omap -> overlap_map f' = Ok omap' ->
  forall md sh idx outs, merge_batch cg ilu triangles f omap md bulk sh files idx = Ok outs ->
  exists outs', merge_batch cg ilu triangles f' omap' md bulk' sh files' idx = Ok outs' /\
    length outs = length idx /\ length outs' = length idx /\
    forall n b arr diff model, nth_error idx n = Some b -> nth_error outs n = Some (arr, diff, model) ->
    exists arr' diff' model', nth_error outs' n = Some (arr', diff', model') /\
      forall x, in_shape sh x = true ->
      (forall j, (j < length files)%nat -> In x (file_coords (nth j files no_file)) -> ~ within (of_overlaps f) D (md - 1) j) ->
      same_value (pixel arr x) (pixel arr' x) /\ same_value (pixel diff x) (pixel diff' x) /\ same_value (pixel model x) (pixel model' x).
Proof.
  intros Hl Hcg Hcut Hcut' Ly Hd Hc Hc' Lb Lj Hb Hom Hom' md sh idx outs Hm.
  pose proof (absorb_overlaps comps min_points files files' t f f' Hl Ly Hc Hc') as Ho.
  pose proof Hcut as (Hn & Hfit & Ht & Hf). pose proof Hcut' as (Hn' & _ & Ht' & Hf'). rewrite no_file_d in *.
  assert (recorded_files f files) as Rf by (eapply (computed_recorded comps min_points files t f H W); eauto; intros fl I; apply Hf, I).
  assert (recorded_files f' files') as Rf' by (eapply (computed_recorded comps min_points files' t f' H W); eauto; intros fl I; apply Hf', I).
  destruct (computed comps min_points files t f Hc Hl) as (_ & _ & _ & _ & L1). destruct (computed comps min_points files' t f' Hc' Hl) as (_ & _ & _ & _ & L2).
  assert (overlap_map f' = Ok omap) as Hom2 by (now rewrite (overlap_map_same f f' _ L1 L2 Ho)). assert (omap' = omap) as -> by congruence.
  assert (forall j, ~ within (of_overlaps f) D 0 j -> ~ D j) as W0 by (intros j Nw I; apply Nw; now apply within_start).
  destruct (batch_shift cg ilu triangles f f' omap md files files' bulk bulk' bands (fun _ _ => 0%Z) (fun _ _ => 0%Z) sh idx (fun i => ~ within (of_overlaps f) D 0 i) Hcg)
    with (outs := outs) as (outs' & E' & La & Lb' & P); auto.
  { intros fl I. destruct (Hf fl I) as (A & _ & B). auto. }
  { intros fl I. destruct (Hf' fl I) as (A & _ & B). auto. }
  { intros b i p Fi _ _. rewrite no_file_d, (Hd i (W0 i Fi)). change (inject_Z 0) with 0. ring. }
  { intros b j Fj Bb Bj. rewrite (Hb b j Bb Bj (W0 j Fj)). change (inject_Z 0) with 0. ring. }
  exists outs'. split; [exact E'|]. split; [exact La|]. split; [exact Lb'|]. intros n b arr diff model Eb Eo.
  destruct (P n b arr diff model Eb Eo) as (arr' & diff' & model' & Ea & Px). exists arr', diff', model'. split; [exact Ea|].
  intros x S Hx. destruct (Px x 0%Z S) as (P1 & P2 & P3).
  { intros j Bj Ij. split; [|reflexivity]. apply within_shrinks. apply Hx; assumption. }
  assert (forall o o', moved 0 o o' -> same_value o o') as Mv.
  { intros [v|] [v'|]; cbn; auto. intros E. rewrite E. change (inject_Z 0) with 0. ring. }
  split; [|split]; auto. destruct P3 as [P3|(v & v' & w & j & _ & _ & _ & _ & _ & _ & Nk)]; [auto|contradiction].
Qed.

(** In particular tiles that are not linked to [D] are never affected. *)
Corollary C77_components comps min_points files files' t f f' H W bands bulk bulk' cg ilu triangles omap omap' (D : nat -> Prop) :
  (forall n e, length (comps n e) = n) -> respects cg ->
  cut_files t H W bands files -> cut_files t H W bands files' -> same_layout files files' ->
  (forall j, ~ D j -> nth j files' no_file = nth j files no_file) ->
  compute_phasediff_deciles comps min_points files t = Ok f -> compute_phasediff_deciles comps min_points files' t = Ok f' ->
  length bulk' = bands -> (forall b, (b < bands)%nat -> length (nth b bulk' []) = length files') ->
  (forall b j, (b < bands)%nat -> (j < length files)%nat -> ~ D j -> nth j (nth b bulk' []) 0 == nth j (nth b bulk []) 0) ->
  overlap_map f = Ok omap -> overlap_map f' = Ok omap' ->
  forall md sh idx outs, merge_batch cg ilu triangles f omap md bulk sh files idx = Ok outs ->
  exists outs', merge_batch cg ilu triangles f' omap' md bulk' sh files' idx = Ok outs' /\
    forall n b arr diff model, nth_error idx n = Some b -> nth_error outs n = Some (arr, diff, model) ->
    exists arr' diff' model', nth_error outs' n = Some (arr', diff', model') /\
      forall x, in_shape sh x = true ->
      (forall i j, D i -> (j < length files)%nat -> In x (file_coords (nth j files no_file)) -> ~ reach (of_overlaps f) i j) ->
      same_value (pixel arr x) (pixel arr' x) /\ same_value (pixel diff x) (pixel diff' x) /\ same_value (pixel model x) (pixel model' x).
Proof.
  intros A1 A2 A3 A4 A5 A6 A7 A8 A9 A10 A11 A12 A13 md sh idx outs Hm.
  destruct (C77_local comps min_points files files' t f f' H W bands bulk bulk' cg ilu triangles omap omap' D A1 A2 A3 A4 A5 A6 A7 A8 A9 A10 A11 A12 A13 md sh idx outs Hm)
    as (outs' & E & _ & _ & P). exists outs'. split; [exact E|]. intros n b arr diff model Eb Eo. destruct (P n b arr diff model Eb Eo) as (arr' & diff' & model' & Ea & Q).
  exists arr', diff', model'. split; [exact Ea|]. intros x S Hx. apply Q; [exact S|]. intros j Bj Ij Wj.
  assert (exists i, D i /\ reach (of_overlaps f) i j) as (i & Di & R).
  { clear -Wj. induction Wj as [n j I|n i j W (i0 & Di & R) E]; [exists j; split; [exact I|apply reach_refl]|]. exists i0. split; [exact Di|]. eapply reach_step; eauto. }
  eapply Hx; eauto.
Qed.

(** Two overlapping tiles and a third one apart; the phase of the first is [a]. *)
Definition lo_t : tileset := TileSet (1, 16)%Z [BBox 0 0 1 12; BBox 0 1 1 13; BBox 0 13 1 16].
Definition lo_file (b : bbox) (n : nat) (a : Q) : tile_file := TileFile (map (fun c => (0, Z.of_nat c)%Z) (seq 0 n)) b [repeat a n] [0].
Definition lo_files (a : Q) : list tile_file := [lo_file (BBox 0 0 1 12) 12 a; lo_file (BBox 0 1 1 13) 12 0; lo_file (BBox 0 13 1 16) 3 5].
Definition lo_f : overlap_file := OFile [OGroup (0, 1)%nat (seq 1 11) (seq 0 11) [repeat 0%Z 11]] [0; 0; 1]%nat [(0, 1)%nat].
Definition lo_cg (_ : list (list Q)) (b : list Q) : list Q := map (fun _ => nth 0 b 0) b.
Notation lo_merge a := (merge_batch lo_cg (fun _ => true) wf_triangles lo_f [[1]; [0]; []]%nat 2 [[0; 0; 0]] (1, 16)%Z (lo_files a) [0]%nat).
Definition lo_models (r : res (list (raster * raster * raster))) : res (list (option Q)) :=
  do outs <- r; Ok (map (fun o => let '(_, _, m) := o in option_map Qred (pixel m (0, 12)%Z)) outs).

Transparent twopi.
Example lo_recorded : compute_phasediff_deciles labels_of 11 (lo_files 0) lo_t = Ok lo_f /\ compute_phasediff_deciles labels_of 11 (lo_files (1 # 50)) lo_t = Ok lo_f.
Proof. split; vm_compute; reflexivity. Qed.
Example lo_model1 : lo_models (lo_merge 0) = Ok [Some 0].
Proof. vm_compute. reflexivity. Qed.
Example lo_model2 : lo_models (lo_merge (1 # 50)) = Ok [Some (1 # 50)].
Proof. vm_compute. reflexivity. Qed.
Opaque twopi.

Lemma lo_respects : respects lo_cg.
Proof.
  intros a b b' E. unfold lo_cg. assert (nth 0 b 0 == nth 0 b' 0) as N by (destruct E; [reflexivity|assumption]).
  revert N. generalize (nth 0 b 0) (nth 0 b' 0). intros u v N. induction E; cbn; constructor; auto.
Qed.
Lemma lo_cut a : cut_files lo_t 1 16 1 (lo_files a).
Proof.
  split; [reflexivity|]. split; [cbn; lia|]. split; [intros [|[|[|n]]] B; [reflexivity|reflexivity|reflexivity|cbn in B; lia]|].
  intros fl I. assert (exists b n v, fl = lo_file b n v /\ (xmin b = 0 /\ 0 <= ymin b /\ ymin b + Z.of_nat n <= 16)%Z) as (b & n & v & -> & Bx & B1 & B2).
  { destruct I as [<-|[<-|[<-|[]]]]; eexists; eexists; eexists; (split; [reflexivity|]); cbn; lia. }
  split; [|split].
  - unfold lo_file. cbn [tf_points]. apply FinFun.Injective_map_NoDup; [|apply seq_NoDup]. intros x y Q. injection Q. lia.
  - intros r c J. unfold file_coords, lo_file in J. cbn [tf_points tf_tile] in J. rewrite map_map in J. apply in_map_iff in J as (m & Q & J). apply in_seq in J.
    cbn in Q. injection Q as <- <-. lia.
  - unfold lo_file, tile_bands. cbn [tf_uw tf_offset tf_points]. split; [reflexivity|]. split; [reflexivity|]. intros r [<-|[]]. now rewrite map_length, seq_length, repeat_length.
Qed.

(** The hypotheses hold for a change of the first tile; the pixels of the third
    keep their values. *)
Example C77_witness : exists outs outs' arr diff model arr' diff' model',
  lo_merge 0 = Ok outs /\ lo_merge (1 # 50) = Ok outs' /\
  nth_error outs 0 = Some (arr, diff, model) /\ nth_error outs' 0 = Some (arr', diff', model') /\
  forall c, (13 <= c < 16)%Z -> same_value (pixel arr (0, c)%Z) (pixel arr' (0, c)%Z) /\ same_value (pixel model (0, c)%Z) (pixel model' (0, c)%Z).
Proof.
  destruct (lo_merge 0) as [outs|] eqn:E; [|pose proof lo_model1 as Q; rewrite E in Q; discriminate Q].
  destruct (C77_local labels_of 11 (lo_files 0) (lo_files (1 # 50)) lo_t lo_f lo_f 1 16 1 [[0; 0; 0]] [[0; 0; 0]] lo_cg (fun _ => true) wf_triangles
    [[1]; [0]; []]%nat [[1]; [0]; []]%nat (fun j => j = 0%nat) (proj1 components_witness) lo_respects (lo_cut _) (lo_cut _))
    with (10 := E) as (outs' & E' & L1 & L2 & P); try exact (proj1 lo_recorded); try exact (proj2 lo_recorded); try reflexivity.
  - split; [reflexivity|]. intros [|[|[|[|i]]]]; split; reflexivity.
  - intros [|[|[|[|j]]]] N; try reflexivity. contradiction.
  - intros b Bb. destruct b; [reflexivity|lia].
  - destruct outs as [|[[arr diff] model] outs]; [discriminate|]. destruct (P 0%nat 0%nat arr diff model eq_refl eq_refl) as (arr' & diff' & model' & Eo & Q).
    exists ((arr, diff, model) :: outs), outs', arr, diff, model, arr', diff', model'. split; [reflexivity|]. split; [exact E'|]. split; [reflexivity|]. split; [exact Eo|].
    intros c Bc. destruct (Q (0, c)%Z) as (A & _ & B); auto; [unfold in_shape; cbn; lia|]. intros j Bj Ij Wj.
    assert (j = 2%nat) as ->.
    { unfold file_coords in Ij. destruct j as [|[|[|j]]]; [| |reflexivity|cbn in Bj; lia]; cbn in Ij; repeat (destruct Ij as [Ij|Ij]; [injection Ij; lia|]); destruct Ij. }
    inversion Wj as [n j W|n i j W I]; subst; [discriminate W|]. cbn in I. destruct I as [[I|[]]|[I|[]]]; discriminate I.
Qed.

(** The bound is not empty: the pixel that only the second tile has changes. *)
Theorem C77_neighbour_refuted : exists v v', lo_models (lo_merge 0) = Ok [Some v] /\ lo_models (lo_merge (1 # 50)) = Ok [Some v'] /\ ~ v == v'.
Proof. exists 0, (1 # 50). split; [exact lo_model1|]. split; [exact lo_model2|]. intros E. discriminate E. Qed.

Print Assumptions C77_local.
Print Assumptions C77_components.
Print Assumptions C77_witness.
Print Assumptions C77_neighbour_refuted.
