(** C76: whole cycles added to a tile are absorbed by the merge. *)
From Verif Require Import Base BaseLemmas PoolProofs GraphModel GraphSpec TileModel TileSpec OverlapModel OverlapSpec BulkModel BulkSpec BulkProofs
  MergeModel MergeSpec AdjustProofs MergeBatchProofs DescribeProofs Props_Merge Props_Workflow ExactSpec ExactWitness Props_Exact
  ShiftSpec ShiftProofs ShiftMergeProofs.
From Coq Require Import String.
From Coq Require Import List ZifyBool Lqa.
Import ListNotations.
Set Default Goal Selector "!".
Local Open Scope Q_scope.
Opaque twopi.

(** The tiles are unwrapped separately, so the number of cycles of each is
    arbitrary. Let [files'] be [files] with [k b i] cycles added to tile [i] in band
    [b]. For every recorded pair of tiles, more than half of the shared pixels agree
    on the relative number of cycles; these relative numbers belong to offsets [M]
    (no contradiction around a loop), and they fit the integer types.
    Then the second merge succeeds when the first does. The bulk offsets take up
    the added cycles up to numbers [K] that are the same for tiles linked by recorded
    overlaps. The outputs are those of the first merge plus [K] cycles: the smooth
    model, and the residual is unchanged; the merged phase too, unless it is exactly
    half a cycle away from the model, where the rounding to an even number decides,
    and a tile at the pixel got another number of cycles than the model. *)
Theorem C76_absorbed comps min_points files files' t f f' H W bands solve lsq method valid bulk bulk' R R' k M cg ilu triangles omap omap' :
  (forall n e, length (comps n e) = n) -> respects cg ->
  cut_files t H W bands files -> cut_files t H W bands files' -> same_layout files files' -> more_cycles bands k files files' ->
  compute_phasediff_deciles comps min_points files t = Ok f -> compute_phasediff_deciles comps min_points files' t = Ok f' ->
  get_bulk_offsets solve lsq method f t valid = Ok (bulk, R) -> get_bulk_offsets solve lsq method f' t valid = Ok (bulk', R') ->
  bulk_solver_ok comps solve lsq method (forall u v, (u < ntiles t)%nat -> (v < ntiles t)%nat -> reach (of_overlaps f) u v) ->
  explained f files bands M ->
  (forall b i j, (b < bands)%nat -> In (i, j) (of_overlaps f) -> (-32768 <= (M b j + k b j) - (M b i + k b i) <= 32767)%Z) ->
  (forall b i j, (b < bands)%nat -> (i < length files)%nat -> (j < length files)%nat -> (Z.abs ((M b i + k b i) - (M b j + k b j)) <= 2 ^ 31 - 1)%Z) ->
  overlap_map f = Ok omap -> overlap_map f' = Ok omap' ->
  exists K : nat -> nat -> Z,
    (forall b j, (b < bands)%nat -> (j < length files)%nat ->
       nth j (nth b bulk' []) 0 == nth j (nth b bulk []) 0 + inject_Z (k b j) - inject_Z (K b j)) /\
    (forall b i j, (b < bands)%nat -> reach (of_overlaps f) i j -> K b i = K b j) /\
    forall md sh idx outs, merge_batch cg ilu triangles f omap md bulk sh files idx = Ok outs ->
    exists outs', merge_batch cg ilu triangles f' omap' md bulk' sh files' idx = Ok outs' /\
      length outs = length idx /\ length outs' = length idx /\
      forall n b arr diff model, nth_error idx n = Some b -> nth_error outs n = Some (arr, diff, model) ->
      exists arr' diff' model', nth_error outs' n = Some (arr', diff', model') /\
        forall x j, in_shape sh x = true -> (j < length files)%nat -> In x (file_coords (nth j files no_file)) -> tied f files x ->
        let c := K b j in
        moved c (pixel model x) (pixel model' x) /\ same_value (pixel diff x) (pixel diff' x) /\
        (moved c (pixel arr x) (pixel arr' x) \/
         exists v v' w i, pixel arr x = Some v /\ pixel arr' x = Some v' /\ pixel model x = Some w /\ half_cycle_tie v w /\
           (i < length files)%nat /\ In x (file_coords (nth i files no_file)) /\ k b i <> c).
Proof.
  intros Hl Hcg Hcut Hcut' Ly Mc Hc Hc' Hb Hb' Hsol Hex He1 He2 Hom Hom'.
  destruct (absorb_bulk comps min_points files files' t f f' H W bands solve lsq method valid bulk bulk' R R' k M Hl Hcut Hcut' Ly Mc Hc Hc' Hb Hb' Hsol Hex (conj He1 He2))
    as (K & K1 & K2 & K3 & K4).
  pose proof (absorb_overlaps comps min_points files files' t f f' Hl Ly Hc Hc') as Ho.
  pose proof Hcut as (Hn & Hfit & Ht & Hf). pose proof Hcut' as (Hn' & _ & Ht' & Hf'). rewrite no_file_d in *.
  assert (recorded_files f files) as Rf by (eapply (computed_recorded comps min_points files t f H W); eauto; intros fl I; apply Hf, I).
  assert (recorded_files f' files') as Rf' by (eapply (computed_recorded comps min_points files' t f' H W); eauto; intros fl I; apply Hf', I).
  destruct (computed comps min_points files t f Hc Hl) as (_ & _ & _ & _ & L1). destruct (computed comps min_points files' t f' Hc' Hl) as (_ & _ & _ & _ & L2).
  rewrite (overlap_map_same f f' _ L1 L2 Ho) in Hom'. assert (omap' = omap) as -> by congruence.
  assert (forall b i j, (b < bands)%nat -> reach (of_overlaps f) i j -> K b i = K b j) as Kr by (intros b i j Bb; apply K_reach; intros; now apply K2).
  exists K. split; [exact K1|]. split; [exact Kr|]. intros md sh idx outs Hm.
  assert (overlap_map f' = Ok omap) as Hom2 by (now rewrite (overlap_map_same f f' _ L1 L2 Ho)).
  destruct (batch_shift cg ilu triangles f f' omap md files files' bulk bulk' bands k K sh idx (fun _ => True) Hcg) with (outs := outs) as (outs' & E' & La & Lb & P); auto.
  { intros fl I. destruct (Hf fl I) as (A & _ & B). auto. }
  { intros fl I. destruct (Hf' fl I) as (A & _ & B). auto. }
  exists outs'. split; [exact E'|]. split; [exact La|]. split; [exact Lb|]. intros n b arr diff model Eb Eo.
  destruct (P n b arr diff model Eb Eo) as (arr' & diff' & model' & Ea & Px). exists arr', diff', model'. split; [exact Ea|].
  intros x j S Bj Ix Tx c. apply Px; [exact S|]. intros i Bi Ii. split; [now apply shrinks_all|]. unfold c. unfold tied in Tx. rewrite no_file_d in Tx.
  apply Kr; [|apply Tx; assumption].
  (* the band is one of the bands *)
  unfold merge_batch in Hm. destruct (start_tiles files bulk idx) as [ts|] eqn:Es; [|discriminate].
  unfold start_tiles in Es. apply map_res_nth in Es as [_ Q]. rewrite combine_length, seq_length, Nat.min_id in Q. specialize (Q j (O, dfile) dtile Bj).
  rewrite nth_combine in Q by (rewrite ?seq_length; auto). rewrite seq_nth in Q by auto. cbn [fst snd Nat.add] in Q.
  destruct (Hf (nth j files dfile)) as (_ & _ & A1 & A2 & _); [now apply nth_In|]. unfold start_tile, reset_band_index in Q. rewrite A1, A2 in Q.
  destruct idx as [|i0 idx0] eqn:Ei; [destruct n; discriminate|]. rewrite <- Ei in *. clear Ei i0 idx0.
  destruct (negb (increasing idx)); [discriminate|]. destruct (forallb (fun b => (b <? bands) && (b <? bands))%nat idx) eqn:Fb; [|discriminate]. rewrite forallb_forall in Fb.
  specialize (Fb b (nth_error_In _ _ Eb)). lia.
Qed.

(** Two tiles that share twelve pixels; the second is [m] cycles above the first,
    except at one shared pixel. *)
Definition sh_t : tileset := TileSet (1, 14)%Z [BBox 0 0 1 13; BBox 0 1 1 14].
Definition sh_file (b : bbox) (l : list Z) : tile_file :=
  TileFile (map (fun c => (0, Z.of_nat c)%Z) (seq 0 13)) b [map (fun n => twopi * inject_Z n + (1 # 7)) l] [1 # 3].
Definition sh_first (m : Z) : tile_file := sh_file (BBox 0 0 1 13) (map (Z.add m) (repeat 0%Z 13)).
Definition sh_second (m : Z) : tile_file := sh_file (BBox 0 1 1 14) (map (Z.add m) ([0; 5] ++ repeat 0 11)%Z).
Definition sh_k (b i : nat) : Z := match i with O => 4 | 1%nat => -3 | _ => 0 end%Z.
Definition sh_M (b i : nat) : Z := match i with 1%nat => 2 | _ => 0 end%Z.
Definition sh_cg (_ : list (list Q)) (b : list Q) : list Q := map (fun x => x / 2) b.
Definition sh_files : list tile_file := [sh_first 0; sh_second 2].
Definition sh_files' : list tile_file := [sh_first 4; sh_second (-1)].
Definition sh_recorded (l : list Z) : overlap_file := OFile [OGroup (0, 1)%nat (seq 1 12) (seq 0 12) [l]] [0; 0]%nat [(0, 1)%nat].
Definition sh_f : overlap_file := sh_recorded (repeat 2 10 ++ [7])%Z.
Definition sh_f' : overlap_file := sh_recorded (repeat (-5) 10 ++ [0])%Z.
Definition sh_valid : list (list bool) := [repeat true 14].

Transparent twopi.
Example sh_recorded1 : compute_phasediff_deciles labels_of 11 sh_files sh_t = Ok sh_f.
Proof. vm_compute. reflexivity. Qed.
Example sh_recorded2 : compute_phasediff_deciles labels_of 11 sh_files' sh_t = Ok sh_f'.
Proof. vm_compute. reflexivity. Qed.
Example sh_bulk1 : get_bulk_offsets exact_mip exact_lsq "integer"%string sh_f sh_t sh_valid = Ok ([[0; 2]], [0]).
Proof. vm_compute. reflexivity. Qed.
Example sh_bulk2 : get_bulk_offsets exact_mip exact_lsq "integer"%string sh_f' sh_t sh_valid = Ok ([[0; -5 # 1]], [0]).
Proof. vm_compute. reflexivity. Qed.

Lemma sh_respects : respects sh_cg.
Proof. intros a b b' E. unfold sh_cg. induction E as [|x y l l' E F IH]; cbn; constructor; [now rewrite E|exact IH]. Qed.
Lemma sh_cut fs : fs = sh_files \/ fs = sh_files' -> cut_files sh_t 1 14 1 fs.
Proof.
  intros E. split; [destruct E; subst; reflexivity|]. split; [cbn; lia|]. split; [intros [|[|n]] B; [| |cbn in B; lia]; destruct E; subst; reflexivity|].
  intros fl I. assert (exists b l, fl = sh_file b l /\ length l = 13%nat /\ (xmin b = 0 /\ (ymin b = 0 \/ ymin b = 1))%Z) as (b & l & -> & L & Bx & By).
  { destruct E; subst; destruct I as [<-|[<-|[]]]; eexists; eexists; (split; [reflexivity|]); (split; [reflexivity|]); cbn; lia. }
  split; [|split].
  - unfold sh_file. cbn [tf_points]. apply FinFun.Injective_map_NoDup; [|apply seq_NoDup]. intros a c Q. injection Q. lia.
  - intros r c J. unfold file_coords, sh_file in J. cbn [tf_points tf_tile] in J. rewrite map_map in J. apply in_map_iff in J as (n & Q & J). apply in_seq in J.
    cbn in Q. injection Q as <- <-. lia.
  - unfold sh_file, tile_bands. cbn [tf_uw tf_offset tf_points]. split; [reflexivity|]. split; [reflexivity|]. intros r [<-|[]]. rewrite !map_length, seq_length. exact L.
Qed.
Lemma sh_layout : same_layout sh_files sh_files'.
Proof. split; [reflexivity|]. intros [|[|[|i]]]; split; reflexivity. Qed.
Lemma sh_more : more_cycles 1 sh_k sh_files sh_files'.
Proof.
  intros b i p Bb Bp. destruct b; [|lia]. destruct i as [|[|i]]; [| |destruct i; cbn in Bp; lia];
    do 13 (destruct p as [|p]; [vm_compute; reflexivity|]); cbn in Bp; lia.
Qed.
Lemma sh_explained : explained sh_f sh_files 1 sh_M.
Proof.
  split.
  - intros b i j Bb [I|[]]. injection I as <- <-. split; [cbn; lia|]. destruct b; [|lia].
    exists (map (fun c => (0, Z.of_nat c)%Z) (1 :: seq 3 10)%nat). split; [|split].
    + apply FinFun.Injective_map_NoDup; [intros a c Q; injection Q; lia|]. cbn. repeat (constructor; [cbn; lia|]). constructor.
    + vm_compute. lia.
    + intros x I. exists (Z.to_nat (snd x)), (Z.to_nat (snd x) - 1)%nat.
      cbn in I. repeat (destruct I as [<-|I]; [split; [reflexivity|]; split; [reflexivity|]; vm_compute; reflexivity|]). destruct I.
  - intros b i j _ _ _. unfold sh_M. destruct i as [|[|i]], j as [|[|j]]; cbn; lia.
Qed.
Notation sh_merge f bulk files := (merge_batch sh_cg (fun _ => true) wf_triangles f [[1]; [0]]%nat 2 bulk (1, 14)%Z files [0]%nat).
Definition is_ok {A} (r : res A) : bool := match r with Ok _ => true | Err _ => false end.
Example sh_merged1 : is_ok (sh_merge sh_f [[0; 2]] sh_files) = true.
Proof. vm_compute. reflexivity. Qed.
Opaque twopi.

(** The hypotheses hold: four cycles are added to the first tile, three are taken
    from the second. Both outputs have four cycles more, at every pixel. *)
Example C76_witness : exists outs outs' arr diff model arr' diff' model',
  sh_merge sh_f [[0; 2]] sh_files = Ok outs /\ sh_merge sh_f' [[0; -5 # 1]] sh_files' = Ok outs' /\
  nth_error outs 0 = Some (arr, diff, model) /\ nth_error outs' 0 = Some (arr', diff', model') /\
  forall c, (0 <= c < 14)%Z -> moved 4 (pixel model (0, c)%Z) (pixel model' (0, c)%Z) /\ same_value (pixel diff (0, c)%Z) (pixel diff' (0, c)%Z).
Proof.
  destruct (C76_absorbed labels_of 11 sh_files sh_files' sh_t sh_f sh_f' 1 14 1 exact_mip exact_lsq "integer"%string sh_valid [[0; 2]] [[0; -5 # 1]] [0] [0] sh_k sh_M
    sh_cg (fun _ => true) wf_triangles [[1]; [0]]%nat [[1]; [0]]%nat (proj1 components_witness) sh_respects (sh_cut _ (or_introl eq_refl)) (sh_cut _ (or_intror eq_refl))
    sh_layout sh_more sh_recorded1 sh_recorded2 sh_bulk1 sh_bulk2 (C59_solvers _) sh_explained) as (K & K1 & K2 & P); try reflexivity.
  - intros b i j _ [I|[]]. injection I as <- <-. cbn. lia.
  - intros b i j _ _ _. unfold sh_M, sh_k. destruct i as [|[|i]], j as [|[|j]]; cbn; lia.
  - destruct (sh_merge sh_f [[0; 2]] sh_files) as [outs|] eqn:E; [|pose proof sh_merged1 as Q; rewrite E in Q; discriminate Q].
    destruct (P 2%nat (1, 14)%Z [0]%nat outs E) as (outs' & E' & L1 & L2 & Px). exists outs, outs'. destruct outs as [|[[arr diff] model] outs]; [discriminate|].
    destruct (Px 0%nat 0%nat arr diff model eq_refl eq_refl) as (arr' & diff' & model' & Eo & Q). exists arr, diff, model, arr', diff', model'.
    split; [reflexivity|]. split; [exact E'|]. split; [reflexivity|]. split; [exact Eo|]. intros c Bc.
    assert (K 0%nat 0%nat = 4%Z) as K0.
    { specialize (K1 0%nat 0%nat ltac:(lia) ltac:(cbn; lia)). cbn in K1. apply inject_Z_injective. cbn. lra. }
    assert (reach (of_overlaps sh_f) 0%nat 1%nat) as R01 by (eapply reach_step; [apply reach_refl|left; left; reflexivity]).
    assert (reach (of_overlaps sh_f) 1%nat 0%nat) as R10 by (eapply reach_step; [apply reach_refl|right; left; reflexivity]).
    assert (tied sh_f sh_files (0, c)%Z) as T.
    { intros i j Ii Ij. destruct i as [|[|i]]; [| |destruct i; destruct Ii]; (destruct j as [|[|j]]; [| |destruct j; destruct Ij]); auto; apply reach_refl. }
    destruct (Z.eq_dec c 13) as [->|N].
    + destruct (Q (0, 13)%Z 1%nat) as (A & B & _); [reflexivity|cbn; lia|cbn; auto 20|exact T|]. rewrite <- (K2 0%nat 0%nat 1%nat) in A by (auto; lia). rewrite K0 in A. auto.
    + destruct (Q (0, c)%Z 0%nat) as (A & B & _); [unfold in_shape; cbn; lia|cbn; lia| |exact T|].
      * unfold file_coords. apply in_map_iff. exists (0, c)%Z. split; [cbn [nth sh_files sh_first sh_file tf_tile xmin ymin fst snd]; f_equal; lia|]. cbn [nth sh_files sh_first sh_file tf_points]. apply in_map_iff. exists (Z.to_nat c). split; [f_equal; lia|]. apply in_seq. lia.
      * rewrite K0 in A. auto.
Qed.

(** An even split: six shared pixels are level and six are one cycle apart. Then
    the recorded median, one half cut towards zero, does not follow a cycle taken
    from the second tile, and the outputs of the two tiles move apart. *)
Definition sp_second (m : Z) : tile_file := sh_file (BBox 0 1 1 14) (map (Z.add m) (repeat 0 6 ++ repeat 1 7)%Z).
Definition sp_merge (files : list tile_file) :=
  do f <- compute_phasediff_deciles labels_of 11 files sh_t;
  do b <- get_bulk_offsets exact_mip exact_lsq "integer"%string f sh_t sh_valid;
  do o <- overlap_map f;
  do r <- merge_batch (fun _ b => map (fun _ => 0) b) (fun _ => true) wf_triangles f o 2 (fst b) (1, 14)%Z files [0]%nat;
  Ok (map (fun o => let '(_, _, m) := o in (option_map Qred (pixel m (0, 0)%Z), option_map Qred (pixel m (0, 13)%Z))) r).
Theorem C76_split_refuted : exists v w v' w',
  sp_merge [sh_first 0; sp_second 0] = Ok [(Some v, Some w)] /\ sp_merge [sh_first 0; sp_second (-1)] = Ok [(Some v', Some w')] /\
  ~ exists c, moved c (Some v) (Some v') /\ moved c (Some w) (Some w').
Proof.
  Transparent twopi.
  exists (10 # 21), (19977248982627935 # 2955487255461888), (10 # 21), (10 # 21).
  split; [vm_compute; reflexivity|]. split; [vm_compute; reflexivity|].
  Opaque twopi.
  intros (c & A & B). unfold moved in A, B. lra.
Qed.

Print Assumptions C76_absorbed.
Print Assumptions C76_witness.
Print Assumptions C76_split_refuted.
