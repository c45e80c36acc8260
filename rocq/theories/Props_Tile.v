(** Tiles and names: properties C26-C32. *)
From Verif Require Import Base BaseLemmas FloatModel FloatProofs TileModel TileSpec TileProofs
  JsonModel JsonProofs NamesModel NamesProofs.
From Coq Require Import ZifyBool List.
Set Default Goal Selector "!".
Local Open Scope Z_scope.

(** * C26 *)
Theorem C26_overlaps t :
  (forall i j, In (i, j) (get_overlaps t) -> (i < j < ntiles t)%nat) /\
  NoDup (get_overlaps t) /\ StronglySorted lexlt (get_overlaps t) /\
  (forall i j r c, (i < j < ntiles t)%nat ->
     has_pixel (tile_at t i) r c -> has_pixel (tile_at t j) r c -> In (i, j) (get_overlaps t)).
Proof.
  split; [|split; [|split]].
  - intros i j H. now apply overlaps_In in H.
  - apply lexsorted_NoDup, overlaps_sorted.
  - apply overlaps_sorted.
  - intros i j r c H [A B] [C D]. apply overlaps_In. split; [exact H|].
    apply intersects_true. lia.
Qed.

Theorem C26_symmetric a b : intersects a b = intersects b a.
Proof. apply intersects_sym. Qed.

(** Exactly which pairs are reported, for well-formed boxes: those whose closed
    rectangles meet. *)
Theorem C26_reported t i j :
  (forall b, In b (tiles t) -> xmin b <= xmax b /\ ymin b <= ymax b) ->
  (In (i, j) (get_overlaps t) <->
   (i < j < ntiles t)%nat /\
   let a := tile_at t i in let b := tile_at t j in
   Z.max (xmin a) (xmin b) <= Z.min (xmax a) (xmax b) /\
   Z.max (ymin a) (ymin b) <= Z.min (ymax a) (ymax b)).
Proof.
  intros W. rewrite overlaps_In. cbv zeta.
  assert (forall n, (n < ntiles t)%nat -> In (tile_at t n) (tiles t)) as I by (intros n Hn; now apply nth_In).
  split; intros [H K]; (split; [exact H|]);
    pose proof (W _ (I i ltac:(lia))); pose proof (W _ (I j ltac:(lia))).
  - apply intersects_true in K. lia.
  - apply intersects_true. lia.
Qed.

(** Tiles that only touch are reported although they share no pixel. *)
Theorem C26_only_shared_pixels_refuted :
  exists t, In (0, 1)%nat (get_overlaps t) /\
    forall r c, ~ (has_pixel (tile_at t 0) r c /\ has_pixel (tile_at t 1) r c).
Proof.
  exists (TileSet (10, 10) [BBox 0 0 5 10; BBox 5 0 10 10]). split; [left; reflexivity|].
  intros r c [[A _] [B _]]. cbn in A, B. lia.
Qed.

Example C26_witness : get_overlaps (TileSet (10, 10) [BBox 0 0 6 6; BBox 0 4 6 10; BBox 8 8 10 10; BBox 5 5 9 9])
  = [(0, 1); (0, 3); (1, 3); (2, 3)]%nat.
Proof. reflexivity. Qed.

(** * C27 *)
Theorem C27_dilate t factor :
  (0 <= factor)%Q -> Forall (box_in_image (shape t)) (tiles t) ->
  fst (shape t) <= 2 ^ 53 -> snd (shape t) <= 2 ^ 53 ->
  shape (dilate factor t) = shape t /\ ntiles (dilate factor t) = ntiles t /\
  Forall (box_in_image (shape t)) (tiles (dilate factor t)) /\
  (forall i, (i < ntiles t)%nat -> inside (tile_at t i) (tile_at (dilate factor t) i)).
Proof.
  intros Hf F B1 B2. split; [reflexivity|]. split; [apply ntiles_dilate|]. split.
  - cbn [dilate tiles]. rewrite Forall_map. eapply Forall_impl; [|exact F].
    intros b Hb. now apply dilate_box_spec.
  - intros i Hi. rewrite tile_at_dilate by exact Hi. apply dilate_box_spec; auto.
    rewrite Forall_forall in F. apply F. now apply nth_In.
Qed.

Theorem C27_monotone t f g :
  (f <= g)%Q -> Forall (box_in_image (shape t)) (tiles t) ->
  forall i, (i < ntiles t)%nat -> inside (tile_at (dilate f t) i) (tile_at (dilate g t) i).
Proof.
  intros H F i Hi. rewrite !tile_at_dilate by exact Hi. apply dilate_box_mono; auto.
  rewrite Forall_forall in F. apply F. now apply nth_In.
Qed.

(** Consequence: a covering tile set still covers after dilation. *)
Theorem C27_cover t factor r c :
  (0 <= factor)%Q -> Forall (box_in_image (shape t)) (tiles t) ->
  fst (shape t) <= 2 ^ 53 -> snd (shape t) <= 2 ^ 53 ->
  (exists i, (i < ntiles t)%nat /\ has_pixel (tile_at t i) r c) ->
  exists i, (i < ntiles (dilate factor t))%nat /\ has_pixel (tile_at (dilate factor t) i) r c.
Proof.
  intros Hf F B1 B2 (i & Hi & P). exists i.
  destruct (C27_dilate t factor Hf F B1 B2) as (_ & N & _ & I). rewrite N. split; [exact Hi|].
  now apply I.
Qed.

Example C27_witness :
  let t := TileSet (100, 100) [BBox 0 0 50 50; BBox 50 50 100 100; BBox 30 40 61 72] in
  Forall (box_in_image (shape t)) (tiles t) /\
  dilate (3602879701896397 # 72057594037927936) t
  = TileSet (100, 100) [BBox 0 0 52 52; BBox 47 47 100 100; BBox 28 38 62 73].
Proof. split; [repeat constructor; cbn; lia|vm_compute; reflexivity]. Qed.

(** * C28 *)
(** Whenever a side of the image is not a multiple of the number of tiles, the
    last border [k * fl(n/k)] may be rounded below [n] and truncated to [n-1]:
    the last row and column then lie in no tile. *)
Theorem C28_partition_refuted :
  exists sh mt t, 0 < fst sh /\ 0 < snd sh /\ 1 <= mt /\
    create_tiles_regular sh mt = Ok t /\
    in_image sh (fst sh - 1) 0 /\
    forall i, (i < ntiles t)%nat -> ~ has_pixel (tile_at t i) (fst sh - 1) 0.
Proof.
  exists (61, 70), 49.
  destruct (create_tiles_regular (61, 70) 49) as [t|] eqn:E; [|discriminate].
  exists t. repeat split; try (cbn; lia); auto.
  intros i Hi [A _]. cbn [fst] in A.
  assert (forallb (fun b => xmax b <=? 60) (tiles t) = true) as F.
  { vm_compute in E. injection E as <-. reflexivity. }
  rewrite forallb_forall in F. specialize (F (tile_at t i) (nth_In _ _ Hi)). lia.
Qed.

(** What holds for every shape below 2^52 and every max_tiles: tiles never
    overlap, never leave the image, and cover everything except possibly the
    last row and the last column. Missing for the full property: that the last
    row and column are covered, which is false in general (above). *)
Theorem C28_cover_partial sh mt t :
  0 < fst sh < 2 ^ 52 -> 0 < snd sh < 2 ^ 52 -> create_tiles_regular sh mt = Ok t ->
  disjoint_tiles t /\ Forall (box_in_image sh) (tiles t) /\
  forall r c, in_image sh r c -> r <> fst sh - 1 -> c <> snd sh - 1 ->
    exists! i, (i < ntiles t)%nat /\ has_pixel (tile_at t i) r c.
Proof.
  intros H0 H1 E. destruct (regular_grid sh mt t H0 H1 E) as (_ & D & F & R & C & HR & HC & Cov & _).
  split; [exact D|]. split; [exact F|]. intros r c In N1 N2.
  destruct (proj2 (Cov r c In)) as (i & Hi & P); [unfold in_image in In; lia|].
  exists i. split; [auto|]. intros j [Hj Pj]. now apply (D i j r c).
Qed.

(** Exactly when it is a partition: when both last borders reach the edge. *)
Theorem C28_partition_iff_partial sh mt t :
  0 < fst sh < 2 ^ 52 -> 0 < snd sh < 2 ^ 52 -> create_tiles_regular sh mt = Ok t ->
  Z.sqrt mt <> 1 ->
  (partitions t <-> grid_line (fst sh) (Z.sqrt mt) (Z.to_nat (Z.sqrt mt)) = fst sh /\
                    grid_line (snd sh) (Z.sqrt mt) (Z.to_nat (Z.sqrt mt)) = snd sh).
Proof.
  intros H0 H1 E Nk. pose proof (regular_shape sh mt t E) as (Esh & _).
  destruct (regular_grid sh mt t H0 H1 E) as (_ & D & F & R & C & HR & HC & Cov & L & _).
  destruct (L Nk) as [<- <-]. split.
  - intros P.
    assert (in_image sh (fst sh - 1) (snd sh - 1)) as In by (unfold in_image; lia).
    assert (in_image (shape t) (fst sh - 1) (snd sh - 1)) as In' by (rewrite Esh; exact In).
    destruct (P _ _ In') as (i & [Hi Pi] & _).
    destruct (proj1 (Cov _ _ In)) as [A B]; [eauto|]. lia.
  - intros [-> ->] r c In. rewrite Esh in In.
    destruct (proj2 (Cov r c In)) as (i & Hi & P); [unfold in_image in In; lia|].
    exists i. split; [auto|]. intros j [Hj Pj]. now apply (D i j r c).
Qed.

(** In particular it is a partition when both quotients are doubles: one tile
    per side, sides divisible by the number of tiles, or k a power of two. *)
Theorem C28_exact_partial sh mt t :
  0 < fst sh < 2 ^ 52 -> 0 < snd sh < 2 ^ 52 -> create_tiles_regular sh mt = Ok t ->
  (rnd64 (inject_Z (fst sh) / inject_Z (Z.sqrt mt)) == inject_Z (fst sh) / inject_Z (Z.sqrt mt))%Q ->
  (rnd64 (inject_Z (snd sh) / inject_Z (Z.sqrt mt)) == inject_Z (snd sh) / inject_Z (Z.sqrt mt))%Q ->
  partitions t.
Proof.
  intros H0 H1 E X0 X1. pose proof (regular_shape sh mt t E) as (Esh & Hmt & Hk & _).
  destruct (regular_grid sh mt t H0 H1 E) as (_ & D & F & R & C & HR & HC & Cov & L & L1).
  assert (R = fst sh /\ C = snd sh) as [-> ->].
  { destruct (Z.eq_dec (Z.sqrt mt) 1) as [K|K]; [now apply L1|].
    destruct (L K) as [-> ->]. split; apply grid_line_exact; auto; lia. }
  intros r c In. rewrite Esh in In.
  destruct (proj2 (Cov r c In)) as (i & Hi & P); [unfold in_image in In; lia|].
  exists i. split; [auto|]. intros j [Hj Pj]. now apply (D i j r c).
Qed.

Theorem C28_divisible_partial sh mt t :
  0 < fst sh < 2 ^ 52 -> 0 < snd sh < 2 ^ 52 -> create_tiles_regular sh mt = Ok t ->
  (Z.sqrt mt | fst sh) -> (Z.sqrt mt | snd sh) -> partitions t.
Proof.
  intros H0 H1 E [a Ha] [b Hb]. pose proof (regular_shape sh mt t E) as (Esh & Hmt & Hk & _).
  assert (forall n q, 0 < n < 2 ^ 52 -> n = q * Z.sqrt mt ->
    (rnd64 (inject_Z n / inject_Z (Z.sqrt mt)) == inject_Z n / inject_Z (Z.sqrt mt))%Q) as X.
  { intros n q Hn Eq. assert (0 < inject_Z (Z.sqrt mt))%Q as Kp by (apply (inject_lt 0); lia).
    assert (inject_Z n / inject_Z (Z.sqrt mt) == inject_Z q)%Q as ->.
    { rewrite Eq, inject_Z_mul. field. lra. }
    apply rnd64_int. nia. }
  eapply C28_exact_partial; eauto.
Qed.

Example C28_witness : exists t, create_tiles_regular (100, 61) 17 = Ok t /\ partitions t /\ ntiles t = 16%nat.
Proof.
  destruct (create_tiles_regular (100, 61) 17) as [t|] eqn:E; [|discriminate].
  exists t. split; [reflexivity|]. split.
  - apply (C28_exact_partial (100, 61) 17 t); cbn; try lia; auto; reflexivity.
  - vm_compute in E. injection E as <-. reflexivity.
Qed.

(** The shape test only rejects images with both sides non-positive. *)
Theorem C28_bad_shape_refuted :
  exists sh mt t, (fst sh <= 0 \/ snd sh <= 0) /\ create_tiles_regular sh mt = Ok t.
Proof. exists (0, 5), 4. eexists. split; [left; cbn; lia|vm_compute; reflexivity]. Qed.

(** * C29 *)
Theorem C29_partition pick pts sh mt t :
  picks_in_range pick -> 0 < fst sh -> 0 < snd sh -> points_in sh pts ->
  create_tiles_density pick pts sh mt = Ok t ->
  shape t = sh /\ partitions t /\ Forall (box_in_image sh) (tiles t).
Proof. intros H1 H2 H3 H4 E. destruct (density_sound _ _ _ _ _ H1 H2 H3 H4 E) as (A & B & C & _). auto. Qed.

(** The recursion always ends. *)
Theorem C29_terminates pick pts sh mt :
  picks_in_range pick -> create_tiles_density pick pts sh mt <> Err OutOfFuel.
Proof. apply density_fuel. Qed.

(** Cut along rows, at the last index but one. *)
Definition pick_rows : picker := fun pts b m => (true, 1%nat).
Definition pts8 : list (Z * Z) := [(0,0); (0,3); (1,1); (2,2); (3,0); (3,3); (5,2); (6,1)].
Lemma pick_rows_ok : picks_in_range pick_rows.
Proof. intros pts b m H. cbn. lia. Qed.

Example C29_witness : exists t,
  points_in (7, 4) pts8 /\ create_tiles_density pick_rows pts8 (7, 4) 5 = Ok t /\
  partitions t /\ tiles t = [BBox 0 0 0 4; BBox 0 0 2 4; BBox 2 0 4 4; BBox 4 0 7 4].
Proof.
  assert (points_in (7, 4) pts8) as P.
  { intros p H. cbn in H. repeat (destruct H as [<-|H]; [unfold in_image; cbn; lia|]). contradiction. }
  destruct (create_tiles_density pick_rows pts8 (7, 4) 5) as [t|] eqn:E; [|discriminate].
  exists t. split; [exact P|]. split; [reflexivity|]. split.
  - apply (C29_partition _ _ _ _ _ pick_rows_ok) in E; cbn; try lia; [tauto|exact P].
  - vm_compute in E. injection E as <-. reflexivity.
Qed.

(** It does not always return: with fewer points than tiles it raises. *)
Theorem C29_few_points_raise pick p sh : 0 < fst sh -> 0 < snd sh ->
  create_tiles_density pick [p] sh 4 = Err ValueError.
Proof.
  intros H0 H1. unfold create_tiles_density.
  assert ((fst sh <=? 0) && (snd sh <=? 0) = false) as -> by lia.
  reflexivity.
Qed.

(** * C30 *)
Lemma sqrt_sq_bounds mt : 1 <= mt -> 1 <= Z.sqrt mt * Z.sqrt mt <= mt.
Proof.
  intros H. destruct (Z.sqrt_spec mt ltac:(lia)) as [A _].
  assert (1 <= Z.sqrt mt) as B by (apply Z.sqrt_le_square; lia).
  set (k := Z.sqrt mt) in *. clearbody k. split; [nia|exact A].
Qed.

Theorem C30_count_regular sh mt t : create_tiles_regular sh mt = Ok t ->
  Z.of_nat (ntiles t) = Z.sqrt mt * Z.sqrt mt /\ 1 <= Z.of_nat (ntiles t) <= mt.
Proof.
  intros E. pose proof (regular_shape sh mt t E) as (_ & Hmt & Hk & D).
  assert (Z.of_nat (ntiles t) = Z.sqrt mt * Z.sqrt mt) as X.
  { destruct D as [[K ->]|K]; [rewrite K; reflexivity|].
    unfold ntiles. rewrite K, grid_tiles_length. nia. }
  split; [exact X|]. rewrite X. now apply sqrt_sq_bounds.
Qed.

Theorem C30_count_density pick pts sh mt t :
  picks_in_range pick -> 0 < fst sh -> 0 < snd sh -> points_in sh pts ->
  create_tiles_density pick pts sh mt = Ok t ->
  Z.of_nat (ntiles t) = Z.sqrt mt * Z.sqrt mt /\ 1 <= Z.of_nat (ntiles t) <= mt.
Proof.
  intros H1 H2 H3 H4 E. destruct (density_sound _ _ _ _ _ H1 H2 H3 H4 E) as (_ & _ & _ & X & Hmt).
  split; [exact X|]. rewrite X. now apply sqrt_sq_bounds.
Qed.

Theorem C30_request root mt : 1 <= mt -> 1 <= requested_tiles root mt <= mt.
Proof. unfold requested_tiles. lia. Qed.

(** [get_tiles] as a whole, for every setting accepted by TilerSettings. *)
Theorem C30_get_tiles pick root use s s' arr t :
  picks_in_range pick -> tiler_post_init s' = Ok s ->
  (0 < length arr)%nat -> (0 < length (nth 0 arr []))%nat ->
  Z.of_nat (length arr) <= 2 ^ 53 -> Z.of_nat (length (nth 0 arr [])) <= 2 ^ 53 ->
  (forall i, (i < length arr)%nat -> length (nth i arr []) = length (nth 0 arr [])) ->
  get_tiles pick root use s arr = Ok t ->
  let sh := (Z.of_nat (length arr), Z.of_nat (length (nth 0 arr []))) in
  shape t = sh /\ 1 <= Z.of_nat (ntiles t) <= ts_max_tiles s /\
  Forall (box_in_image sh) (tiles t) /\
  (forall r c, in_image sh r c -> exists i, (i < ntiles t)%nat /\ has_pixel (tile_at t i) r c) /\
  ((dilation_factor s == 0)%Q -> partitions t).
Proof.
  intros Hpick Hs Hr Hc Br Bc Hrect E sh.
  assert (1 <= ts_max_tiles s /\ (0 <= dilation_factor s)%Q) as [Hmax Hfac].
  { unfold tiler_post_init in Hs. destruct (ts_max_tiles s' <? 1) eqn:E1; [discriminate|].
    destruct (negb (Qle_bool 0 (dilation_factor s'))) eqn:E2; [discriminate|].
    destruct (target_points_for_generation s' <=? 0); [discriminate|].
    destruct (target_points_per_tile s' <=? 0); [discriminate|].
    injection Hs as <-. split; [lia|]. apply negb_false_iff in E2. now apply Qle_bool_iff. }
  unfold get_tiles in E. fold sh in E.
  set (inner := if negb use then _ else _) in E.
  destruct inner as [t0|] eqn:Ei; [|discriminate]. cbn [bind] in E.
  assert (Z.of_nat (ntiles t0) <= ts_max_tiles s /\ 1 <= Z.of_nat (ntiles t0) /\
          shape t0 = sh /\ partitions t0 /\ Forall (box_in_image sh) (tiles t0)) as (N1 & N2 & S0 & P0 & F0).
  { unfold inner in Ei. destruct use; cbn [negb] in Ei.
    - assert ((fst sh * snd sh =? 0) = false) as NE by (unfold sh; cbn [fst snd]; nia). rewrite NE in Ei.
      assert (points_in sh (every_nth (Nat.max 1 (Z.to_nat (Z.of_nat (length (nonzero arr))
                / target_points_for_generation s))) 0 (nonzero arr))) as PI.
      { intros p Hp. apply every_nth_In in Hp. apply nonzero_In in Hp as (i & j & -> & Hi & Hj & _).
        rewrite Hrect in Hj by exact Hi. unfold in_image, sh. cbn [fst snd]. lia. }
      pose proof (C30_request (root (length (nonzero arr))) (ts_max_tiles s) Hmax) as RQ.
      assert (0 < fst sh) as P1 by (unfold sh; cbn [fst snd]; lia).
      assert (0 < snd sh) as P2 by (unfold sh; cbn [fst snd]; lia).
      pose proof (density_sound _ _ _ _ _ Hpick P1 P2 PI Ei)
        as (A & B & C & D & M).
      pose proof (sqrt_sq_bounds _ M). repeat split; auto; lia.
    - injection Ei as <-. unfold single_tile, ntiles. cbn [tiles length shape fst snd sh].
      repeat split; try lia.
      + intros r c [A B]. cbn [shape fst snd] in A, B. exists 0%nat. split.
        * split; [cbn; lia|]. unfold has_pixel, tile_at. cbn [tiles nth xmin xmax ymin ymax].
          unfold in_image, sh in *. cbn [fst snd shape] in *. lia.
        * intros j [Hj _]. cbn in Hj. lia.
      + constructor; [|constructor]. unfold box_in_image. cbn [xmin xmax ymin ymax fst snd]. unfold sh. cbn [fst snd]. lia. }
  assert (forall r c, in_image sh r c -> exists i, (i < ntiles t0)%nat /\ has_pixel (tile_at t0 i) r c) as C0.
  { intros r c In. rewrite <- S0 in In. destruct (P0 r c In) as (i & Hi & _). eauto. }
  destruct (Nat.ltb 1 (ntiles t0) && negb (Qle_bool (dilation_factor s) 0)) eqn:Ed.
  - assert (t = dilate (dilation_factor s) t0) as -> by congruence.
    assert (fst (shape t0) <= 2 ^ 53) as B1 by (rewrite S0; exact Br).
    assert (snd (shape t0) <= 2 ^ 53) as B2 by (rewrite S0; exact Bc).
    assert (Forall (box_in_image (shape t0)) (tiles t0)) as F0' by (rewrite S0; exact F0).
    destruct (C27_dilate t0 _ Hfac F0' B1 B2) as (S1 & L1 & F1 & _).
    split; [congruence|]. split; [rewrite L1; lia|]. split; [rewrite <- S0; exact F1|]. split.
    + intros r c In. apply C27_cover; auto.
    + intros Z0. apply andb_true_iff in Ed as [_ Ed]. apply negb_true_iff in Ed.
      assert (Qle_bool (dilation_factor s) 0 = true) by (apply Qle_bool_iff; lra). congruence.
  - assert (t = t0) as -> by congruence. repeat split; auto; lia.
Qed.

Definition tset := TilerSettings 2 16 100 (1#4).
Example C30_witness : exists t,
  tiler_post_init tset = Ok tset /\
  get_tiles pick_rows (fun _ => 2) true tset
    (map (fun i => map (fun j => Nat.even (i + j)) (seq 0 5)) (seq 0 6)) = Ok t /\
  Z.of_nat (ntiles t) = 4.
Proof. eexists. split; [reflexivity|]. split; vm_compute; reflexivity. Qed.

(** The number of pixels a box reports is the number of pixels it has. *)
Theorem C28_count b : xmin b <= xmax b -> ymin b <= ymax b -> forall l : list (Z * Z), NoDup l ->
  (forall x, In x l <-> has_pixel b (fst x) (snd x)) -> Z.of_nat (length l) = count b.
Proof.
  intros Hx Hy l N H.
  set (rows := map (fun i => xmin b + Z.of_nat i) (seq 0 (Z.to_nat (xmax b - xmin b)))). set (cols := map (fun i => ymin b + Z.of_nat i) (seq 0 (Z.to_nat (ymax b - ymin b)))).
  assert (Permutation l (list_prod rows cols)) as P.
  { apply NoDup_Permutation; [exact N| |].
    - assert (forall p q : list (Z * Z), NoDup p -> NoDup q -> (forall x, In x p -> In x q -> False) -> NoDup (p ++ q)) as A.
      { induction p as [|a p IH]; intros q Np Nq D; [exact Nq|]. apply NoDup_cons_iff in Np as [Na Np]. cbn [app]. constructor.
        - rewrite in_app_iff. intros [X|X]; [contradiction|]. apply (D a); [now left|exact X].
        - apply IH; auto. intros x X Y. apply (D x); [now right|exact Y]. }
      assert (forall p q : list Z, NoDup p -> NoDup q -> NoDup (list_prod p q)) as K.
      { induction p as [|a p IH]; intros q Np Nq; [constructor|]. apply NoDup_cons_iff in Np as [Na Np]. cbn [list_prod]. apply A; auto.
        - apply FinFun.Injective_map_NoDup; [intros x y E; congruence|auto].
        - intros [x y] I J. apply in_map_iff in I as (z & E & _). injection E as <- <-. apply in_prod_iff in J as [J _]. contradiction. }
      apply K; (apply FinFun.Injective_map_NoDup; [intros i j; lia|apply seq_NoDup]).
    - intros [r c]. rewrite H, in_prod_iff. unfold has_pixel, rows, cols. cbn [fst snd]. rewrite !in_map_iff. split.
      + intros B. split; [exists (Z.to_nat (r - xmin b))|exists (Z.to_nat (c - ymin b))]; (split; [lia|apply in_seq; lia]).
      + intros [(i & <- & I) (j & <- & J)]. apply in_seq in I, J. lia. }
  rewrite (Permutation_length P), prod_length. unfold rows, cols. rewrite !map_length, !seq_length. unfold count. nia.
Qed.
Example C28_count_witness : count (BBox 2 3 4 6) = 6 /\ NoDup [(2, 3); (2, 4); (2, 5); (3, 3); (3, 4); (3, 5)] /\
  forall x, In x [(2, 3); (2, 4); (2, 5); (3, 3); (3, 4); (3, 5)] <-> has_pixel (BBox 2 3 4 6) (fst x) (snd x).
Proof.
  split; [reflexivity|]. split; [repeat constructor; cbn; intuition congruence|]. intros [r c]. unfold has_pixel. cbn. split.
  - intros I. repeat (destruct I as [[= <- <-]|I]; [lia|]). destruct I.
  - intros B. assert (r = 2 \/ r = 3) as [-> | ->] by lia; assert (c = 3 \/ c = 4 \/ c = 5) as [-> | [-> | ->]] by lia; tauto.
Qed.

(** * C31 *)
Theorem C31_roundtrip t : from_json (to_json t) = Ok t.
Proof. apply tileset_roundtrip. Qed.

(** Any file whose tile entries are integer lists: ValueError as soon as one of
    them does not have four numbers, otherwise the tiles are read in order. *)
Lemma get_key_shape sh ts : get_key "shape"%string (JObj [("shape"%string, sh); ("tiles"%string, ts)]) = Ok sh.
Proof. reflexivity. Qed.
Lemma get_key_tiles sh ts : get_key "tiles"%string (JObj [("shape"%string, sh); ("tiles"%string, ts)]) = Ok ts.
Proof. reflexivity. Qed.

Theorem C31_bad_bounds text a b bounds :
  loads text = Ok (JObj [("shape", JArr [JInt a; JInt b]);
                         ("tiles", JArr (map (fun l => JObj [("bounds", JArr (map JInt l))]) bounds))])%string ->
  (Exists (fun l => length l <> 4%nat) bounds -> from_json text = Err ValueError) /\
  (Forall (fun l => length l = 4%nat) bounds ->
     exists ts, from_json text = Ok (TileSet (a, b) ts) /\ map tolist ts = bounds).
Proof.
  intros E. unfold from_json. rewrite E. cbn [bind].
  rewrite get_key_shape, get_key_tiles. cbn [bind int_list ints_of].
  assert (forall l, tile_of_json (JObj [("bounds"%string, JArr (map JInt l))]) = from_shapely_bounds l) as T.
  { intros l. unfold tile_of_json. cbn [get_key rev app find fst String.eqb Ascii.eqb Bool.eqb bind int_list].
    now rewrite ints_of_map. }
  assert (forall l, length l <> 4%nat -> from_shapely_bounds l = Err ValueError) as TB.
  { intros l H. destruct l as [|? [|? [|? [|? [|? ?]]]]]; cbn in *; try reflexivity; congruence. }
  assert (forall l, length l = 4%nat -> exists x, from_shapely_bounds l = Ok x /\ tolist x = l) as TG.
  { intros l H. destruct l as [|p [|q [|r [|s [|? ?]]]]]; cbn in H; try discriminate.
    exists (BBox p q r s). auto. }
  split.
  - intros X. assert (map_res tile_of_json (map (fun l => JObj [("bounds"%string, JArr (map JInt l))]) bounds)
                      = Err ValueError) as ->; [|reflexivity].
    clear E. induction bounds as [|l bounds IH]; [inversion X|]. cbn [map map_res]. rewrite T.
    destruct (Nat.eq_dec (length l) 4) as [Y|N].
    + destruct (TG l Y) as (x & -> & _). cbn [bind]. rewrite IH; [reflexivity|].
      inversion X; subst; [congruence|assumption].
    + now rewrite TB.
  - intros F. assert (exists ts, map_res tile_of_json (map (fun l => JObj [("bounds"%string, JArr (map JInt l))]) bounds)
                      = Ok ts /\ map tolist ts = bounds) as (ts & -> & M).
    { clear E. induction F as [|l bounds Hl F IH]; [exists []; auto|]. cbn [map map_res]. rewrite T.
      destruct (TG l Hl) as (x & -> & Ex). destruct IH as (ts & -> & M). cbn [bind].
      exists (x :: ts). cbn [map]. now rewrite Ex, M. }
    exists ts. auto.
Qed.

(** A key given twice: the last one counts, as with Python's parser. A missing key
    raises KeyError. *)
Theorem C31_keys key l :
  (forall l1 l2 v, l = l1 ++ (key, v) :: l2 -> (forall w, ~ In (key, w) l2) -> get_key key (JObj l) = Ok v) /\
  ((forall w, ~ In (key, w) l) -> get_key key (JObj l) = Err KeyError).
Proof.
  assert (forall l2 : list (string * json), (forall w, ~ In (key, w) l2) -> forall kv, In kv (rev l2) -> String.eqb (fst kv) key = false) as K.
  { intros l2 H [k w] I. cbn [fst]. apply String.eqb_neq. intros ->. now apply (H w), in_rev. }
  assert (forall (p : string * json -> bool) l2 l3, (forall kv, In kv l2 -> p kv = false) -> find p (l2 ++ l3) = find p l3) as F.
  { intros p l2 l3. induction l2 as [|a l2 IH]; intros H; [reflexivity|]. cbn [app find]. rewrite (H a) by now left. apply IH. intros kv I. apply H. now right. }
  split.
  - intros l1 l2 v -> H. unfold get_key. rewrite rev_app_distr. cbn [rev]. rewrite <- app_assoc, F by now apply K. cbn [app find fst]. now rewrite String.eqb_refl.
  - intros H. unfold get_key. rewrite <- (app_nil_r (rev l)), F by now apply K. reflexivity.
Qed.
Example C31_keys_witness : from_json "{""shape"": [9, 9], ""tiles"": [], ""shape"": [4, 2]}" = Ok (TileSet (4, 2) []).
Proof. vm_compute. reflexivity. Qed.

Example C31_witness :
  from_json (to_json (TileSet (100, 20) [BBox 0 0 50 20; BBox (-3) 7 100 20]))
    = Ok (TileSet (100, 20) [BBox 0 0 50 20; BBox (-3) 7 100 20]) /\
  to_json (TileSet (7, 0) []) =
"{
    ""shape"": [
        7,
        0
    ],
    ""tiles"": []
}"%string /\
  from_json "{""shape"": [5, 6], ""tiles"": [{""bounds"": [1, 2, 3, 4]}, {""bounds"": [1, 2, 3]}]}" = Err ValueError /\
  from_json "{""shape"": [5, 6]}" = Err KeyError.
Proof. repeat split; vm_compute; reflexivity. Qed.

(** * C32 *)
Open Scope string_scope.

Theorem C32_tile_files tmp n m : tile_filename tmp n = tile_filename tmp m -> n = m.
Proof.
  unfold tile_filename, path_join. intros H.
  apply app_inj_l, app_inj_l, app_inj_l, app_inj_r in H. now apply fmt02_inj.
Qed.

Theorem C32_groups i j i' j' : overlap_groupname i j = overlap_groupname i' j' -> i = i' /\ j = j'.
Proof.
  unfold overlap_groupname. intros H.
  destruct (split_sep "_" (fmt02 i) (fmt02 i') (fmt02 j) (fmt02 j')) as [A B]; auto using fmt02_no_us.
  split; now apply fmt02_inj.
Qed.

(** Tile files differ from the other files of the intermediate folder. *)
Theorem C32_tmp_files tmp n :
  NoDup [tile_filename tmp n; tiles_jsonname tmp; overlap_filename tmp; offsets_filename tmp].
Proof.
  unfold tile_filename, tiles_jsonname, overlap_filename, offsets_filename, path_join.
  repeat constructor; cbn [In]; intros H;
    repeat match goal with K : _ \/ _ |- _ => destruct K as [K|K] end; try contradiction;
    apply app_inj_l in H; cbn [append] in H; discriminate H.
Qed.

Definition underscore_free (s : string) : Prop := has_char "_" s = false.

Theorem C32_output_names out d1 d2 e1 e2 :
  underscore_free d1 -> underscore_free e1 ->
  unw_filename out d1 d2 = unw_filename out e1 e2 -> d1 = e1 /\ d2 = e2.
Proof.
  unfold unw_filename, path_join. intros H1 H2 H.
  apply app_inj_l, app_inj_l in H.
  destruct (split_sep "_" d1 e1 (d2 ++ ".unw.tif") (e2 ++ ".unw.tif")) as [A B]; auto.
  split; [exact A|]. now apply app_inj_r in B.
Qed.

(** The three rasters of all interferograms of a stack: no two share a name,
    provided no part of the path contains ".tif". *)
Definition output_names (out : string) (p : string * string) : list string :=
  let f := unw_filename out (fst p) (snd p) in [f; diff_filename f; model_filename f].

Definition stem (out : string) (p : string * string) : string :=
  out ++ "/" ++ fst p ++ "_" ++ snd p ++ ".unw".

Lemma unw_stem out p : unw_filename out (fst p) (snd p) = stem out p ++ ".tif".
Proof. unfold unw_filename, path_join, stem. rewrite !app_assoc'. reflexivity. Qed.

Lemma output_names_eq out p : occurs ".tif" (stem out p) = false ->
  output_names out p = [stem out p ++ ".tif"; stem out p ++ "_diff.tif"; stem out p ++ "_model.tif"].
Proof.
  intros H. unfold output_names, diff_filename, model_filename. cbv zeta. rewrite unw_stem.
  now rewrite !replace_end.
Qed.

(** Names ending in [.unw] plus one of the three suffixes determine the stem. *)
Lemma has_char_app c a b : has_char c (a ++ b) = (has_char c a || has_char c b)%bool.
Proof. induction a as [|x a IH]; cbn; [reflexivity|]. now rewrite IH, orb_assoc. Qed.

Lemma stem_suffix_inj out p q s1 s2 :
  underscore_free (fst p) -> underscore_free (snd p) -> underscore_free (fst q) -> underscore_free (snd q) ->
  In s1 [".tif"; "_diff.tif"; "_model.tif"] -> In s2 [".tif"; "_diff.tif"; "_model.tif"] ->
  stem out p ++ s1 = stem out q ++ s2 -> p = q /\ s1 = s2.
Proof.
  intros U1 U2 U3 U4 I1 I2 H. unfold stem in H. rewrite !app_assoc' in H.
  apply app_inj_l, app_inj_l in H. destruct p as [d1 d2], q as [e1 e2]. cbn [fst snd] in *.
  destruct (split_sep "_" d1 e1 (d2 ++ ".unw" ++ s1) (e2 ++ ".unw" ++ s2)) as [-> B]; auto.
  assert (forall s, In s [".tif"; "_diff.tif"; "_model.tif"] ->
            s = ".tif" \/ exists t, s = String "_" t /\ In t ["diff.tif"; "model.tif"]) as C.
  { intros s [<-|[<-|[<-|[]]]]; [left; reflexivity|right; eexists; split; [reflexivity|cbn; auto]..]. }
  assert (has_char "_" (d2 ++ ".unw") = false) as N1 by (rewrite has_char_app, U2; reflexivity).
  assert (has_char "_" (e2 ++ ".unw") = false) as N2 by (rewrite has_char_app, U4; reflexivity).
  destruct (C s1 I1) as [->|(t1 & -> & T1)], (C s2 I2) as [->|(t2 & -> & T2)].
  - rewrite <- !app_assoc' in B. do 2 apply app_inj_r in B. now subst.
  - exfalso. apply (f_equal (has_char "_")) in B. rewrite !has_char_app, U2 in B. cbn in B.
    rewrite orb_true_r in B. discriminate.
  - exfalso. apply (f_equal (has_char "_")) in B. rewrite !has_char_app, U4 in B. cbn in B.
    rewrite orb_true_r in B. discriminate.
  - rewrite <- !app_assoc' in B.
    destruct (split_sep "_" _ _ t1 t2 N1 N2 B) as [X ->]. apply app_inj_r in X. now subst.
Qed.

Theorem C32_output_files out pairs :
  NoDup pairs ->
  (forall p, In p pairs -> underscore_free (fst p) /\ underscore_free (snd p) /\
                           occurs ".tif" (stem out p) = false) ->
  NoDup (flat_map (output_names out) pairs).
Proof.
  intros ND H. apply NoDup_flat_map; [exact ND| |].
  - intros p Hp. destruct (H p Hp) as (U1 & U2 & O). rewrite output_names_eq by exact O.
    repeat constructor; cbn [In]; intros K;
      repeat match goal with K : _ \/ _ |- _ => destruct K as [K|K] end; try contradiction;
      apply app_inj_l in K; discriminate K.
  - intros p q x Hp Hq Xp Xq.
    destruct (H p Hp) as (U1 & U2 & O). destruct (H q Hq) as (V1 & V2 & O').
    rewrite output_names_eq in Xp, Xq by assumption.
    assert (forall r, In x [stem out r ++ ".tif"; stem out r ++ "_diff.tif"; stem out r ++ "_model.tif"] ->
              exists s, In s [".tif"; "_diff.tif"; "_model.tif"] /\ x = stem out r ++ s) as D.
    { intros r [<-|[<-|[<-|[]]]]; eexists; (split; [|reflexivity]); cbn; auto. }
    destruct (D p Xp) as (s1 & I1 & E1). destruct (D q Xq) as (s2 & I2 & E2).
    rewrite E1 in E2. destruct (stem_suffix_inj out p q s1 s2) as [E _]; auto.
Qed.

(** [r] is [s] with every occurrence of [old] replaced by [new], found from left to
    right without overlap. *)
Inductive replaced (old new : string) : string -> string -> Prop :=
| replaced_end : replaced old new ""%string ""%string
| replaced_hit t r : replaced old new t r -> replaced old new (old ++ t)%string (new ++ r)%string
| replaced_skip a t r : (forall t', String a t <> (old ++ t')%string) -> replaced old new t r -> replaced old new (String a t) (String a r).

Lemma prefix_split p : forall s, String.prefix p s = true -> s = (p ++ drop (String.length p) s)%string.
Proof.
  induction p as [|a p IH]; intros s H; [destruct s; reflexivity|]. destruct s as [|b s]; [discriminate H|]. cbn [String.prefix] in H.
  destruct (ascii_dec a b) as [->|]; [|discriminate H]. cbn [String.length drop append]. f_equal. now apply IH.
Qed.
Lemma prefix_no p : forall s t, String.prefix p s = false -> s <> (p ++ t)%string.
Proof.
  induction p as [|a p IH]; intros s t H E; [destruct s; discriminate H|]. subst s. cbn [append String.prefix] in H.
  destruct (ascii_dec a a); [|congruence]. exact (IH _ t H eq_refl).
Qed.
Lemma drop_length n : forall s, (String.length (drop n s) <= String.length s)%nat.
Proof. induction n as [|n IH]; intros [|a s]; cbn [drop String.length]; try apply Nat.le_refl. specialize (IH s). lia. Qed.

(** [str.replace], by which the names of the residual and of the model are made. *)
Theorem C32_replace old new s : old <> ""%string -> replaced old new s (py_replace old new s).
Proof.
  intros N. unfold py_replace. assert (String.length s < S (String.length s))%nat as L by lia. revert L. generalize (S (String.length s)) as fuel. intros fuel. revert s.
  induction fuel as [|fuel IH]; intros s L; [lia|]. cbn [py_replace_fuel]. destruct s as [|a t]; [constructor|].
  destruct (String.prefix old (String a t)) eqn:E.
  - pose proof (prefix_split old _ E) as Es. rewrite Es at 1. apply replaced_hit, IH.
    destruct old as [|b old]; [congruence|]. cbn [String.length drop] in *. pose proof (drop_length (String.length old) t). lia.
  - apply replaced_skip; [|apply IH; cbn [String.length] in L; lia]. intros t'. now apply prefix_no.
Qed.

(** Without that proviso the derived files may land in another folder. *)
Theorem C32_replace_whole_path_refuted :
  exists out d1 d2, diff_filename (unw_filename out d1 d2) <> path_join out (d1 ++ "_" ++ d2 ++ ".unw_diff.tif").
Proof. exists "run.tif", "20200101", "20200113". vm_compute. discriminate. Qed.

Example C32_witness :
  tile_filename "tmp" 7 = "tmp/uw_tile_07.h5" /\ tile_filename "tmp" 123 = "tmp/uw_tile_123.h5" /\
  overlap_groupname 3 11 = "03_11" /\
  unw_filename "out" "20200101" "20200113" = "out/20200101_20200113.unw.tif" /\
  diff_filename "out/20200101_20200113.unw.tif" = "out/20200101_20200113.unw_diff.tif" /\
  underscore_free "20200101" /\ occurs ".tif" (stem "out" ("20200101", "20200113")) = false /\
  diff_filename "run.tif/a_b.unw.tif" = "run_diff.tif/a_b.unw_diff.tif".
Proof. repeat split; vm_compute; reflexivity. Qed.

(** * Assumptions *)
Print Assumptions C26_overlaps.
Print Assumptions C26_symmetric.
Print Assumptions C26_reported.
Print Assumptions C26_only_shared_pixels_refuted.
Print Assumptions C27_dilate.
Print Assumptions C27_monotone.
Print Assumptions C27_cover.
Print Assumptions C28_partition_refuted.
Print Assumptions C28_cover_partial.
Print Assumptions C28_partition_iff_partial.
Print Assumptions C28_exact_partial.
Print Assumptions C28_divisible_partial.
Print Assumptions C28_bad_shape_refuted.
Print Assumptions C29_partition.
Print Assumptions C29_terminates.
Print Assumptions C29_few_points_raise.
Print Assumptions C30_count_regular.
Print Assumptions C30_count_density.
Print Assumptions C30_request.
Print Assumptions C30_get_tiles.
Print Assumptions C31_roundtrip.
Print Assumptions C31_bad_bounds.
Print Assumptions C31_keys.
Print Assumptions C28_count.
Print Assumptions C32_tile_files.
Print Assumptions C32_groups.
Print Assumptions C32_tmp_files.
Print Assumptions C32_output_names.
Print Assumptions C32_output_files.
Print Assumptions C32_replace.
Print Assumptions C32_replace_whole_path_refuted.
