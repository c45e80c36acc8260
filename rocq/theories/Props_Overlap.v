(** Overlap statistics: properties C33 and C34. *)
From Verif Require Import Base BaseLemmas TileModel TileSpec TileProofs OverlapModel OverlapSpec OverlapProofs.
From Coq Require Import ZifyBool List.
Set Default Goal Selector "!".
Local Open Scope Z_scope.

(** * C33 *)

(** Missing for the full property: point sets in an image of more than
    2^bits pixels (see the refutation below). *)
Theorem C33_common_points_partial bits H W c1 c2 :
  0 < bits -> c1 <> [] -> c2 <> [] -> in_grid H W c1 -> in_grid H W c2 -> H * W <= 2 ^ bits ->
  exists ii jj, find_common_points bits c1 c2 = Ok (ii, jj) /\
    length ii = length jj /\
    (forall k, (k < length ii)%nat ->
       (nth k ii O < length c1)%nat /\ (nth k jj O < length c2)%nat /\
       at_pt c1 (nth k ii O) = at_pt c2 (nth k jj O)) /\
    NoDup (map (at_pt c1) ii) /\
    (forall p, In p (map (at_pt c1) ii) <-> In p c1 /\ In p c2).
Proof.
  intros Hb N1 N2 G1 G2 Hfit.
  assert (forall c, c <> [] -> in_grid H W c -> (minZ (flat_map (fun p => [fst p; snd p]) c) <? 0) = false) as K.
  { intros c Nc Gc. apply Z.ltb_ge. destruct (Z_lt_le_dec (minZ (flat_map (fun p => [fst p; snd p]) c)) 0) as [L|L]; [|auto].
    destruct (proj2 (minZ_flat_neg c) (conj Nc L)) as (r & k & Hi & Hn). apply Gc in Hi. lia. }
  unfold find_common_points. destruct c1 as [|p1 t1] eqn:E1; [easy|]. destruct c2 as [|p2 t2] eqn:E2; [easy|].
  rewrite <- E1, <- E2 in *. rewrite !K by auto. cbn zeta.
  destruct (intersect1d_indices _ _) as [ii jj] eqn:E.
  exists ii, jj. split; [reflexivity|]. now apply (common_spec bits H W c1 c2).
Qed.

(** A negative coordinate in either set raises, and so does an empty set. *)
Theorem C33_negative bits c1 c2 r k :
  In (r, k) c1 \/ In (r, k) c2 -> r < 0 \/ k < 0 -> find_common_points bits c1 c2 = Err ValueError.
Proof.
  intros Hi Hn. unfold find_common_points.
  destruct c1 as [|p1 t1] eqn:E1; [reflexivity|]. destruct c2 as [|p2 t2] eqn:E2; [reflexivity|].
  rewrite <- E1, <- E2 in *.
  destruct (Z.ltb_spec (minZ (flat_map (fun p => [fst p; snd p]) c1)) 0); [reflexivity|].
  destruct (Z.ltb_spec (minZ (flat_map (fun p => [fst p; snd p]) c2)) 0); [reflexivity|].
  exfalso. destruct Hi as [Hi|Hi].
  - assert (exists r k, In (r, k) c1 /\ (r < 0 \/ k < 0)) as X by eauto. apply minZ_flat_neg in X. lia.
  - assert (exists r k, In (r, k) c2 /\ (r < 0 \/ k < 0)) as X by eauto. apply minZ_flat_neg in X. lia.
Qed.

Theorem C33_empty bits c1 c2 : c1 = [] \/ c2 = [] -> find_common_points bits c1 c2 = Err ValueError.
Proof. intros [->| ->]; [reflexivity|]. now destruct c1. Qed.

(** With the int32 coordinates of tile files, two different pixels of a
    65537 x 65536 image are reported as one: the flattened index wraps. *)
Theorem C33_int32_refuted :
  ~ (forall c1 c2 ii jj, (forall r k, In (r, k) c1 \/ In (r, k) c2 -> 0 <= r < 2 ^ 31 /\ 0 <= k < 2 ^ 31) ->
     find_common_points 32 c1 c2 = Ok (ii, jj) ->
     forall n, (n < length ii)%nat -> at_pt c1 (nth n ii O) = at_pt c2 (nth n jj O)).
Proof.
  intros H. specialize (H [(0, 0)] [(65536, 0); (0, 65535)] [O] [O]).
  assert ((0, 0) = (65536, 0)) as E; [|discriminate].
  apply (H ltac:(intros r k; cbn; intuition; match goal with E : _ = (r, k) |- _ => injection E as <- <-; lia end)
           ltac:(vm_compute; reflexivity) O). cbn; lia.
Qed.

Example C33_witness :
  in_grid 4 5 [(2, 3); (0, 1); (1, 4)] /\ in_grid 4 5 [(1, 4); (3, 3); (2, 3)] /\
  find_common_points 32 [(2, 3); (0, 1); (1, 4)] [(1, 4); (3, 3); (2, 3)] = Ok ([2%nat; 0%nat], [0%nat; 2%nat]).
Proof.
  repeat split; try (vm_compute; reflexivity);
    match goal with E : In _ _ |- _ => cbn in E; intuition; match goal with E : _ = (_, _) |- _ => injection E as <- <-; lia end end.
Qed.

Example C33_negative_witness : find_common_points 32 [(2, 3)] [(1, 4); (3, -1)] = Err ValueError.
Proof. apply (C33_negative _ _ _ 3 (-1)); cbn; auto; lia. Qed.

(** What the recorded overlap of two tiles contains: exactly the pixels of the
    image present in both tile files. *)
Theorem C33_recorded_overlap min_points files t i j g H W :
  let pts := fun n => fst (load_uw_tile (nth n files (TileFile [] (BBox 0 0 0 0) [] [])) (tile_at t n)) in
  in_grid H W (pts i) -> in_grid H W (pts j) -> H * W <= 2 ^ 32 ->
  overlap_pair min_points files t (i, j) = Ok (Some g) ->
  og_pair g = (i, j) /\ min_points <= Z.of_nat (length (og_c1 g)) /\
  length (og_c1 g) = length (og_c2 g) /\
  (forall k, (k < length (og_c1 g))%nat ->
       at_pt (pts i) (nth k (og_c1 g) O) = at_pt (pts j) (nth k (og_c2 g) O)) /\
  NoDup (map (at_pt (pts i)) (og_c1 g)) /\
  (forall p, In p (map (at_pt (pts i)) (og_c1 g)) <-> In p (pts i) /\ In p (pts j)).
Proof.
  intros pts Gi Gj Hfit. unfold overlap_pair.
  destruct (load_uw_tile (nth i files _) _) as [pt1 uw1] eqn:E1.
  destruct (load_uw_tile (nth j files _) _) as [pt2 uw2] eqn:E2.
  assert (pts i = pt1) as P1 by (unfold pts, tile_at; now rewrite E1).
  assert (pts j = pt2) as P2 by (unfold pts, tile_at; now rewrite E2).
  rewrite P1, P2 in *.
  destruct (list_eq_dec (fun a b : Z * Z => ltac:(decide equality; apply Z.eq_dec)) pt1 []) as [N1|N1].
  { rewrite C33_empty by auto. discriminate. }
  destruct (list_eq_dec (fun a b : Z * Z => ltac:(decide equality; apply Z.eq_dec)) pt2 []) as [N2|N2].
  { rewrite C33_empty by auto. discriminate. }
  destruct (C33_common_points_partial 32 H W pt1 pt2) as (ii & jj & -> & L & Eq & Nd & In_); auto; [lia|].
  cbn [bind]. destruct (Z.ltb_spec (Z.of_nat (length ii)) min_points) as [Hm|Hm]; [discriminate|].
  destruct (pairwise_unwrapped_diff_deciles _ _) as [st|]; [|discriminate]. cbn [bind].
  intros E. injection E as <-. cbn [og_pair og_c1 og_c2].
  repeat (split; [now auto|]). split; [|split; auto]. intros k Hk. now apply Eq.
Qed.

Example C33_recorded_overlap_witness :
  let files := [TileFile (map (fun c => (0, Z.of_nat c)) (seq 0 12)) (BBox 0 0 2 12) [repeat 0%Q 12] [0%Q];
                TileFile (map (fun c => (1, Z.of_nat c)) (seq 0 12)) (BBox (-1) 0 2 12) [repeat 0%Q 12] [0%Q]] in
  let t := TileSet (2, 12) [BBox 0 0 2 12; BBox (-1) 0 2 12] in
  overlap_pair 11 files t (0, 1)%nat = Ok (Some (OGroup (0, 1)%nat (seq 0 12) (seq 0 12) [repeat 0 11])).
Proof. vm_compute. reflexivity. Qed.

(** * C34 *)
Theorem C34_bad_input b1 b2 :
  nd_shape b1 <> nd_shape b2 \/ length (nd_shape b1) <> 2%nat \/ (nth 1 (nd_shape b1) O < 11)%nat ->
  pairwise_unwrapped_diff_deciles b1 b2 = Err ValueError.
Proof.
  intros H. unfold pairwise_unwrapped_diff_deciles.
  destruct (list_eq_dec _ _ _) as [E|E]; [|reflexivity]. cbn [negb].
  destruct (Nat.eqb_spec (length (nd_shape b1)) 2) as [L|L]; [|reflexivity]. cbn [negb].
  destruct (Nat.ltb_spec (nth 1 (nd_shape b1) O) 11); [reflexivity|]. intuition lia.
Qed.

(** Succeeds exactly when every pixel differs by whole cycles (within numpy's
    tolerance); otherwise raises AssertionError. *)
Theorem C34_whole_cycles bands n b1 b2 : array2 bands n b1 -> array2 bands n b2 -> (11 <= n)%nat ->
  ((exists R, pairwise_unwrapped_diff_deciles b1 b2 = Ok R) <->
     forall b p, (b < bands)%nat -> (p < n)%nat -> exists k, cycles_within_tol (pix b2 b p - pix b1 b p) k) /\
  (forall e, pairwise_unwrapped_diff_deciles b1 b2 = Err e -> e = AssertionError).
Proof. apply stats_iff. Qed.

(** The eleven numbers per band are the deciles of the cycle counts. *)
Theorem C34_deciles bands n b1 b2 R : array2 bands n b1 -> array2 bands n b2 -> (11 <= n)%nat ->
  pairwise_unwrapped_diff_deciles b1 b2 = Ok R ->
  length R = bands /\ exists k : nat -> nat -> Z,
    (forall b p, (b < bands)%nat -> (p < n)%nat -> cycles_within_tol (pix b2 b p - pix b1 b p) (k b p)) /\
    (forall b, (b < bands)%nat -> deciles_of n (k b) (nth b R [])).
Proof. intros. eapply stats_ok; eauto. Qed.

(** The median, the only number used later, is the cycle count shared by more
    than half of the pixels. *)
Theorem C34_median_majority bands n b1 b2 R b k :
  array2 bands n b1 -> array2 bands n b2 -> (11 <= n)%nat ->
  pairwise_unwrapped_diff_deciles b1 b2 = Ok R -> (b < bands)%nat ->
  (forall ps, NoDup ps ->
     (forall p, In p ps <-> (p < n)%nat /\ cycles_within_tol (pix b2 b p - pix b1 b p) k) ->
     (n < 2 * length ps)%nat) ->
  (nth 5 (nth b R []) 0 == inject_Z k)%Q.
Proof. intros A1 A2 Hn HR Hb Hm. exact (stats_majority bands n b1 b2 A1 A2 Hn R b k HR Hb Hm). Qed.

(** Two bands of 11 pixels; the first differs by 3 cycles everywhere, the
    second by 0 to 10 cycles. *)
Definition C34_b1 : ndarray := ND [2; 11]%nat [repeat 0%Q 11; repeat 0%Q 11].
Definition C34_b2 : ndarray :=
  ND [2; 11]%nat [repeat (twopi * 3)%Q 11; map (fun k => twopi * inject_Z (10 - Z.of_nat k))%Q (seq 0 11)].
Example C34_witness : array2 2 11 C34_b1 /\ array2 2 11 C34_b2 /\
  exists R, pairwise_unwrapped_diff_deciles C34_b1 C34_b2 = Ok R /\
    map (map Qred) R = [repeat 3%Q 11; map (fun k => inject_Z (Z.of_nat k)) (seq 0 11)].
Proof.
  split; [|split].
  - repeat split; try reflexivity. intros r Hr. cbn in Hr. intuition; subst; reflexivity.
  - repeat split; try reflexivity. intros r Hr. cbn in Hr. intuition; subst; reflexivity.
  - eexists. split; vm_compute; reflexivity.
Qed.

(** A half-cycle difference is rejected, and so are 10 pixels. *)
Example C34_rejects :
  pairwise_unwrapped_diff_deciles (ND [1; 11]%nat [repeat 0%Q 11])
    (ND [1; 11]%nat [repeat (twopi * (1 # 2))%Q 11]) = Err AssertionError /\
  pairwise_unwrapped_diff_deciles (ND [1; 10]%nat [repeat 0%Q 10])
    (ND [1; 10]%nat [repeat 0%Q 10]) = Err ValueError.
Proof. split; vm_compute; reflexivity. Qed.

(** What the overlap file records for a pair of tiles: eleven numbers per
    band, the deciles of the whole-cycle differences second minus first tile
    over the shared pixels, rounded towards zero. *)
Theorem C34_recorded_stats min_points files t i j g bands :
  let F := fun n => nth n files (TileFile [] (BBox 0 0 0 0) [] []) in
  tile_bands bands (F i) -> tile_bands bands (F j) ->
  overlap_pair min_points files t (i, j) = Ok (Some g) ->
  length (og_stats g) = bands /\
  exists (k : nat -> nat -> Z) (D : nat -> list Q),
    (forall b m, (b < bands)%nat -> (m < length (og_c1 g))%nat ->
       cycles_within_tol (phase_of (F j) b (nth m (og_c2 g) O) - phase_of (F i) b (nth m (og_c1 g) O)) (k b m)) /\
    (forall b, (b < bands)%nat -> deciles_of (length (og_c1 g)) (k b) (D b) /\
       length (nth b (og_stats g) []) = 11%nat /\
       forall q, (q <= 10)%nat -> towards_zero (nth q (D b) 0%Q) (nth q (nth b (og_stats g) []) 0)).
Proof.
  intros F Ti Tj H. unfold overlap_pair in H. fold (F i) (F j) in H.
  destruct (load_uw_tile (F i) _) as [pt1 uw1] eqn:E1.
  destruct (load_uw_tile (F j) _) as [pt2 uw2] eqn:E2.
  destruct (find_common_points 32 pt1 pt2) as [[c1 c2]|] eqn:EC; [|discriminate]. cbn [bind] in H.
  apply common_range in EC as [Lc Rc].
  destruct (_ <? min_points); [discriminate|].
  pose proof (taken_array (F i) (nth i (tiles t) (BBox 0 0 0 0)) bands c1 Ti) as [A1 P1].
  pose proof (taken_array (F j) (nth j (tiles t) (BBox 0 0 0 0)) bands c2 Tj) as [A2 P2].
  rewrite E1 in A1, P1. rewrite E2 in A2, P2. cbn [snd] in *. rewrite <- Lc in A2, P2, H.
  destruct (pairwise_unwrapped_diff_deciles _ _) as [R|] eqn:ER; [|discriminate]. cbn [bind] in H.
  injection H as <-. cbn [og_c1 og_c2 og_stats].
  assert (11 <= length c1)%nat as Hn.
  { destruct (Nat.lt_ge_cases (length c1) 11) as [C|C]; [|auto]. rewrite C34_bad_input in ER; [discriminate|].
    right. right. cbn. exact C. }
  destruct (C34_deciles bands (length c1) _ _ R A1 A2 Hn ER) as (LR & k & K1 & K2).
  assert (length pt1 = length (tf_points (F i))) as L1 by (injection E1 as <- _; apply map_length).
  assert (length pt2 = length (tf_points (F j))) as L2 by (injection E2 as <- _; apply map_length).
  split; [now rewrite map_length|]. exists k, (fun b => nth b R []). split.
  - intros b m Hb Hm. destruct (Rc m Hm) as [R1 R2]. specialize (K1 b m Hb Hm) as [B C]. split; [exact B|].
    rewrite <- (P1 b m) by (auto; lia). rewrite <- (P2 b m) by (auto; lia). exact C.
  - intros b Hb. pose proof (K2 b Hb) as DK. split; [exact DK|]. destruct DK as (L11 & _).
    rewrite (map_nth' _ R _ []) by lia. split; [now rewrite map_length|].
    intros q Hq. rewrite (map_nth' _ _ _ 0%Q) by lia. apply towards_zero_ok.
Qed.

(** So when most of the shared pixels differ by [k] cycles, [k] is the median
    recorded for the pair. *)
Theorem C34_recorded_median min_points files t i j g bands b k :
  let F := fun n => nth n files (TileFile [] (BBox 0 0 0 0) [] []) in
  tile_bands bands (F i) -> tile_bands bands (F j) ->
  overlap_pair min_points files t (i, j) = Ok (Some g) -> (b < bands)%nat ->
  (forall ms, NoDup ms ->
     (forall m, In m ms <-> (m < length (og_c1 g))%nat /\
        cycles_within_tol (phase_of (F j) b (nth m (og_c2 g) O) - phase_of (F i) b (nth m (og_c1 g) O)) k) ->
     (length (og_c1 g) < 2 * length ms)%nat) ->
  nth 5 (nth b (og_stats g) []) 0 = k.
Proof.
  intros F Ti Tj H Hb Hm. unfold overlap_pair in H. fold (F i) (F j) in H.
  destruct (load_uw_tile (F i) _) as [pt1 uw1] eqn:E1.
  destruct (load_uw_tile (F j) _) as [pt2 uw2] eqn:E2.
  destruct (find_common_points 32 pt1 pt2) as [[c1 c2]|] eqn:EC; [|discriminate]. cbn [bind] in H.
  apply common_range in EC as [Lc Rc].
  destruct (_ <? min_points); [discriminate|].
  pose proof (taken_array (F i) (nth i (tiles t) (BBox 0 0 0 0)) bands c1 Ti) as [A1 P1].
  pose proof (taken_array (F j) (nth j (tiles t) (BBox 0 0 0 0)) bands c2 Tj) as [A2 P2].
  rewrite E1 in A1, P1. rewrite E2 in A2, P2. cbn [snd] in *. rewrite <- Lc in A2, P2, H.
  destruct (pairwise_unwrapped_diff_deciles _ _) as [R|] eqn:ER; [|discriminate]. cbn [bind] in H.
  injection H as <-. cbn [og_c1 og_c2 og_stats] in *.
  assert (11 <= length c1)%nat as Hn.
  { destruct (Nat.lt_ge_cases (length c1) 11) as [C|C]; [|auto]. rewrite C34_bad_input in ER; [discriminate|].
    right. right. cbn. exact C. }
  assert (length pt1 = length (tf_points (F i))) as L1 by (injection E1 as <- _; apply map_length).
  assert (length pt2 = length (tf_points (F j))) as L2 by (injection E2 as <- _; apply map_length).
  destruct (C34_deciles bands (length c1) _ _ R A1 A2 Hn ER) as (LR & k0 & _ & K2).
  destruct (K2 b Hb) as (L11 & _). 
  rewrite (map_nth' _ R _ []) by lia. rewrite (map_nth' _ _ _ 0%Q) by lia.
  eapply towards_zero_int; [|apply towards_zero_ok].
  apply (C34_median_majority bands (length c1) _ _ R b k A1 A2 Hn ER Hb).
  intros ps Nd Hps. apply Hm; [auto|]. intros m. rewrite Hps.
  split; intros [X [B C]]; (split; [auto|]); (split; [exact B|]); destruct (Rc m X) as [R1 R2].
  - rewrite <- (P1 b m) by (auto; lia). rewrite <- (P2 b m) by (auto; lia). exact C.
  - rewrite (P1 b m) by (auto; lia). rewrite (P2 b m) by (auto; lia). exact C.
Qed.

(** Two tiles sharing twelve pixels, one cycle apart after adding the stored
    offsets; the indices of the shared pixels differ between the tiles. *)
Example C34_recorded_witness :
  let f1 := TileFile (map (fun c => (0, Z.of_nat c)) (seq 0 13)) (BBox 0 0 1 13)
              [map (fun c => inject_Z (Z.of_nat c)) (seq 0 13)] [5%Q] in
  let f2 := TileFile (map (fun c => (0, Z.of_nat c)) (seq 0 13)) (BBox 0 1 1 14)
              [map (fun c => inject_Z (Z.of_nat c)) (seq 0 13)] [(6 + twopi)%Q] in
  let t := TileSet (1, 14) [BBox 0 0 1 13; BBox 0 1 1 14] in
  tile_bands 1 f1 /\ tile_bands 1 f2 /\
  overlap_pair 11 [f1; f2] t (0, 1)%nat = Ok (Some (OGroup (0, 1)%nat (seq 1 12) (seq 0 12) [repeat 1 11])).
Proof.
  split; [|split].
  - split; [reflexivity|]. split; [reflexivity|]. intros r [<-|[]]. reflexivity.
  - split; [reflexivity|]. split; [reflexivity|]. intros r [<-|[]]. reflexivity.
  - vm_compute. reflexivity.
Qed.

Print Assumptions C33_common_points_partial.
Print Assumptions C33_negative.
Print Assumptions C33_empty.
Print Assumptions C33_int32_refuted.
Print Assumptions C33_recorded_overlap.
Print Assumptions C34_bad_input.
Print Assumptions C34_whole_cycles.
Print Assumptions C34_deciles.
Print Assumptions C34_median_majority.
Print Assumptions C34_recorded_stats.
Print Assumptions C34_recorded_median.
