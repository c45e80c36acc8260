(** How many points the tiles of the density tiler hold (C67), and what happens
    when the points crowd on a line (C68). *)
From Verif Require Import Base BaseLemmas FloatModel FloatProofs TileModel TileSpec TileProofs DensitySpec DensityProofs
  ScoreModel ScoreProofs Props_Tile.
From Coq Require Import List ZifyBool Lia.
Import ListNotations.
Set Default Goal Selector "!".
Local Open Scope nat_scope.

(** * C67 *)

(** Whatever cuts are chosen: each tile holds its share of the points, up to what
    ties cost and the points on the two lines along its upper borders. *)
Theorem C67_lower pick D pts sh mt t b :
  picks_in_range pick -> (0 < fst sh)%Z -> (0 < snd sh)%Z -> points_in sh pts -> per_line D pts ->
  create_tiles_density pick pts sh mt = Ok t -> In b (tiles t) ->
  length pts / ntiles t <= points_of b pts + tie_loss D (ntiles t) + 2 * D.
Proof. apply density_lower. Qed.

Theorem C67_upper pick D pts sh mt t b :
  picks_in_range pick -> (0 < fst sh)%Z -> (0 < snd sh)%Z -> points_in sh pts -> per_line D pts ->
  create_tiles_density pick pts sh mt = Ok t -> In b (tiles t) ->
  points_of b pts + (ntiles t - 1) * (length pts / ntiles t - tie_loss D (ntiles t) - 2 * D) <= length pts.
Proof. apply density_upper. Qed.

Theorem C67_sum pick pts sh mt t :
  picks_in_range pick -> (0 < fst sh)%Z -> (0 < snd sh)%Z -> points_in sh pts ->
  create_tiles_density pick pts sh mt = Ok t -> list_sum (map (fun b => points_of b pts) (tiles t)) = length pts.
Proof.
  intros H1 H2 H3 H4 E. destruct (C29_partition _ _ _ _ _ H1 H2 H3 H4 E) as (Es & P & _). apply partition_sum; [exact P|now rewrite Es].
Qed.

(** The tiler returns as soon as the share of a tile exceeds the cost of ties. *)
Theorem C67_total pick D pts sh mt :
  picks_in_range pick -> (0 < fst sh)%Z -> (1 <= mt)%Z -> per_line D pts ->
  tie_loss D (Z.to_nat (Z.sqrt mt * Z.sqrt mt)) < length pts / Z.to_nat (Z.sqrt mt * Z.sqrt mt) ->
  exists t, create_tiles_density pick pts sh mt = Ok t.
Proof. intros H1 H2 H3 H4 H5. exact (density_total pick D pts sh mt H1 H2 H3 H4 H5). Qed.

(** Points with distinct rows and distinct columns: it always returns when there
    are as many points as tiles, and every tile misses at most two of its share. *)
Theorem C67_distinct pick pts sh mt :
  picks_in_range pick -> (0 < fst sh)%Z -> (0 < snd sh)%Z -> points_in sh pts -> NoDup (map fst pts) -> NoDup (map snd pts) ->
  (1 <= mt)%Z -> (Z.sqrt mt * Z.sqrt mt <= Z.of_nat (length pts))%Z ->
  exists t, create_tiles_density pick pts sh mt = Ok t /\
    forall b, In b (tiles t) -> length pts / ntiles t <= points_of b pts + 2.
Proof.
  intros H1 H2 H3 H4 N1 N2 Hm HN.
  assert (per_line 1 pts) as HD by now apply distinct_per_line.
  assert (1 <= Z.sqrt mt)%Z as Hk by (apply Z.sqrt_le_square; lia).
  destruct (C67_total pick 1 pts sh mt H1 H2 Hm HD) as (t & E).
  - rewrite tie_loss_one. apply Nat.div_str_pos. nia.
  - exists t. split; [exact E|]. intros b I. pose proof (C67_lower pick 1 pts sh mt t b H1 H2 H3 H4 HD E I) as K. rewrite tie_loss_one in K. lia.
Qed.

(** [get_tiles], which cuts along a sample of the coherent pixels and dilates:
    it returns, and every tile has that many coherent pixels. *)
Theorem C67_get_tiles pick D root s s' arr :
  picks_in_range pick -> tiler_post_init s' = Ok s ->
  0 < length arr -> 0 < length (nth 0 arr []) ->
  (Z.of_nat (length arr) <= 2 ^ 53)%Z -> (Z.of_nat (length (nth 0 arr [])) <= 2 ^ 53)%Z ->
  (forall i, i < length arr -> length (nth i arr []) = length (nth 0 arr [])) ->
  per_line D (nonzero arr) ->
  let pts := nonzero arr in
  let skip := Nat.max 1 (Z.to_nat (Z.of_nat (length pts) / target_points_for_generation s)) in
  let q := Z.sqrt (requested_tiles (root (length pts)) (ts_max_tiles s)) in
  let m := Z.to_nat (q * q) in
  let share := ceil_div (length pts) skip / m in
  tie_loss D m < share ->
  exists t, get_tiles pick root true s arr = Ok t /\ ntiles t = m /\
    forall b, In b (tiles t) -> share <= points_of b pts + tie_loss D m + 2 * D.
Proof.
  intros Hpick Hs Hr Hc Br Bc Hrect HD pts skip q m share Hl.
  set (sh := (Z.of_nat (length arr), Z.of_nat (length (nth 0 arr [])))).
  assert (1 <= ts_max_tiles s /\ (0 <= dilation_factor s)%Q)%Z as [Hmax Hfac].
  { unfold tiler_post_init in Hs. destruct (ts_max_tiles s' <? 1)%Z eqn:E1; [discriminate|].
    destruct (negb (Qle_bool 0 (dilation_factor s'))) eqn:E2; [discriminate|].
    destruct (target_points_for_generation s' <=? 0)%Z; [discriminate|].
    destruct (target_points_per_tile s' <=? 0)%Z; [discriminate|].
    injection Hs as <-. split; [lia|]. apply negb_false_iff in E2. now apply Qle_bool_iff. }
  assert (points_in sh pts) as PI.
  { intros p Hp. apply nonzero_In in Hp as (i & j & -> & Hi & Hj & _). rewrite Hrect in Hj by exact Hi. unfold in_image, sh. cbn [fst snd]. lia. }
  assert (points_in sh (every_nth skip 0 pts)) as PI' by (intros p I; apply every_nth_In in I; auto).
  assert (per_line D (every_nth skip 0 pts)) as HD' by now apply every_nth_per_line.
  assert (length (every_nth skip 0 pts) = ceil_div (length pts) skip) as El.
  { rewrite every_nth_length by (unfold skip; lia). unfold ceil_div. f_equal. unfold skip. lia. }
  pose proof (C30_request (root (length pts)) (ts_max_tiles s) Hmax) as RQ. set (mt := requested_tiles _ _) in *.
  assert (0 < fst sh)%Z as P1 by (unfold sh; cbn [fst snd]; lia). assert (0 < snd sh)%Z as P2 by (unfold sh; cbn [fst snd]; lia).
  destruct (C67_total pick D (every_nth skip 0 pts) sh mt Hpick P1 (proj1 RQ) HD') as (t0 & E0); [rewrite El; exact Hl|].
  pose proof (density_sound _ _ _ _ _ Hpick P1 P2 PI' E0) as (S0 & _ & F0 & N0 & _).
  assert (ntiles t0 = m) as Em by (unfold m, q; lia).
  assert (forall b, In b (tiles t0) -> share <= points_of b pts + tie_loss D m + 2 * D) as K0.
  { intros b I. pose proof (C67_lower pick D _ sh mt t0 b Hpick P1 P2 PI' HD' E0 I) as K. rewrite El, Em in K. unfold share.
    pose proof (every_nth_cnt (in_box b) skip 0 pts) as C. unfold points_of in *. unfold cnt in C. lia. }
  assert ((fst sh * snd sh =? 0)%Z = false) as NE by (unfold sh; cbn [fst snd]; nia).
  unfold get_tiles. cbn [negb]. fold pts sh skip. rewrite NE. fold mt. rewrite E0. cbn [bind].
  destruct (Nat.ltb 1 (ntiles t0) && negb (Qle_bool (dilation_factor s) 0)); [|exists t0; auto].
  destruct (C27_dilate t0 (dilation_factor s) Hfac) as (_ & L1 & _ & In1).
  - now rewrite S0.
  - rewrite S0. exact Br.
  - rewrite S0. exact Bc.
  - eexists. split; [reflexivity|]. split; [congruence|]. intros b I. apply (In_nth _ _ (BBox 0 0 0 0)) in I as (i & Hi & <-). fold (ntiles (dilate (dilation_factor s) t0)) in Hi. rewrite L1 in Hi.
    specialize (K0 (tile_at t0 i) ltac:(apply nth_In; exact Hi)). fold (tile_at (dilate (dilation_factor s) t0) i).
    assert (points_of (tile_at t0 i) pts <= points_of (tile_at (dilate (dilation_factor s) t0) i) pts); [|lia].
    apply cnt_mono. intros p _ B. apply in_box_has in B. apply in_box_has. now apply In1.
Qed.

(** The choice by score is one of the choices covered above. *)
Theorem C67_scores_covered : picks_in_range pick_scores.
Proof. exact pick_scores_range. Qed.

(** Sixteen points on sixteen rows and columns, four tiles. *)
Definition pts16 : list (Z * Z) := map (fun i => (Z.of_nat i, (5 * Z.of_nat i) mod 17)%Z) (seq 1 16).
Example C67_witness : points_in (17, 17)%Z pts16 /\ NoDup (map fst pts16) /\ NoDup (map snd pts16) /\ per_line 1 pts16 /\
  (exists t, create_tiles_density pick_rows pts16 (17, 17)%Z 5 = Ok t /\ ntiles t = 4 /\ map (fun b => points_of b pts16) (tiles t) = [3; 4; 4; 5]) /\
  (exists t, create_tiles_density pick_scores pts16 (17, 17)%Z 5 = Ok t).
Proof.
  assert (points_in (17, 17)%Z pts16) as P.
  { intros p H. cbn in H. repeat (destruct H as [<-|H]; [unfold in_image; cbn; lia|]). contradiction. }
  assert (NoDup (map fst pts16) /\ NoDup (map snd pts16)) as [N1 N2].
  { split; cbv; repeat (constructor; [cbn; intuition discriminate|]); constructor. }
  split; [exact P|]. split; [exact N1|]. split; [exact N2|]. split.
  { now apply distinct_per_line. }
  split.
  - eexists. split; [vm_compute; reflexivity|]. split; vm_compute; reflexivity.
  - destruct (C67_distinct pick_scores pts16 (17, 17)%Z 5 pick_scores_range) as (t & E & _); try (cbn; lia); auto. eauto.
Qed.
(** One tie per line costs one more point per tile. *)
Example C67_loss : map (tie_loss 2) [1; 4; 9] = [0; 3; 8] /\ map (tie_loss 4) [4; 9; 16] = [6; 11; 18].
Proof. split; reflexivity. Qed.

(** * C68 *)

(** Enough points for the tiles are not enough: when all points lie in the middle
    row of a tall image, four tiles are never returned. *)
Theorem C68_row_refuted r W pts :
  (1 <= W)%Z -> (2 * W <= r)%Z -> (forall p, In p pts -> fst p = r) -> 4 <= length pts ->
  create_tiles_density pick_scores pts (2 * r, W)%Z 4 = Err ValueError.
Proof. apply row_raises. Qed.

(** When they lie in the first column of a wide image, three of four tiles have no pixel. *)
Theorem C68_column_refuted H W pts t :
  (1 <= H)%Z -> (2 * H <= W)%Z -> points_in (H, W) pts -> (forall p, In p pts -> snd p = 0%Z) -> 4 <= length pts ->
  create_tiles_density pick_scores pts (H, W) 4 = Ok t -> forall k r c, k < 3 -> ~ has_pixel (tile_at t k) r c.
Proof. apply column_empty. Qed.

(** What holds: with at most [D] points per line and a share above the losses, the
    tiler returns and no tile is without points. Missing: crowded lines (above). *)
Theorem C68_nonempty_partial pick D pts sh mt :
  picks_in_range pick -> (0 < fst sh)%Z -> (0 < snd sh)%Z -> points_in sh pts -> per_line D pts -> (1 <= mt)%Z ->
  let m := Z.to_nat (Z.sqrt mt * Z.sqrt mt) in
  tie_loss D m + 2 * D < length pts / m ->
  exists t, create_tiles_density pick pts sh mt = Ok t /\ ntiles t = m /\
    forall b, In b (tiles t) -> exists p, In p pts /\ has_pixel b (fst p) (snd p).
Proof.
  intros H1 H2 H3 H4 HD Hm m HN. destruct (C67_total pick D pts sh mt H1 H2 Hm HD) as (t & E); [fold m; lia|].
  pose proof (density_sound _ _ _ _ _ H1 H2 H3 H4 E) as (_ & _ & _ & N0 & _). assert (ntiles t = m) as Em by (unfold m; lia).
  exists t. split; [exact E|]. split; [exact Em|]. intros b I. pose proof (C67_lower pick D pts sh mt t b H1 H2 H3 H4 HD E I) as K. rewrite Em in K.
  unfold points_of in K. destruct (filter (in_box b) pts) as [|p l] eqn:Ef; [cbn in K; lia|].
  exists p. assert (In p (filter (in_box b) pts)) as J by (rewrite Ef; now left). apply filter_In in J as [J1 J2]. split; [exact J1|now apply in_box_has].
Qed.

Example C68_row_witness : create_tiles_density pick_scores (map (fun j => (10, Z.of_nat j)%Z) (seq 0 5)) (20, 5)%Z 4 = Err ValueError.
Proof.
  apply (C68_row_refuted 10 5); [lia|lia| |cbn; lia]. intros p I. apply in_map_iff in I as (j & <- & _). reflexivity.
Qed.

Example C68_column_witness : exists t, points_in (4, 8)%Z col4 /\ (forall p, In p col4 -> snd p = 0%Z) /\
  create_tiles_density pick_scores col4 (4, 8)%Z 4 = Ok t /\ ntiles t = 4 /\ forall k r c, k < 3 -> ~ has_pixel (tile_at t k) r c.
Proof.
  destruct col4_ok as (t & E). exists t.
  assert (points_in (4, 8)%Z col4) as P.
  { intros p I. cbn in I. repeat (destruct I as [<-|I]; [unfold in_image; cbn; lia|]). contradiction. }
  assert (forall p, In p col4 -> snd p = 0%Z) as Z0.
  { intros p I. cbn in I. repeat (destruct I as [<-|I]; [reflexivity|]). contradiction. }
  split; [exact P|]. split; [exact Z0|]. split; [exact E|]. split.
  - destruct (C30_count_density pick_scores col4 (4, 8)%Z 4 t pick_scores_range eq_refl eq_refl P E) as [K _]. change (Z.sqrt 4 * Z.sqrt 4)%Z with 4%Z in K. lia.
  - exact (C68_column_refuted 4 8 col4 t ltac:(lia) ltac:(lia) P Z0 ltac:(cbn; lia) E).
Qed.

Print Assumptions C67_lower.
Print Assumptions C67_upper.
Print Assumptions C67_sum.
Print Assumptions C67_total.
Print Assumptions C67_distinct.
Print Assumptions C67_get_tiles.
Print Assumptions C67_scores_covered.
Print Assumptions C68_row_refuted.
Print Assumptions C68_column_refuted.
Print Assumptions C68_nonempty_partial.
