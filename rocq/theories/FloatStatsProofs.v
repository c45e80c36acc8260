(** Rounding and the cycle differences of overlapping tiles. *)
From Verif Require Import Base BaseLemmas TileModel TileSpec TileProofs OverlapModel OverlapSpec OverlapProofs MergeModel MergeSpec
  AdjustProofs DescribeProofs PhaseProofs FloatMcfSpec FloatMcfRound FloatPhaseProofs FloatMergeModel FloatMergeSpec Props_Tile Props_Overlap.
From Coq Require Import List ZifyBool Lqa.
Import ListNotations.
Set Default Goal Selector "!".
Local Open Scope Q_scope.
Local Notation phase_of := OverlapSpec.phase_of.

(** ** One pixel *)
Section Pixel.
Context (fl fc : Q -> Q) (u v : Q) (Hl : rounding fl u) (Hc : rounding fc v) (Hu : u <= 1 # 1000) (Hv : v <= 1 # 1000).

Lemma cycle_near R e x1 x2 y1 y2 k : - R <= y1 <= R -> - R <= y2 <= R ->
  - e <= x1 - y1 <= e -> - e <= x2 - y2 <= e -> y2 - y1 == twopi * k -> e + 5 * u * R <= 1 # 40 ->
  - (97 # 10000) <= cycle_diff_fl fl (fl x1) (fl x2) - k <= 97 # 10000.
Proof.
  intros A1 A2 D1 D2 E He. pose proof (rd_nonneg fl u Hl) as Hn. assert (0 <= R) as HR by lra.
  assert (0 <= u * R) as HuR by nra. assert (0 <= e) as He0 by lra. assert (0 <= u * e <= e * (1 # 1000)) as Hue by nra.
  assert (u * R <= R * (1 # 1000)) as HuR' by nra.
  pose proof (rd_bound fl u Hl x1 (R + e) ltac:(lra)) as E1. pose proof (rd_bound fl u Hl x2 (R + e) ltac:(lra)) as E2.
  unfold cycle_diff_fl. set (z1 := fl x1) in *. set (z2 := fl x2) in *. clearbody z1 z2.
  set (r := u * (R + e)) in *. assert (r == u * R + u * e) as Er by (unfold r; ring). clearbody r.
  pose proof (rd_bound fl u Hl (z2 - z1) (2 * R + 2 * e + 2 * r) ltac:(lra)) as E3.
  set (d := fl (z2 - z1)) in *. clearbody d.
  assert (0 <= u * r <= r * (1 # 1000)) as Hur by nra.
  assert (u * (2 * R + 2 * e + 2 * r) == 2 * (u * R) + 2 * (u * e) + 2 * (u * r)) as Er2 by ring. rewrite Er2 in E3. clear Er2.
  assert (- ((201 # 100) * e + (402 # 100) * (u * R)) <= d - twopi * k <= (201 # 100) * e + (402 # 100) * (u * R)) as F by lra.
  set (w := (201 # 100) * e + (402 # 100) * (u * R)) in *.
  assert (w <= 201 # 4000) as Hw by (unfold w; lra). assert (0 <= w) as Hw0 by (unfold w; lra).
  pose proof twopi_lo as L. pose proof twopi_hi as L'.
  pose proof (rd_bound fl u Hl twopi twopi ltac:(lra)) as E4. set (t := fl twopi) in *. clearbody t.
  assert (0 <= u * twopi <= twopi * (1 # 1000)) as Hut by nra.
  assert ((599 # 100) <= t) as Ht by lra.
  assert (- (2 * R) <= twopi * k <= 2 * R) as Hk by lra.
  assert (d == (d / t) * t) as Fd by (field; lra). set (q := d / t) in *. clearbody q.
  assert (- ((201 # 100) * R + (6 # 100)) <= q * t <= (201 # 100) * R + (6 # 100)) as Hqt by lra.
  assert (- ((34 # 100) * R + (2 # 100)) <= q <= (34 # 100) * R + (2 # 100)) as Hq by nra.
  pose proof (rd_bound fl u Hl q _ Hq) as E5.
  assert (twopi * (q - k) == (d - twopi * k) - q * (t - twopi)) as G by lra.
  assert (- (((34 # 100) * R + (2 # 100)) * (u * twopi)) <= q * (t - twopi) <= ((34 # 100) * R + (2 # 100)) * (u * twopi)) as G1.
  { assert (0 <= (34 # 100) * R + (2 # 100)) by lra. nra. }
  assert (((34 # 100) * R + (2 # 100)) * (u * twopi) == twopi * ((34 # 100) * (u * R) + (2 # 100) * u)) as G2 by ring.
  rewrite G2 in G1. set (z := (34 # 100) * (u * R) + (2 # 100) * u) in *.
  assert (- (w * (167 # 1000) + z) <= q - k <= w * (167 # 1000) + z) as G3.
  { clearbody z w. assert (w <= (w * (167 # 1000)) * twopi) by nra. clear - G G1 F H L.
    split; apply (Qmult_le_l _ _ twopi); lra. }
  assert (u * ((34 # 100) * R + (2 # 100)) == z) as Ez by (unfold z; ring). rewrite Ez in E5.
  unfold w, z in *. lra.
Qed.

Lemma close_near d n : - (97 # 10000) <= d - inject_Z n <= 97 # 10000 -> close_int_fl fc d n = true.
Proof.
  intros H. unfold close_int_fl. apply Qle_bool_iff. apply abs_le in H.
  pose proof (rd_nonneg fc v Hc) as Hn.
  pose proof (rd_err fc v Hc (d - inject_Z n)) as E1. set (y := fc (d - inject_Z n)) in *. clearbody y.
  assert (Qabs y <= (1001 # 1000) * Qabs (d - inject_Z n)) as E2.
  { pose proof (Qabs_nonneg (d - inject_Z n)). pose proof (Qabs_triangle_reverse y (d - inject_Z n)). nra. }
  pose proof (rd_bound fc v Hc (1 # 100) (1 # 100) ltac:(lra)) as A1. set (a := fc (1 # 100)) in *. clearbody a.
  pose proof (rd_bound fc v Hc (1 # 100000) (1 # 100000) ltac:(lra)) as A2. set (b := fc (1 # 100000)) in *. clearbody b.
  set (m := inject_Z (Z.abs n)). assert (0 <= m) as Hm by (change 0 with (inject_Z 0); apply inject_Z_le_iff; lia). clearbody m.
  assert (0 <= b) as Hb by nra. assert (0 <= b * m) as Hbm by nra.
  pose proof (rd_bound fc v Hc (b * m) (b * m) ltac:(lra)) as A3. set (c := fc (b * m)) in *. clearbody c.
  assert (0 <= c) as Hc0 by nra. assert ((999 # 1000) * (1 # 100) <= a) as Ha by lra.
  pose proof (rd_bound fc v Hc (a + c) (a + c) ltac:(lra)) as A4. set (s := fc (a + c)) in *. clearbody s.
  assert ((999 # 1000) * (a + c) <= s) by nra. lra.
Qed.
End Pixel.

(** ** Arrays *)
Definition cells (h : Q -> Q -> Q) (b1 b2 : ndarray) : list (list Q) :=
  map (fun r => map (fun xy => h (fst xy) (snd xy)) (combine (fst r) (snd r))) (combine (nd_rows b1) (nd_rows b2)).

Lemma cells_spec h bands n b1 b2 : array2 bands n b1 -> array2 bands n b2 ->
  cells h b1 b2 = map (fun b => map (fun p => h (pix b1 b p) (pix b2 b p)) (seq 0 n)) (seq 0 bands).
Proof.
  intros (S1 & L1 & R1) (S2 & L2 & R2). unfold cells.
  apply (nth_ext_len _ _ []).
  { rewrite !map_length, seq_length, combine_length. lia. }
  intros b Hb. rewrite map_length, combine_length in Hb.
  rewrite (map_nth' _ _ _ ([], [])) by (rewrite combine_length; lia).
  rewrite (map_nth' _ (seq 0 bands) _ 0%nat), seq_nth by (rewrite ?seq_length; lia).
  rewrite (combine_nth' _ _ _ [] []) by lia. cbn [fst snd Nat.add].
  assert (length (nth b (nd_rows b1) []) = n) as E1 by (apply R1, nth_In; lia).
  assert (length (nth b (nd_rows b2) []) = n) as E2 by (apply R2, nth_In; lia).
  apply (nth_ext_len _ _ 0).
  { rewrite !map_length, seq_length, combine_length. lia. }
  intros p Hp. rewrite map_length, combine_length in Hp.
  rewrite (map_nth' _ _ _ (0, 0)) by (rewrite combine_length; lia).
  rewrite (map_nth' _ (seq 0 n) _ 0%nat), seq_nth by (rewrite ?seq_length; lia).
  rewrite (combine_nth' _ _ _ 0 0) by lia. reflexivity.
Qed.

Lemma cells_close (close : Q -> Z -> bool) (D : nat -> nat -> Q) (m n : nat) :
  (forall b p, (b < m)%nat -> (p < n)%nat -> close (D b p) (nint16 (D b p)) = true) ->
  let A := map (fun b => map (D b) (seq 0 n)) (seq 0 m) in
  forallb (fun r => forallb (fun dn => close (fst dn) (snd dn)) (combine (fst r) (snd r))) (combine A (map (map nint16) A)) = true.
Proof.
  intros H. cbv zeta. apply forallb_forall. intros [r r'] I. cbn [fst snd].
  assert (exists b, (b < m)%nat /\ r = map (D b) (seq 0 n) /\ r' = map nint16 r) as (b & Hb & -> & ->).
  { rewrite map_map in I. assert (forall b, In b (seq 0 m) -> (b < m)%nat) as Hs by (intros b; rewrite in_seq; lia).
    revert I Hs. induction (seq 0 m) as [|a t IH]; [easy|].
    intros [E|I] Hs; [|apply IH; auto; intros; apply Hs; now right].
    exists a. injection E as <- <-. split; [apply Hs; now left|auto]. }
  apply forallb_forall. intros [d z] I'. cbn [fst snd]. rewrite map_map in I'.
  assert (exists p, (p < n)%nat /\ d = D b p /\ z = nint16 (D b p)) as (p & Hp & -> & ->).
  { assert (forall b, In b (seq 0 n) -> (b < n)%nat) as Hs by (intros p; rewrite in_seq; lia).
    revert I' Hs. clear I. induction (seq 0 n) as [|a t IH]; [easy|].
    intros [E|I'] Hs; [|apply IH; auto; intros; apply Hs; now right].
    exists a. injection E as <- <-. split; [apply Hs; now left|auto]. }
  auto.
Qed.

Section Arrays.
Context (fl fc : Q -> Q) (u v : Q) (Hl : rounding fl u) (Hc : rounding fc v) (Hu : u <= 1 # 1000) (Hv : v <= 1 # 1000).

(** Both arrays of differences are the same whole numbers. *)
Lemma deciles_same bands n a1 a2 b1 b2 (k : nat -> nat -> Z) :
  array2 bands n a1 -> array2 bands n a2 -> array2 bands n b1 -> array2 bands n b2 ->
  (forall b p, (b < bands)%nat -> (p < n)%nat -> (-32768 <= k b p <= 32767)%Z /\
     - (97 # 10000) <= cycle_diff_fl fl (pix a1 b p) (pix a2 b p) - inject_Z (k b p) <= 97 # 10000 /\
     cycle_diff (pix b1 b p) (pix b2 b p) == inject_Z (k b p)) ->
  pairwise_unwrapped_diff_deciles_fl fl fc a1 a2 = pairwise_unwrapped_diff_deciles b1 b2.
Proof using All.
  intros A1 A2 B1 B2 H. unfold pairwise_unwrapped_diff_deciles_fl, pairwise_unwrapped_diff_deciles.
  pose proof A1 as (Sa1 & _). pose proof A2 as (Sa2 & _). pose proof B1 as (Sb1 & _). pose proof B2 as (Sb2 & _).
  rewrite Sa1, Sa2, Sb1, Sb2. destruct (list_eq_dec _ _ _); [|easy]. cbn [negb length Nat.eqb nth].
  destruct (n <? 11)%nat; [reflexivity|].
  fold (cells (cycle_diff_fl fl) a1 a2). fold (cells cycle_diff b1 b2).
  rewrite (cells_spec _ bands n a1 a2 A1 A2), (cells_spec _ bands n b1 b2 B1 B2).
  assert (forall b p, (b < bands)%nat -> (p < n)%nat -> nint16 (cycle_diff_fl fl (pix a1 b p) (pix a2 b p)) = k b p /\
    nint16 (cycle_diff (pix b1 b p) (pix b2 b p)) = k b p) as Hi.
  { intros b p Hb Hp. destruct (H b p Hb Hp) as (Hk & H1 & H2). unfold nint16.
    rewrite (rint_unique (cycle_diff_fl fl (pix a1 b p) (pix a2 b p)) (k b p)) by lra.
    rewrite (rint_unique (cycle_diff (pix b1 b p) (pix b2 b p)) (k b p)) by (rewrite H2; lra).
    now rewrite wrap16_id. }
  pose proof (cells_close (close_int_fl fc) (fun b p => cycle_diff_fl fl (pix a1 b p) (pix a2 b p)) bands n) as C1.
  cbv beta zeta in C1. rewrite C1.
  2:{ intros b p Hb Hp. rewrite (proj1 (Hi b p Hb Hp)). apply (close_near fc v Hc Hv). apply (H b p Hb Hp). }
  pose proof (cells_close close_int (fun b p => cycle_diff (pix b1 b p) (pix b2 b p)) bands n) as C2.
  cbv beta zeta in C2. rewrite C2.
  2:{ intros b p Hb Hp. rewrite (proj2 (Hi b p Hb Hp)). unfold close_int. apply Qle_bool_iff.
      destruct (H b p Hb Hp) as (_ & _ & ->). setoid_replace (inject_Z (k b p) - inject_Z (k b p)) with 0 by ring.
      change (Qabs 0) with 0. assert (0 <= inject_Z (Z.abs (k b p))) by (change 0 with (inject_Z 0); apply inject_Z_le_iff; lia). lra. }
  cbn [negb]. f_equal. rewrite !map_map. apply map_ext_in. intros b Ib. apply in_seq in Ib. rewrite !map_map.
  assert (forall g h : nat -> Z, (forall p, In p (seq 0 n) -> g p = h p) -> map g (seq 0 n) = map h (seq 0 n)) as X by (intros; now apply map_ext_in).
  apply map_ext. intros i. f_equal. apply X. intros p Ip. apply in_seq in Ip.
  destruct (Hi b p) as [-> ->]; lia.
Qed.

(** ** Files *)
Lemma loaded_fl f t bands b i : tile_bands bands f -> (b < bands)%nat -> (i < length (tf_points f))%nat ->
  nth i (nth b (snd (load_uw_tile_fl fl f t)) []) 0 = fl (phase_of f b i).
Proof.
  intros (L1 & L2 & L3) Hb Hi. unfold load_uw_tile_fl, phase_of. cbn [snd].
  rewrite (map_nth' _ _ _ ([], 0%Q)) by (rewrite combine_length; lia).
  rewrite (combine_nth' _ _ _ [] 0%Q) by lia. cbn [fst snd].
  rewrite (map_nth' _ _ _ 0%Q) by (rewrite L3; auto; apply nth_In; lia). reflexivity.
Qed.

Lemma taken_fl f t bands c : tile_bands bands f ->
  array2 bands (length c) (nd_of (length c) (take_cols (snd (load_uw_tile_fl fl f t)) c)) /\
  forall b m, (b < bands)%nat -> (m < length c)%nat -> (nth m c O < length (tf_points f))%nat ->
    pix (nd_of (length c) (take_cols (snd (load_uw_tile_fl fl f t)) c)) b m = fl (phase_of f b (nth m c O)).
Proof.
  intros T. pose proof T as (L1 & L2 & L3).
  assert (length (snd (load_uw_tile_fl fl f t)) = bands) as L.
  { cbn. rewrite map_length, combine_length. lia. }
  split.
  - unfold nd_of, array2. cbn [nd_shape nd_rows]. unfold take_cols. rewrite map_length, L. split; [auto|]. split; [auto|].
    intros r Hr. apply in_map_iff in Hr as (row & <- & _). apply map_length.
  - intros b m Hb Hm Hi. unfold pix, nd_of. cbn [nd_rows]. unfold take_cols.
    rewrite (map_nth' _ _ _ []) by lia. rewrite (map_nth' _ c _ O) by auto. now apply (loaded_fl f t bands).
Qed.

Context (files exact : list tile_file) (t : tileset) (bands : nat) (R e : Q) (H W : Z).
Hypothesis Hnear : Forall2 (near_file e) files exact.
Hypothesis Hb1 : forall f, In f files -> tile_bands bands f.
Hypothesis Hb2 : forall f, In f exact -> tile_bands bands f.
Hypothesis Hn : length exact = ntiles t.
Hypothesis Ht : forall n, (n < ntiles t)%nat -> tf_tile (nth n exact dfile) = tile_at t n.
Hypothesis Hg : forall f, In f exact -> in_grid H W (file_coords f).
Hypothesis Hfit : (H * W <= 2 ^ 32)%Z.
Hypothesis HR : phases_within R bands exact.
Hypothesis HR' : R <= 100000.
Hypothesis Hw : whole_cycles bands exact.
Hypothesis He : e + 5 * u * R <= 1 # 40.

Lemma near_nth n : (n < ntiles t)%nat -> near_file e (nth n files dfile) (nth n exact dfile).
Proof using Hnear Hn.
  intros B. rewrite <- Hn in B. clear - Hnear B. revert n B.
  induction Hnear as [|a b l l' E F IH]; intros [|n] B; cbn [length nth] in *; try lia; auto. apply IH; auto; lia.
Qed.

Lemma near_len : length files = ntiles t.
Proof using Hnear Hn. rewrite <- Hn. clear - Hnear. induction Hnear; cbn; auto. Qed.

Lemma pair_same min_points i j : (i < j < ntiles t)%nat ->
  overlap_pair_fl fl fc min_points files t (i, j) = overlap_pair min_points exact t (i, j).
Proof using All.
  intros B. pose proof near_len as Ln. assert (forall n, (n < ntiles t)%nat -> In (nth n exact dfile) exact /\ In (nth n files dfile) files) as Hi
    by (intros n Bn; split; apply nth_In; lia).
  destruct (near_nth i) as (Pi & Ti & Di); [lia|]. destruct (near_nth j) as (Pj & Tj & Dj); [lia|].
  destruct (Hi i) as [Ie If]; [lia|]. destruct (Hi j) as [Je Jf]; [lia|].
  unfold overlap_pair_fl, overlap_pair. fold dfile. fold (tile_at t i) (tile_at t j).
  set (fi := nth i files dfile) in *. set (fj := nth j files dfile) in *.
  set (gi := nth i exact dfile) in *. set (gj := nth j exact dfile) in *.
  pose proof (Ht i ltac:(lia)) as Ei. pose proof (Ht j ltac:(lia)) as Ej. fold gi in Ei. fold gj in Ej.
  assert (forall f g, tf_points f = tf_points g -> forall b, fst (load_uw_tile f b) = fst (load_uw_tile g b)) as Hp
    by (intros f g E b; unfold load_uw_tile; cbn [fst]; now rewrite E).
  destruct (load_uw_tile_fl fl fi (tile_at t i)) as [p1 w1] eqn:E1. destruct (load_uw_tile_fl fl fj (tile_at t j)) as [p2 w2] eqn:E2.
  destruct (load_uw_tile gi (tile_at t i)) as [q1 z1] eqn:F1. destruct (load_uw_tile gj (tile_at t j)) as [q2 z2] eqn:F2.
  assert (p1 = q1) as ->.
  { pose proof (f_equal fst E1) as X. pose proof (f_equal fst F1) as Y. cbn [fst] in X, Y. subst p1 q1. unfold load_uw_tile_fl. cbn [fst]. now apply Hp. }
  assert (p2 = q2) as ->.
  { pose proof (f_equal fst E2) as X. pose proof (f_equal fst F2) as Y. cbn [fst] in X, Y. subst p2 q2. unfold load_uw_tile_fl. cbn [fst]. now apply Hp. }
  assert (q1 = file_coords gi) as Q1 by (rewrite <- Ei in F1; injection F1 as <- _; reflexivity).
  assert (q2 = file_coords gj) as Q2 by (rewrite <- Ej in F2; injection F2 as <- _; reflexivity).
  destruct (find_common_points 32 q1 q2) as [[c1 c2]|] eqn:Ec; [|reflexivity]. cbn [bind].
  destruct (_ <? min_points)%Z; [reflexivity|].
  pose proof (common_range _ _ _ _ _ Ec) as [Lc Rc].
  assert (forall m, (m < length c1)%nat -> at_pt q1 (nth m c1 O) = at_pt q2 (nth m c2 O)) as Hpt.
  { assert (q1 <> [] /\ q2 <> []) as [N1 N2] by (split; intros X; rewrite X in Ec; [|destruct q1]; discriminate Ec).
    destruct (C33_common_points_partial 32 H W q1 q2) as (c1' & c2' & Ec' & _ & K & _); auto.
    - lia.
    - rewrite Q1. now apply Hg.
    - rewrite Q2. now apply Hg.
    - rewrite Ec in Ec'. injection Ec' as <- <-. intros m Bm. now apply K. }
  assert (length q1 = length (tf_points gi)) as Lq1 by (rewrite Q1; unfold file_coords; apply map_length).
  assert (length q2 = length (tf_points gj)) as Lq2 by (rewrite Q2; unfold file_coords; apply map_length).
  destruct (taken_fl fi (tile_at t i) bands c1 (Hb1 _ If)) as [A1 V1]. destruct (taken_fl fj (tile_at t j) bands c2 (Hb1 _ Jf)) as [A2 V2].
  destruct (taken_array gi (tile_at t i) bands c1 (Hb2 _ Ie)) as [A3 V3]. destruct (taken_array gj (tile_at t j) bands c2 (Hb2 _ Je)) as [A4 V4].
  rewrite E1 in A1, V1. rewrite E2 in A2, V2. rewrite F1 in A3, V3. rewrite F2 in A4, V4. cbn [snd] in *.
  set (a1 := nd_of (length c1) (take_cols w1 c1)) in *. set (a2 := nd_of (length c2) (take_cols w2 c2)) in *.
  set (b1 := nd_of (length c1) (take_cols z1 c1)) in *. set (b2 := nd_of (length c2) (take_cols z2 c2)) in *.
  rewrite <- Lc in A2, A4.
  assert (forall b m, (b < bands)%nat -> (m < length c1)%nat -> exists k : Z,
     phase_of gj b (nth m c2 O) - phase_of gi b (nth m c1 O) == twopi * inject_Z k) as Hk.
  { intros b m Bb Bm. apply (Hw gi gj (at_pt q1 (nth m c1 O))); auto.
    - unfold file_point. rewrite <- Q1. unfold at_pt. apply nth_error_nth'. now apply Rc.
    - unfold file_point. rewrite <- Q2, Hpt by auto. unfold at_pt. apply nth_error_nth'. now apply Rc. }
  set (K := fun b m => rint ((phase_of gj b (nth m c2 O) - phase_of gi b (nth m c1 O)) / twopi)).
  pose proof twopi_lo as TL.
  rewrite (deciles_same bands (length c1) a1 a2 b1 b2 K A1 A2 A3 A4); [reflexivity|].
  intros b m Bb Bm. destruct (Rc m Bm) as [R1 R2]. destruct (Hk b m Bb Bm) as (k & Ek).
  pose proof (HR gi b (nth m c1 O) Ie Bb ltac:(lia)) as X1. pose proof (HR gj b (nth m c2 O) Je Bb ltac:(lia)) as X2.
  apply abs_le in X1, X2.
  assert ((phase_of gj b (nth m c2 O) - phase_of gi b (nth m c1 O)) / twopi == inject_Z k) as Eq by (rewrite Ek; field; lra).
  assert (K b m = k) as -> by (unfold K; apply rint_unique; rewrite Eq; lra).
  split; [|split].
  - assert (6283 # 1000 < twopi) as TL' by reflexivity.
    assert (- inject_Z 32000 <= inject_Z k <= inject_Z 32000) as Bk.
    { change (inject_Z 32000) with 32000. assert (-200000 <= twopi * inject_Z k <= 200000) as Bt by lra.
      clear - Bt TL'. split; apply (Qmult_le_l _ _ twopi); lra. }
    rewrite <- inject_Z_opp in Bk. destruct Bk as [Bk1 Bk2].
    apply (proj1 (inject_Z_le_iff _ _)) in Bk1. apply (proj1 (inject_Z_le_iff _ _)) in Bk2. lia.
  - rewrite (V1 b m), (V2 b m) by (try rewrite Pi; try rewrite Pj; auto; lia).
    apply (cycle_near fl u Hl Hu R e _ _ (phase_of gi b (nth m c1 O)) (phase_of gj b (nth m c2 O))); auto.
    + apply abs_le, Di.
    + apply abs_le, Dj.
  - unfold cycle_diff. rewrite (V3 b m), (V4 b m) by (auto; lia). exact Eq.
Qed.

Lemma overlaps_same comps min_points :
  compute_phasediff_deciles_fl fl fc comps min_points files t = compute_phasediff_deciles comps min_points exact t.
Proof using All.
  unfold compute_phasediff_deciles_fl, compute_phasediff_deciles.
  assert (forall l, (forall p, In p l -> In p (get_overlaps t)) ->
    map_res (overlap_pair_fl fl fc min_points files t) l = map_res (overlap_pair min_points exact t) l) as K.
  { destruct (C26_overlaps t) as (O1 & _). induction l as [|[i j] l IH]; intros Hin; [reflexivity|]. cbn [map_res].
    rewrite (pair_same min_points i j) by (apply O1, Hin; now left). rewrite IH by (intros; apply Hin; now right). reflexivity. }
  now rewrite K by auto.
Qed.
End Arrays.
