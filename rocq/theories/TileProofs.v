(** Proofs about boxes, tile sets and tilers. *)
From Verif Require Import Base BaseLemmas FloatModel FloatProofs TileModel TileSpec.
From Coq Require Import ZifyBool.
Set Default Goal Selector "!".
Local Open Scope Z_scope.

Lemma inject_le a b : a <= b -> (inject_Z a <= inject_Z b)%Q.
Proof. apply inject_Z_le_iff. Qed.
Lemma inject_lt a b : a < b -> (inject_Z a < inject_Z b)%Q.
Proof. apply inject_Z_lt_iff. Qed.
Lemma inject_le_inv a b : (inject_Z a <= inject_Z b)%Q -> a <= b.
Proof. apply inject_Z_le_iff. Qed.
Lemma inject_lt_inv a b : (inject_Z a < inject_Z b)%Q -> a < b.
Proof. apply inject_Z_lt_iff. Qed.

(** * Overlaps *)
Lemma intersects_true a b : intersects a b = true <->
  xmin b <= xmax a /\ xmin a <= xmax b /\ ymin a <= ymax b /\ ymin b <= ymax a.
Proof. unfold intersects. lia. Qed.

Lemma intersects_sym a b : intersects a b = intersects b a.
Proof. apply eq_true_iff_eq. rewrite !intersects_true. lia. Qed.

Lemma overlaps_In t i j : In (i, j) (get_overlaps t) <->
  (i < j < ntiles t)%nat /\ intersects (tile_at t i) (tile_at t j) = true.
Proof.
  unfold get_overlaps, tile_at. rewrite in_flat_map. split.
  - intros (ii & Hii & H). apply in_map_iff in H as (jj & E & H).
    injection E as -> ->. apply filter_In in H as [H1 H2]. apply in_seq in H1. apply in_seq in Hii.
    split; [lia|exact H2].
  - intros [H1 H2]. exists i. split; [apply in_seq; lia|].
    apply in_map_iff. exists j. split; [reflexivity|]. apply filter_In.
    split; [apply in_seq; lia|exact H2].
Qed.

Lemma sorted_filter_seq f s n : StronglySorted lt (filter f (seq s n)).
Proof.
  revert s. induction n as [|n IH]; intros s; cbn [seq filter]; [constructor|].
  assert (Forall (lt s) (filter f (seq (S s) n))) as F.
  { apply Forall_forall. intros x Hx. apply filter_In in Hx as [Hx _]. apply in_seq in Hx. lia. }
  destruct (f s); [constructor; auto|apply IH].
Qed.

Lemma sorted_app {A} (R : A -> A -> Prop) l1 l2 :
  StronglySorted R l1 -> StronglySorted R l2 ->
  (forall x y, In x l1 -> In y l2 -> R x y) -> StronglySorted R (l1 ++ l2).
Proof.
  induction l1 as [|a l1 IH]; intros S1 S2 H; cbn; [exact S2|].
  apply StronglySorted_inv in S1 as [S1 F]. constructor.
  - apply IH; auto. intros; apply H; cbn; auto.
  - apply Forall_app. split; [exact F|]. apply Forall_forall. intros y Hy. apply H; cbn; auto.
Qed.

Lemma overlaps_sorted t : StronglySorted lexlt (get_overlaps t).
Proof.
  unfold get_overlaps. cbv zeta.
  set (P := fun ii jj => intersects (nth ii (tiles t) (BBox 0 0 0 0)) (nth jj (tiles t) (BBox 0 0 0 0))).
  match goal with |- StronglySorted lexlt (flat_map ?f ?l) =>
    change (StronglySorted lexlt (flat_map (fun ii => map (pair ii)
      (filter (P ii) (seq (S ii) (ntiles t - S ii)))) l)) end.
  generalize (ntiles t) as n. intros n. generalize (n - 1)%nat as m.
  intros m. generalize 0%nat as s. induction m as [|m IH]; intros s; cbn [seq flat_map]; [constructor|].
  apply sorted_app.
  - pose proof (sorted_filter_seq (P s) (S s) (n - S s)) as H.
    induction H as [|a l H IHl F]; cbn [map]; constructor; auto.
    rewrite Forall_map. eapply Forall_impl; [|exact F]. intros b Hb. right. split; [reflexivity|exact Hb].
  - apply IH.
  - intros x y Hx Hy. apply in_map_iff in Hx as (j & <- & _).
    apply in_flat_map in Hy as (ii & Hii & Hy). apply in_map_iff in Hy as (j' & <- & _).
    apply in_seq in Hii. left. cbn [fst]. lia.
Qed.

Lemma lexsorted_NoDup l : StronglySorted lexlt l -> NoDup l.
Proof.
  induction 1 as [|a l _ IH F]; constructor; auto.
  intros K. rewrite Forall_forall in F. specialize (F _ K). unfold lexlt in F. lia.
Qed.

(** * Dilation *)
Lemma grow_lo_bounds f lo hi : (0 <= f)%Q -> 0 <= lo <= hi -> hi <= 2 ^ 53 ->
  0 <= grow_lo f lo hi <= lo.
Proof.
  intros Hf H Hb. unfold grow_lo.
  assert (0 <= rnd64 (f * inject_Z (hi - lo)))%Q as P.
  { apply rnd64_nonneg. apply Qmult_le_0_compat; [exact Hf|]. apply (inject_le 0). lia. }
  split.
  - apply (qtrunc_ge _ 0). apply Q.le_max_l.
  - apply qtrunc_le. apply Q.max_lub; [apply (inject_le 0); lia|].
    rewrite <- (rnd64_int lo) at 2 by lia. apply rnd64_mono. lra.
Qed.

Lemma grow_hi_bounds f n lo hi : (0 <= f)%Q -> 0 <= lo <= hi -> hi <= n -> hi <= 2 ^ 53 ->
  hi <= grow_hi f n lo hi <= n.
Proof.
  intros Hf H Hn Hb. unfold grow_hi.
  assert (0 <= rnd64 (f * inject_Z (hi - lo)))%Q as P.
  { apply rnd64_nonneg. apply Qmult_le_0_compat; [exact Hf|]. apply (inject_le 0). lia. }
  split.
  - apply qtrunc_ge. apply Q.min_glb; [apply inject_le; lia|].
    rewrite <- (rnd64_int hi) at 1 by lia. apply rnd64_mono. lra.
  - apply qtrunc_le. apply Q.le_min_l.
Qed.

Lemma grow_step_mono f g d : (f <= g)%Q -> 0 <= d ->
  (rnd64 (f * inject_Z d) <= rnd64 (g * inject_Z d))%Q.
Proof.
  intros H Hd. apply rnd64_mono. apply Qmult_le_compat_r; [exact H|]. now apply (inject_le 0).
Qed.

Lemma grow_lo_mono f g lo hi : (f <= g)%Q -> lo <= hi -> grow_lo g lo hi <= grow_lo f lo hi.
Proof.
  intros H Hd. unfold grow_lo. apply qtrunc_mono. apply Q.max_le_compat_l. apply rnd64_mono.
  pose proof (grow_step_mono f g (hi - lo) H ltac:(lia)). lra.
Qed.

Lemma grow_hi_mono f g n lo hi : (f <= g)%Q -> lo <= hi -> grow_hi f n lo hi <= grow_hi g n lo hi.
Proof.
  intros H Hd. unfold grow_hi. apply qtrunc_mono. apply Q.min_le_compat_l. apply rnd64_mono.
  pose proof (grow_step_mono f g (hi - lo) H ltac:(lia)). lra.
Qed.

Lemma tile_at_dilate f t i : (i < ntiles t)%nat ->
  tile_at (dilate f t) i = dilate_box f (shape t) (tile_at t i).
Proof. intros H. unfold tile_at, dilate. cbn [tiles]. now apply map_nth'. Qed.

Lemma ntiles_dilate f t : ntiles (dilate f t) = ntiles t.
Proof. apply map_length. Qed.

Lemma dilate_box_spec f sh b : (0 <= f)%Q -> box_in_image sh b ->
  fst sh <= 2 ^ 53 -> snd sh <= 2 ^ 53 ->
  box_in_image sh (dilate_box f sh b) /\ inside b (dilate_box f sh b).
Proof.
  intros Hf (H1 & H2 & H3 & H4) B1 B2. unfold box_in_image, inside, has_pixel, dilate_box.
  cbn [xmin xmax ymin ymax].
  pose proof (grow_lo_bounds f (xmin b) (xmax b) Hf ltac:(lia) ltac:(lia)).
  pose proof (grow_lo_bounds f (ymin b) (ymax b) Hf ltac:(lia) ltac:(lia)).
  pose proof (grow_hi_bounds f (fst sh) (xmin b) (xmax b) Hf ltac:(lia) ltac:(lia) ltac:(lia)).
  pose proof (grow_hi_bounds f (snd sh) (ymin b) (ymax b) Hf ltac:(lia) ltac:(lia) ltac:(lia)).
  split; [lia|]. intros r c. lia.
Qed.

Lemma dilate_box_mono f g sh b : (f <= g)%Q -> box_in_image sh b ->
  inside (dilate_box f sh b) (dilate_box g sh b).
Proof.
  intros H (H1 & H2 & H3 & H4). unfold inside, has_pixel, dilate_box. cbn [xmin xmax ymin ymax].
  pose proof (grow_lo_mono f g (xmin b) (xmax b) H ltac:(lia)).
  pose proof (grow_lo_mono f g (ymin b) (ymax b) H ltac:(lia)).
  pose proof (grow_hi_mono f g (fst sh) (xmin b) (xmax b) H ltac:(lia)).
  pose proof (grow_hi_mono f g (snd sh) (ymin b) (ymax b) H ltac:(lia)).
  intros r c. lia.
Qed.

(** * Regular grid *)
Section Lines.
  Variables (L : nat -> Z).
  Hypothesis L0 : L 0%nat = 0.
  Hypothesis Lmono : forall i, L i <= L (S i).

  Lemma lines_le i j : (i <= j)%nat -> L i <= L j.
  Proof. induction 1 as [|j _ IH]; [lia|]. specialize (Lmono j). lia. Qed.

  Lemma lines_unique i j r : L i <= r < L (S i) -> L j <= r < L (S j) -> i = j.
  Proof.
    intros Hi Hj. destruct (Nat.lt_trichotomy i j) as [H|[H|H]]; [|exact H|].
    - pose proof (lines_le (S i) j ltac:(lia)). lia.
    - pose proof (lines_le (S j) i ltac:(lia)). lia.
  Qed.

  Lemma lines_find k r : 0 <= r < L k -> exists i, (i < k)%nat /\ L i <= r < L (S i).
  Proof.
    induction k as [|k IH]; intros H; [lia|].
    destruct (Z_lt_le_dec r (L k)) as [K|K].
    - destruct IH as (i & Hi & E); [lia|]. exists i. split; [lia|exact E].
    - exists k. split; [lia|]. lia.
  Qed.
End Lines.

Definition grid_tiles (R C : nat -> Z) (k : nat) : list bbox :=
  flat_map (fun ii => map (fun jj => BBox (R ii) (C jj) (R (S ii)) (C (S jj))) (seq 0 k)) (seq 0 k).

Lemma grid_tiles_length R C k : length (grid_tiles R C k) = (k * k)%nat.
Proof.
  unfold grid_tiles. rewrite (flat_map_len k).
  - now rewrite seq_length.
  - intros x _. now rewrite map_length, seq_length.
Qed.

Lemma grid_tiles_nth R C k i j d : (i < k)%nat -> (j < k)%nat ->
  nth (i * k + j) (grid_tiles R C k) d = BBox (R i) (C j) (R (S i)) (C (S j)).
Proof.
  intros Hi Hj. unfold grid_tiles.
  assert (forall n s, (i < n)%nat ->
    nth (i * k + j) (flat_map (fun ii => map (fun jj => BBox (R ii) (C jj) (R (S ii)) (C (S jj)))
                                            (seq 0 k)) (seq s n)) d
    = BBox (R (s + i)%nat) (C j) (R (S (s + i))) (C (S j))) as G; [|now rewrite G].
  clear Hi. induction i as [|i IH]; intros n s Hn; destruct n as [|n]; try lia; cbn [seq flat_map].
  - rewrite app_nth1 by (rewrite map_length, seq_length; lia).
    rewrite map_nth' with (d := 0%nat) by (rewrite seq_length; lia).
    rewrite seq_nth by lia. replace (s + 0)%nat with s by lia. reflexivity.
  - rewrite app_nth2 by (rewrite map_length, seq_length; lia).
    rewrite map_length, seq_length. replace (S i * k + j - k)%nat with (i * k + j)%nat by lia.
    rewrite IH by lia. replace (S s + i)%nat with (s + S i)%nat by lia. reflexivity.
Qed.

Lemma grid_index k n : (n < k * k)%nat -> exists i j, (i < k)%nat /\ (j < k)%nat /\ n = (i * k + j)%nat.
Proof.
  intros H. assert (k <> 0)%nat by lia. exists (n / k)%nat, (n mod k)%nat.
  split; [apply Nat.div_lt_upper_bound; lia|].
  split; [now apply Nat.mod_upper_bound|].
  rewrite (Nat.div_mod n k) at 1 by lia. lia.
Qed.

(** ** The borders [grid_line] *)
Section GridLine.
  Variables (n k : Z).
  Hypothesis Hn : 0 < n < 2 ^ 52.
  Hypothesis Hk : 1 <= k.

  Let step := rnd64 (inject_Z n / inject_Z k).

  Lemma quot_pos : (0 < inject_Z n / inject_Z k)%Q.
  Proof.
    apply Qlt_shift_div_l; [apply (inject_lt 0); lia|]. rewrite Qmult_0_l. apply (inject_lt 0). lia.
  Qed.

  Lemma step_nonneg : (0 <= step)%Q.
  Proof. apply rnd64_nonneg. apply Qlt_le_weak, quot_pos. Qed.

  Lemma grid_line_0 : grid_line n k 0 = 0.
  Proof. unfold grid_line. cbn [Z.of_nat]. change (inject_Z 0) with 0%Q. rewrite Qmult_0_l. reflexivity. Qed.

  Lemma grid_line_mono i : grid_line n k i <= grid_line n k (S i).
  Proof.
    unfold grid_line. apply qtrunc_mono. apply rnd64_mono.
    apply Qmult_le_compat_r; [apply inject_le; lia|]. apply step_nonneg.
  Qed.

  (** The last border is [n] or falls one short. *)
  Lemma grid_line_last : n - 1 <= grid_line n k (Z.to_nat k) <= n.
  Proof.
    unfold grid_line. rewrite Z2Nat.id by lia.
    pose proof quot_pos as Q0. set (q := (inject_Z n / inject_Z k)%Q) in *.
    assert (inject_Z k * q == inject_Z n)%Q as Eq.
    { unfold q. field. intros K. assert (inject_Z 0 < inject_Z k)%Q by (apply inject_lt; lia).
      rewrite K in H. discriminate. }
    pose proof (rnd64_err q ltac:(lra)) as [A1 A2].
    pose proof (rnd64_nonneg q ltac:(lra)) as A0. set (s := rnd64 q) in *.
    assert (0 < inject_Z k)%Q as Kp by (apply (inject_lt 0); lia).
    assert (0 <= inject_Z k * s)%Q as B0 by (apply Qmult_le_0_compat; lra).
    pose proof (rnd64_err (inject_Z k * s) B0) as [B1 B2].
    set (p := (inject_Z k * s)%Q) in *. set (w := rnd64 p) in *.
    set (eps := pow2 (- (53))) in *.
    assert (inject_Z n * eps <= 1 # 2)%Q as Hne.
    { assert (inject_Z n <= inject_Z (2 ^ 52))%Q by (apply inject_le; lia).
      assert (inject_Z (2 ^ 52) * eps == 1 # 2)%Q as Z0 by reflexivity.
      rewrite <- Z0. apply Qmult_le_compat_r; [assumption|]. discriminate. }
    assert (inject_Z n * eps < 1 # 2)%Q as Hne'.
    { assert (inject_Z n < inject_Z (2 ^ 52))%Q by (apply inject_lt; lia).
      assert (inject_Z (2 ^ 52) * eps == 1 # 2)%Q as Z0 by reflexivity.
      rewrite <- Z0. apply Qmult_lt_compat_r; [reflexivity|assumption]. }
    assert (0 < eps)%Q as Ep by reflexivity. assert (eps < 1 # 1000)%Q as Ep' by reflexivity.
    assert (p <= inject_Z n * (1 + eps))%Q as C2.
    { unfold p. rewrite <- Eq. clearbody s q eps. nra. }
    assert (inject_Z n * (1 - eps) <= p)%Q as C1.
    { unfold p. rewrite <- Eq. clearbody s q eps. nra. }
    assert (w <= p * (1 + eps))%Q as D2 by lra.
    assert (p * (1 - eps) <= w)%Q as D1 by lra.
    assert (0 <= inject_Z n)%Q as N0 by (apply (inject_le 0); lia).
    assert (p * (1 - eps) >= inject_Z n * (1 - eps) * (1 - eps))%Q as F1
      by (apply Qmult_le_compat_r; lra).
    assert (p * (1 + eps) <= inject_Z n * (1 + eps) * (1 + eps))%Q as F2
      by (apply Qmult_le_compat_r; lra).
    clearbody w p s q. clear A1 A2 A0 B0 B1 B2 C1 C2 Eq.
    assert (inject_Z n - 1 <= w)%Q as W1.
    { assert (inject_Z n - 1 <= inject_Z n * (1 - eps) * (1 - eps))%Q; [|lra].
      clearbody eps. nra. }
    assert (w < inject_Z n + 2)%Q as W2.
    { assert (inject_Z n * (1 + eps) * (1 + eps) < inject_Z n + 2)%Q; [|lra].
      clearbody eps. nra. }
    assert (w < inject_Z n + 1 + (1 # 1000))%Q as W3.
    { assert (inject_Z n * (1 + eps) * (1 + eps) < inject_Z n + 1 + (1 # 1000))%Q; [|lra].
      clearbody eps. nra. }
    split.
    - apply qtrunc_ge. rewrite inject_Z_sub. change (inject_Z 1) with 1%Q. exact W1.
    - (* w is strictly below n + 1 *)
      assert (w < inject_Z n + 1)%Q as W4.
      { assert (inject_Z n * (1 + eps) * (1 + eps) < inject_Z n + 1)%Q; [|lra].
        assert (inject_Z n * eps * eps <= (1 # 2) * eps)%Q by (apply Qmult_le_compat_r; lra).
        assert (inject_Z n * (1 + eps) * (1 + eps)
                == inject_Z n + 2 * (inject_Z n * eps) + inject_Z n * eps * eps)%Q as X by ring.
        rewrite X.
        (* n <= 2^52 - 1, hence 2 n eps <= 1 - 2 eps *)
        assert (inject_Z n <= inject_Z (2 ^ 52 - 1))%Q as Y by (apply inject_le; lia).
        assert (inject_Z (2 ^ 52 - 1) * eps == (1 # 2) - eps)%Q as Z0 by reflexivity.
        assert (inject_Z n * eps <= (1 # 2) - eps)%Q as V.
        { rewrite <- Z0. apply Qmult_le_compat_r; [exact Y|lra]. }
        clearbody eps. lra. }
      destruct (Qlt_le_dec w 0) as [Neg|Pos].
      + assert (inject_Z n - 1 >= 0)%Q by (assert (inject_Z 1 <= inject_Z n)%Q by (apply inject_le; lia);
          change (inject_Z 1) with 1%Q in *; lra). lra.
      + rewrite qtrunc_nonneg by exact Pos.
        destruct (Qfloor_bounds w) as [G1 G2].
        assert (inject_Z (Qfloor w) < inject_Z (n + 1))%Q as G3.
        { rewrite inject_Z_add. change (inject_Z 1) with 1%Q. lra. }
        apply inject_lt_inv in G3. lia.
  Qed.

  (** Exact when [n/k] is a double. *)
  Lemma grid_line_exact : (rnd64 (inject_Z n / inject_Z k) == inject_Z n / inject_Z k)%Q ->
    grid_line n k (Z.to_nat k) = n.
  Proof.
    intros E. unfold grid_line. rewrite Z2Nat.id by lia. rewrite E.
    assert (0 < inject_Z k)%Q as Kp by (apply (inject_lt 0); lia).
    assert (inject_Z k * (inject_Z n / inject_Z k) == inject_Z n)%Q as -> by (field; lra).
    rewrite rnd64_int by lia. apply qtrunc_int.
  Qed.
End GridLine.

(** * Density tiler *)
Lemma insertZ_In x y l : In y (insertZ x l) <-> y = x \/ In y l.
Proof.
  induction l as [|a l IH]; cbn [insertZ].
  - cbn. intuition.
  - destruct (x <=? a); cbn [In]; [intuition|]. rewrite IH. intuition.
Qed.
Lemma sortZ_In y l : In y (sortZ l) <-> In y l.
Proof.
  induction l as [|a l IH]; cbn [sortZ fold_right]; [reflexivity|].
  rewrite insertZ_In. fold (sortZ l). rewrite IH. cbn. intuition.
Qed.
Lemma insertZ_length x l : length (insertZ x l) = S (length l).
Proof. induction l as [|a l IH]; cbn [insertZ]; [reflexivity|]. destruct (x <=? a); cbn; auto. Qed.
Lemma sortZ_length l : length (sortZ l) = length l.
Proof.
  induction l as [|a l IH]; cbn [sortZ fold_right length]; [reflexivity|].
  rewrite insertZ_length. fold (sortZ l). now rewrite IH.
Qed.

Lemma div_index len m i : (Nat.div len m <> 0)%nat -> (i + 2 <= m)%nat ->
  (i * (len / m) + len / m - 1 < len /\ S i * (len / m) < len)%nat.
Proof.
  intros Hn Hi. pose proof (Nat.mul_div_le len m ltac:(lia)) as H.
  set (n := (len / m)%nat) in *. assert (S (S i) * n <= m * n)%nat by (apply Nat.mul_le_mono_r; lia).
  cbn in *. lia.
Qed.

(** Every cut lies between two of the values. *)
Lemma get_splits_cut z m b cuts i lo hi :
  get_splits z m b = Ok cuts -> (1 <= i <= m - 1)%nat ->
  (forall v, In v z -> (lo <= inject_Z v <= hi)%Q) -> (lo <= nth i cuts 0 <= hi)%Q.
Proof.
  unfold get_splits. destruct (Nat.eqb_spec (length z / m) 0) as [|Hn]; [discriminate|].
  intros E Hi Hz. injection E as <-.
  destruct i as [|i]; [lia|]. cbn [nth].
  rewrite app_nth1 by (rewrite map_length, seq_length; lia).
  rewrite map_nth' with (d := 0%nat) by (rewrite seq_length; lia). rewrite seq_nth by lia.
  rewrite Nat.add_0_l. destruct (div_index (length z) m i Hn ltac:(lia)) as [D1 D2].
  pose proof (Hz _ (nth_In z 0 D1)) as B1. pose proof (Hz _ (nth_In z 0 D2)) as B2.
  rewrite inject_Z_plus.
  set (a := inject_Z (nth (i * (length z / m) + length z / m - 1)%nat z 0)) in *.
  change (length z / m + i * (length z / m))%nat with (S i * (length z / m))%nat.
  set (c := inject_Z (nth (S i * (length z / m))%nat z 0)) in *. clearbody a c.
  split; [apply Qle_shift_div_l|apply Qle_shift_div_r]; try reflexivity; lra.
Qed.

(** A rational box between integer borders. *)
Definition qwf (b : qbounds) : Prop :=
  (fst (fst b) <= snd (fst b))%Q /\ (fst (snd b) <= snd (snd b))%Q.
Definition qsub (a b : qbounds) : Prop :=
  (fst (fst b) <= fst (fst a))%Q /\ (snd (fst a) <= snd (fst b))%Q /\
  (fst (snd b) <= fst (snd a))%Q /\ (snd (snd a) <= snd (snd b))%Q.
Definition qhas (b : qbounds) (r c : Z) : Prop :=
  Qfloor (fst (fst b)) <= r < Qfloor (snd (fst b)) /\
  Qfloor (fst (snd b)) <= c < Qfloor (snd (snd b)).
Definition qpart (b : qbounds) (l : list qbounds) : Prop :=
  forall r c, qhas b r c ->
    exists! i, (i < length l)%nat /\ qhas (nth i l ((0%Q, 0%Q), (0%Q, 0%Q))) r c.
Definition qpoints (b : qbounds) (pts : list (Z * Z)) : Prop :=
  forall p, In p pts ->
    (fst (fst b) <= inject_Z (fst p) <= snd (fst b))%Q /\
    (fst (snd b) <= inject_Z (snd p) <= snd (snd b))%Q.

Lemma qhas_sub a b r c : qsub a b -> qhas a r c -> qhas b r c.
Proof.
  intros (H1 & H2 & H3 & H4). unfold qhas.
  apply Qfloor_resp_le in H1, H2, H3, H4. lia.
Qed.

Lemma exists_unique_app_l {A} (P : A -> Prop) l1 l2 d :
  (exists! i, (i < length l1)%nat /\ P (nth i l1 d)) ->
  (forall x, In x l2 -> ~ P x) ->
  exists! i, (i < length (l1 ++ l2))%nat /\ P (nth i (l1 ++ l2) d).
Proof.
  intros (i & [Hi HP] & U) N. exists i. rewrite app_length. split.
  - split; [lia|]. now rewrite app_nth1.
  - intros j [Hj HPj]. destruct (Nat.lt_ge_cases j (length l1)) as [L|G].
    + apply U. rewrite app_nth1 in HPj by exact L. auto.
    + rewrite app_nth2 in HPj by exact G. exfalso. eapply N; [|exact HPj]. apply nth_In. lia.
Qed.

Lemma exists_unique_app_r {A} (P : A -> Prop) l1 l2 d :
  (exists! i, (i < length l2)%nat /\ P (nth i l2 d)) ->
  (forall x, In x l1 -> ~ P x) ->
  exists! i, (i < length (l1 ++ l2))%nat /\ P (nth i (l1 ++ l2) d).
Proof.
  intros (i & [Hi HP] & U) N. exists (length l1 + i)%nat. rewrite app_length. split.
  - split; [lia|]. rewrite app_nth2 by lia. now replace (length l1 + i - length l1)%nat with i by lia.
  - intros j [Hj HPj]. destruct (Nat.lt_ge_cases j (length l1)) as [L|G].
    + rewrite app_nth1 in HPj by exact L. exfalso. eapply N; [|exact HPj]. now apply nth_In.
    + rewrite app_nth2 in HPj by exact G. rewrite (U (j - length l1)%nat); [lia|].
      split; [lia|exact HPj].
Qed.

Definition cut_lo (use_x : bool) (b : qbounds) (cut : Q) : qbounds :=
  if use_x then ((fst (fst b), cut), snd b) else (fst b, (fst (snd b), cut)).
Definition cut_hi (use_x : bool) (b : qbounds) (cut : Q) : qbounds :=
  if use_x then ((cut, snd (fst b)), snd b) else (fst b, (cut, snd (snd b))).
Definition axis (use_x : bool) (p : Z * Z) : Z := if use_x then fst p else snd p.
Definition side (use_x : bool) (b : qbounds) : Q * Q := if use_x then fst b else snd b.

Lemma split_part use_x b cut l1 l2 :
  (fst (side use_x b) <= cut <= snd (side use_x b))%Q ->
  qpart (cut_lo use_x b cut) l1 -> qpart (cut_hi use_x b cut) l2 ->
  Forall (fun a => qsub a (cut_lo use_x b cut)) l1 ->
  Forall (fun a => qsub a (cut_hi use_x b cut)) l2 ->
  qpart b (l1 ++ l2) /\ Forall (fun a => qsub a b) (l1 ++ l2).
Proof.
  intros Hc P1 P2 F1 F2. rewrite Forall_forall in F1, F2. split.
  - intros r c Hrc.
    assert (qhas (cut_lo use_x b cut) r c \/ qhas (cut_hi use_x b cut) r c) as D.
    { destruct use_x; unfold qhas, cut_lo, cut_hi in *; cbn [fst snd] in *.
      - destruct (Z_lt_le_dec r (Qfloor cut)); [left|right]; lia.
      - destruct (Z_lt_le_dec c (Qfloor cut)); [left|right]; lia. }
    assert (~ (qhas (cut_lo use_x b cut) r c /\ qhas (cut_hi use_x b cut) r c)) as X.
    { destruct use_x; unfold qhas, cut_lo, cut_hi; cbn [fst snd]; lia. }
    destruct D as [D|D].
    + apply (exists_unique_app_l (fun a => qhas a r c)); [now apply P1|].
      intros a Ha K. apply X. split; [exact D|]. exact (qhas_sub _ _ _ _ (F2 a Ha) K).
    + apply (exists_unique_app_r (fun a => qhas a r c)); [now apply P2|].
      intros a Ha K. apply X. split; [|exact D]. exact (qhas_sub _ _ _ _ (F1 a Ha) K).
  - apply Forall_app. split; apply Forall_forall; intros a Ha.
    + specialize (F1 a Ha). unfold qsub, cut_lo in *. destruct use_x; unfold side in *; cbn [fst snd] in *; repeat split; lra.
    + specialize (F2 a Ha). unfold qsub, cut_hi in *. destruct use_x; unfold side in *; cbn [fst snd] in *; repeat split; lra.
Qed.

(** One unfolding of [split_rectangle] in terms of the chosen axis. *)
Lemma split_rectangle_S pick fuel pts b m r :
  m <> 1%nat -> split_rectangle pick (S fuel) pts b m = Ok r ->
  let use_x := fst (pick pts b m) in let i := snd (pick pts b m) in
  exists cuts lo hi,
    get_splits (sortZ (map (axis use_x) pts)) m (side use_x b) = Ok cuts /\
    let cut := nth i cuts 0%Q in
    let mask := fun p => Qle_bool (inject_Z (axis use_x p)) cut in
    split_rectangle pick fuel (filter mask pts) (cut_lo use_x b cut) i = Ok lo /\
    split_rectangle pick fuel (filter (fun p => negb (mask p)) pts) (cut_hi use_x b cut) (m - i) = Ok hi /\
    r = lo ++ hi.
Proof.
  intros Hm E use_x i. cbn [split_rectangle] in E. apply Nat.eqb_neq in Hm. rewrite Hm in E.
  destruct pts as [|p0 pts0]; [discriminate|]. set (pts := p0 :: pts0) in *.
  destruct (get_splits (sortZ (map fst pts)) m (fst b)) as [cx|] eqn:Ex; [|discriminate].
  destruct (get_splits (sortZ (map snd pts)) m (snd b)) as [cy|] eqn:Ey; [|discriminate].
  cbn [bind] in E. subst use_x i. destruct (pick pts b m) as [ux i]. cbn [fst snd].
  destruct ux; cbn [axis side cut_lo cut_hi] in *.
  - destruct (split_rectangle pick fuel (filter _ pts) _ i) as [lo|] eqn:E1; [|discriminate].
    cbn [bind] in E.
    destruct (split_rectangle pick fuel (filter _ pts) _ (m - i)) as [hi|] eqn:E2; [|discriminate].
    cbn [bind] in E. injection E as <-. exists cx, lo, hi. auto.
  - destruct (split_rectangle pick fuel (filter _ pts) _ i) as [lo|] eqn:E1; [|discriminate].
    cbn [bind] in E.
    destruct (split_rectangle pick fuel (filter _ pts) _ (m - i)) as [hi|] eqn:E2; [|discriminate].
    cbn [bind] in E. injection E as <-. exists cy, lo, hi. auto.
Qed.

Lemma qpoints_side use_x b pts v : qpoints b pts -> In v (sortZ (map (axis use_x) pts)) ->
  (fst (side use_x b) <= inject_Z v <= snd (side use_x b))%Q.
Proof.
  intros H Hv. apply (proj1 (sortZ_In _ _)) in Hv. apply in_map_iff in Hv as (p & <- & Hp).
  specialize (H p Hp). destruct use_x; cbn; lra.
Qed.

Theorem split_rectangle_sound pick fuel pts b m r :
  picks_in_range pick -> (1 <= m)%nat -> qwf b -> qpoints b pts ->
  split_rectangle pick fuel pts b m = Ok r ->
  length r = m /\ qpart b r /\ Forall (fun a => qsub a b /\ qwf a) r.
Proof.
  intros Hpick. revert pts b m r. induction fuel as [|fuel IH]; intros pts b m r Hm Hwf Hp E.
  - destruct (Nat.eq_dec m 1) as [->|N].
    + cbn in E. injection E as <-. split; [reflexivity|]. split.
      * intros x y H. exists 0%nat. split; [split; [cbn; lia|exact H]|]. cbn. intros j [Hj _]. lia.
      * repeat constructor; unfold qsub; try lra; apply Hwf.
    + cbn in E. apply Nat.eqb_neq in N. rewrite N in E. discriminate.
  - destruct (Nat.eq_dec m 1) as [->|N].
    + cbn in E. injection E as <-. split; [reflexivity|]. split.
      * intros x y H. exists 0%nat. split; [split; [cbn; lia|exact H]|]. cbn. intros j [Hj _]. lia.
      * repeat constructor; unfold qsub; try lra; apply Hwf.
    + pose proof (split_rectangle_S _ _ _ _ _ _ N E) as (cuts & lo & hi & Ec & E1 & E2 & ->).
      pose proof (Hpick pts b m ltac:(lia)) as Hi.
      set (ux := fst (pick pts b m)) in *. set (i := snd (pick pts b m)) in *.
      assert (fst (side ux b) <= nth i cuts 0 <= snd (side ux b))%Q as Hc.
      { eapply get_splits_cut; [exact Ec|exact Hi|]. intros v Hv. eapply qpoints_side; eauto. }
      set (cut := nth i cuts 0%Q) in *.
      apply IH in E1 as (L1 & P1 & F1); [| lia | |].
      2:{ unfold qwf, cut_lo in *. destruct ux; unfold side in *; cbn [fst snd] in *; repeat split; lra. }
      2:{ intros p K. apply filter_In in K as [K1 K2]. apply Qle_bool_iff in K2.
          specialize (Hp p K1). unfold cut_lo, axis in *. destruct ux; unfold side in *; cbn [fst snd] in *; repeat split; lra. }
      apply IH in E2 as (L2 & P2 & F2); [| lia | |].
      2:{ unfold qwf, cut_hi in *. destruct ux; unfold side in *; cbn [fst snd] in *; repeat split; lra. }
      2:{ intros p K. apply filter_In in K as [K1 K2].
          assert (cut < inject_Z (axis ux p))%Q as K3.
          { destruct (Qlt_le_dec cut (inject_Z (axis ux p))) as [A|A]; [exact A|].
            apply Qle_bool_iff in A. rewrite A in K2. discriminate. }
          specialize (Hp p K1). unfold cut_hi, axis in *. destruct ux; unfold side in *; cbn [fst snd] in *; repeat split; lra. }
      assert (Forall (fun a => qsub a (cut_lo ux b cut)) lo) as G1
        by (eapply Forall_impl; [|exact F1]; cbn; tauto).
      assert (Forall (fun a => qsub a (cut_hi ux b cut)) hi) as G2
        by (eapply Forall_impl; [|exact F2]; cbn; tauto).
      destruct (split_part ux b cut lo hi Hc P1 P2 G1 G2) as [P F].
      split; [rewrite app_length; lia|]. split; [exact P|].
      rewrite Forall_forall in F, F1, F2. apply Forall_forall. intros a Ha.
      split; [now apply F|]. apply in_app_or in Ha as [Ha|Ha]; [now apply F1|now apply F2].
Qed.

(** The fuel is never exhausted. *)
Lemma split_rectangle_fuel pick fuel pts b m :
  picks_in_range pick -> (1 <= m <= fuel)%nat -> split_rectangle pick fuel pts b m <> Err OutOfFuel.
Proof.
  intros Hpick. revert pts b m. induction fuel as [|fuel IH]; intros pts b m Hm; [lia|].
  cbn [split_rectangle]. destruct (Nat.eqb_spec m 1) as [->|N]; [discriminate|].
  destruct pts as [|p0 pts0]; [discriminate|]. set (pts := p0 :: pts0).
  assert (forall z bz, get_splits z m bz <> Err OutOfFuel) as G.
  { intros z bz. unfold get_splits. destruct (Nat.eqb _ _); discriminate. }
  pose proof (Hpick pts b m ltac:(lia)) as Hi.
  destruct (get_splits (sortZ (map fst pts)) m (fst b)) as [cx|e] eqn:Ex;
    [|cbn [bind]; intros K; injection K as ->; exact (G _ _ Ex)].
  destruct (get_splits (sortZ (map snd pts)) m (snd b)) as [cy|e] eqn:Ey;
    [|cbn [bind]; intros K; injection K as ->; exact (G _ _ Ey)].
  cbn [bind]. destruct (pick pts b m) as [ux i]. cbn [snd] in Hi.
  destruct ux.
  - match goal with |- context [split_rectangle pick fuel ?p ?bb i] =>
      pose proof (IH p bb i ltac:(lia)) as K1; destruct (split_rectangle pick fuel p bb i) as [lo|e] end;
      cbn [bind]; [|congruence].
    match goal with |- context [split_rectangle pick fuel ?p ?bb (m - i)] =>
      pose proof (IH p bb (m - i)%nat ltac:(lia)) as K2; destruct (split_rectangle pick fuel p bb (m - i)) as [hi|e] end;
      cbn [bind]; congruence.
  - match goal with |- context [split_rectangle pick fuel ?p ?bb i] =>
      pose proof (IH p bb i ltac:(lia)) as K1; destruct (split_rectangle pick fuel p bb i) as [lo|e] end;
      cbn [bind]; [|congruence].
    match goal with |- context [split_rectangle pick fuel ?p ?bb (m - i)] =>
      pose proof (IH p bb (m - i)%nat ltac:(lia)) as K2; destruct (split_rectangle pick fuel p bb (m - i)) as [hi|e] end;
      cbn [bind]; congruence.
Qed.

(** Truncating the rational boxes to tiles keeps exactly the floor boxes. *)
Lemma box_of_bounds_has sh a r c :
  qwf a -> qsub a ((0%Q, inject_Z (fst sh)), (0%Q, inject_Z (snd sh))) ->
  (has_pixel (box_of_bounds sh a) r c <-> qhas a r c) /\ box_in_image sh (box_of_bounds sh a).
Proof.
  intros [W1 W2] (H1 & H2 & H3 & H4). cbn [fst snd] in *.
  assert (qtrunc (Qmax 0 (fst (fst a))) = Qfloor (fst (fst a))) as E1.
  { rewrite Q.max_r by exact H1. now apply qtrunc_nonneg. }
  assert (qtrunc (Qmax 0 (fst (snd a))) = Qfloor (fst (snd a))) as E2.
  { rewrite Q.max_r by exact H3. now apply qtrunc_nonneg. }
  assert (qtrunc (Qmin (inject_Z (fst sh)) (snd (fst a))) = Qfloor (snd (fst a))) as E3.
  { rewrite Q.min_r by exact H2. apply qtrunc_nonneg. lra. }
  assert (qtrunc (Qmin (inject_Z (snd sh)) (snd (snd a))) = Qfloor (snd (snd a))) as E4.
  { rewrite Q.min_r by exact H4. apply qtrunc_nonneg. lra. }
  unfold has_pixel, qhas, box_in_image, box_of_bounds. cbn [xmin xmax ymin ymax].
  rewrite E1, E2, E3, E4. split; [reflexivity|].
  apply Qfloor_resp_le in H1, H2, H3, H4, W1, W2. rewrite Qfloor_Z in H2, H4.
  change (Qfloor 0) with 0 in *. lia.
Qed.

Theorem density_sound pick pts sh mt t :
  picks_in_range pick -> 0 < fst sh -> 0 < snd sh -> points_in sh pts ->
  create_tiles_density pick pts sh mt = Ok t ->
  shape t = sh /\ partitions t /\ Forall (box_in_image sh) (tiles t) /\
  Z.of_nat (ntiles t) = Z.sqrt mt * Z.sqrt mt /\ 1 <= mt.
Proof.
  intros Hpick H0 H1 Hp. unfold create_tiles_density.
  destruct ((fst sh <=? 0) && (snd sh <=? 0)); [discriminate|].
  destruct (mt <=? 0) eqn:Em; [discriminate|].
  assert (1 <= Z.sqrt mt) as Hk by (apply Z.sqrt_le_square; lia).
  set (k := Z.sqrt mt) in *.
  destruct (Nat.eqb_spec (Z.to_nat (k * k)) 1) as [E1|N].
  - intros E. injection E as <-. split; [reflexivity|]. unfold single_tile.
    split; [|split; [|split]].
    + intros r c [A B]. cbn [shape fst snd] in *. exists 0%nat. split.
      * split; [cbn; lia|]. unfold has_pixel, tile_at. cbn. lia.
      * intros j [Hj _]. cbn in Hj. lia.
    + repeat constructor; cbn; lia.
    + cbn. lia.
    + lia.
  - set (b := ((0%Q, inject_Z (fst sh)), (0%Q, inject_Z (snd sh))) : qbounds).
    destruct (split_rectangle pick (Z.to_nat (k * k)) pts b (Z.to_nat (k * k))) as [s|] eqn:Es; [|discriminate].
    cbn [bind]. intros E. injection E as <-.
    apply split_rectangle_sound in Es as (L & P & F); [|assumption|nia| |].
    2:{ unfold qwf, b. cbn. split; apply (inject_le 0); lia. }
    2:{ intros p K. specialize (Hp p K) as [A B]. unfold b. cbn [fst snd].
        split; split; try (apply (inject_le 0); lia); apply inject_le; lia. }
    split; [reflexivity|]. rewrite Forall_forall in F.
    assert (forall i, (i < length s)%nat ->
      tile_at (TileSet sh (map (box_of_bounds sh) s)) i
      = box_of_bounds sh (nth i s ((0%Q, 0%Q), (0%Q, 0%Q)))) as T.
    { intros i Hi. unfold tile_at. cbn [tiles]. now apply map_nth'. }
    split; [|split; [|split]].
    + intros r c [A B]. cbn [shape] in A, B.
      assert (qhas b r c) as Hb.
      { unfold qhas, b. cbn [fst snd]. rewrite !Qfloor_Z. change (Qfloor 0) with 0. lia. }
      destruct (P r c Hb) as (i & [Hi Hq] & U). exists i.
      assert (forall j, (j < length s)%nat ->
        (has_pixel (tile_at (TileSet sh (map (box_of_bounds sh) s)) j) r c
         <-> qhas (nth j s ((0%Q, 0%Q), (0%Q, 0%Q))) r c)) as EQ.
      { intros j Hj. rewrite T by exact Hj. destruct (F _ (nth_In s ((0%Q, 0%Q), (0%Q, 0%Q)) Hj)) as [S W].
        now apply box_of_bounds_has. }
      unfold ntiles. cbn [tiles]. rewrite map_length. split.
      * split; [exact Hi|]. now apply EQ.
      * intros j [Hj Hj2]. apply U. split; [exact Hj|]. now apply EQ.
    + cbn [tiles]. apply Forall_forall. intros x Hx. apply in_map_iff in Hx as (a & <- & Ha).
      destruct (F a Ha) as [S W]. now apply (box_of_bounds_has sh a 0 0).
    + unfold ntiles. cbn [tiles]. rewrite map_length, L. nia.
    + lia.
Qed.

Lemma density_fuel pick pts sh mt :
  picks_in_range pick -> create_tiles_density pick pts sh mt <> Err OutOfFuel.
Proof.
  intros Hpick. unfold create_tiles_density.
  destruct (_ && _); [discriminate|]. destruct (mt <=? 0) eqn:E; [discriminate|].
  assert (1 <= Z.sqrt mt) as Hk by (apply Z.sqrt_le_square; lia).
  destruct (Nat.eqb _ 1); [discriminate|].
  match goal with |- context [split_rectangle pick ?m pts ?b ?m] =>
    pose proof (split_rectangle_fuel pick m pts b m Hpick) as K;
    destruct (split_rectangle pick m pts b m) as [s|e] end; cbn [bind]; [discriminate|].
  intros X. apply K; [nia|congruence].
Qed.

(** * Regular tiler *)
Lemma regular_shape sh mt t : create_tiles_regular sh mt = Ok t ->
  shape t = sh /\ 1 <= mt /\ 1 <= Z.sqrt mt /\
  (Z.sqrt mt = 1 /\ t = single_tile sh \/
   tiles t = grid_tiles (grid_line (fst sh) (Z.sqrt mt)) (grid_line (snd sh) (Z.sqrt mt))
               (Z.to_nat (Z.sqrt mt))).
Proof.
  unfold create_tiles_regular. destruct (_ && _); [discriminate|].
  destruct (mt <=? 0) eqn:Em; [discriminate|].
  assert (1 <= Z.sqrt mt) as Hk by (apply Z.sqrt_le_square; lia).
  destruct (Z.eqb_spec (Z.sqrt mt) 1) as [E1|N]; intros E; injection E as <-.
  - split; [reflexivity|]. repeat split; try lia. left. auto.
  - split; [reflexivity|]. repeat split; try lia. right. reflexivity.
Qed.

Theorem regular_grid sh mt t :
  0 < fst sh < 2 ^ 52 -> 0 < snd sh < 2 ^ 52 ->
  create_tiles_regular sh mt = Ok t ->
  let k := Z.sqrt mt in
  Z.of_nat (ntiles t) = k * k /\ disjoint_tiles t /\ Forall (box_in_image sh) (tiles t) /\
  exists R C, fst sh - 1 <= R <= fst sh /\ snd sh - 1 <= C <= snd sh /\
    (forall r c, in_image sh r c ->
      ((exists i, (i < ntiles t)%nat /\ has_pixel (tile_at t i) r c) <-> r < R /\ c < C)) /\
    (k <> 1 -> R = grid_line (fst sh) k (Z.to_nat k) /\ C = grid_line (snd sh) k (Z.to_nat k)) /\
    (k = 1 -> R = fst sh /\ C = snd sh).
Proof.
  intros H0 H1 E. apply regular_shape in E as (Esh & Hmt & Hk & D). cbv zeta.
  set (k := Z.sqrt mt) in *. destruct D as [[Ek ->]|Et].
  - rewrite Ek. split; [reflexivity|]. split; [|split].
    + intros i j r c Hi Hj _ _. unfold ntiles in *. cbn in Hi, Hj. lia.
    + repeat constructor; cbn; lia.
    + exists (fst sh), (snd sh). split; [lia|]. split; [lia|]. split; [|split; [lia|auto]].
      intros r c [A B]. split; [lia|]. intros _. exists 0%nat. split; [cbn; lia|].
      unfold has_pixel, tile_at. cbn. lia.
  - set (R := grid_line (fst sh) k) in *. set (C := grid_line (snd sh) k) in *.
    set (kn := Z.to_nat k) in *.
    assert (R 0%nat = 0) as R0 by apply grid_line_0.
    assert (C 0%nat = 0) as C0 by apply grid_line_0.
    assert (forall i, R i <= R (S i)) as Rm by (intros; now apply grid_line_mono).
    assert (forall i, C i <= C (S i)) as Cm by (intros; now apply grid_line_mono).
    pose proof (grid_line_last (fst sh) k H0 Hk) as Rl. fold kn in Rl. fold (R kn) in Rl.
    pose proof (grid_line_last (snd sh) k H1 Hk) as Cl. fold kn in Cl. fold (C kn) in Cl.
    assert (ntiles t = (kn * kn)%nat) as Hnt by (unfold ntiles; rewrite Et; apply grid_tiles_length).
    assert (forall i j, (i < kn)%nat -> (j < kn)%nat ->
      tile_at t (i * kn + j) = BBox (R i) (C j) (R (S i)) (C (S j))) as T.
    { intros i j Hi Hj. unfold tile_at. rewrite Et. now apply grid_tiles_nth. }
    split; [|split; [|split]].
    + rewrite Hnt. nia.
    + intros i j r c Hi Hj Pi Pj. rewrite Hnt in Hi, Hj.
      destruct (grid_index kn i Hi) as (a & b & Ha & Hb & ->).
      destruct (grid_index kn j Hj) as (a' & b' & Ha' & Hb' & ->).
      rewrite T in Pi, Pj by assumption. unfold has_pixel in Pi, Pj. cbn [xmin xmax ymin ymax] in Pi, Pj.
      rewrite (lines_unique R Rm a a' r) by lia. rewrite (lines_unique C Cm b b' c) by lia. reflexivity.
    + rewrite Et. apply Forall_forall. intros x Hx.
      apply in_flat_map in Hx as (i & Hi & Hx). apply in_map_iff in Hx as (j & <- & Hj).
      apply in_seq in Hi, Hj. unfold box_in_image. cbn [xmin xmax ymin ymax].
      pose proof (lines_le R Rm 0 i ltac:(lia)). pose proof (lines_le R Rm (S i) kn ltac:(lia)).
      pose proof (lines_le C Cm 0 j ltac:(lia)). pose proof (lines_le C Cm (S j) kn ltac:(lia)).
      specialize (Rm i). specialize (Cm j). lia.
    + exists (R kn), (C kn). split; [lia|]. split; [lia|]. split; [|split; [auto|]].
      * intros r c [A B]. split.
        -- intros (i & Hi & P). rewrite Hnt in Hi. destruct (grid_index kn i Hi) as (a & b & Ha & Hb & ->).
           rewrite T in P by assumption. unfold has_pixel in P. cbn [xmin xmax ymin ymax] in P.
           pose proof (lines_le R Rm (S a) kn ltac:(lia)). pose proof (lines_le C Cm (S b) kn ltac:(lia)). lia.
        -- intros [Hr Hc].
           destruct (lines_find R R0 kn r ltac:(lia)) as (a & Ha & Pa).
           destruct (lines_find C C0 kn c ltac:(lia)) as (b & Hb & Pb).
           exists (a * kn + b)%nat. split; [rewrite Hnt; nia|]. rewrite T by assumption.
           unfold has_pixel. cbn [xmin xmax ymin ymax]. lia.
      * intros K. unfold R, C, kn. split; (apply grid_line_exact; [lia|lia|]); rewrite K.
        -- assert (inject_Z (fst sh) / inject_Z 1 == inject_Z (fst sh))%Q as -> by (field; discriminate).
           apply rnd64_int. lia.
        -- assert (inject_Z (snd sh) / inject_Z 1 == inject_Z (snd sh))%Q as -> by (field; discriminate).
           apply rnd64_int. lia.
Qed.

(** * get_tiles *)
Lemma nonzero_In arr p : In p (nonzero arr) ->
  exists i j, p = (Z.of_nat i, Z.of_nat j) /\ (i < length arr)%nat /\ (j < length (nth i arr []))%nat
    /\ nth j (nth i arr []) false = true.
Proof.
  intros H. apply in_flat_map in H as (i & Hi & H). apply in_map_iff in H as (j & <- & H).
  apply filter_In in H as [H1 H2]. apply in_seq in Hi, H1. exists i, j. repeat split; auto; lia.
Qed.

Lemma every_nth_In skip c l x : In x (every_nth skip c l) -> In x l.
Proof.
  revert c. induction l as [|a l IH]; intros c; cbn [every_nth]; [auto|].
  destruct c as [|c]; cbn [In]; intros H; [destruct H as [H|H]; [auto|right; eapply IH; eauto]|right; eapply IH; eauto].
Qed.
