(** How many tiles there are for a given number of coherent pixels (C87). *)
From Verif Require Import Base BaseLemmas FloatModel FloatProofs TileModel TileSpec TileProofs
  FormatSpec FormatProofs DensityProofs TargetModel TargetSpec Props_Tile.
From Coq Require Import List ZifyBool Lia Lqa Qround.
Import ListNotations.
Set Default Goal Selector "!".
Local Open Scope Q_scope.

(** A multiple of 2^-20 with at most 53 bits is a double. *)
Lemma square_double k : (0 <= k <= 2 ^ 26 + 2 ^ 10)%Z -> rnd64 ((k # 1024) * (k # 1024)) == (k # 1024) * (k # 1024).
Proof.
  intros H. rewrite rnd64_at. apply (nearest_fixed (52 + 1)); [apply rnd_at_nearest; lia|].
  exists (k * k)%Z, (- (20))%Z. split.
  - change (Qpower 2 (- (20))) with (1 # 1048576). unfold Qeq, Qmult, inject_Z. cbn [Qnum Qden]. rewrite ?Pos2Z.inj_mul. lia.
  - change (2 ^ (52 + 1))%Z with 9007199254740992%Z. nia.
Qed.

(** * C87 *)

(** The rounded root is the nearest whole number to the root of the quotient, up to
    2^-10 for rounding. *)
Theorem C87_root fsqrt T n : root_contract fsqrt -> (0 < T)%Z -> (Z.of_nat n <= 2 ^ 32 * T)%Z ->
  let r := tile_root fsqrt T n in
  (0 <= r)%Z /\ inject_Z (Z.of_nat n) < most r T /\ ((1 <= r)%Z -> fewest r T < inject_Z (Z.of_nat n)).
Proof.
  intros SC HT Hn r.
  set (x := inject_Z (Z.of_nat n) / inject_Z T).
  assert (0 < inject_Z T) as PT by (change 0 with (inject_Z 0); now apply inject_Z_lt_iff).
  assert (inject_Z (Z.of_nat n) == x * inject_Z T) as Ex by (unfold x; field; lra).
  assert (0 <= x) as Px.
  { unfold x. apply Qle_shift_div_l; [exact PT|]. rewrite Qmult_0_l. change 0 with (inject_Z 0). apply inject_Z_le_iff. lia. }
  assert (x <= inject_Z (2 ^ 32)) as Ux.
  { unfold x. apply Qle_shift_div_r; [exact PT|]. rewrite <- inject_Z_mul. apply inject_Z_le_iff. lia. }
  pose proof (rnd64_nonneg x Px) as Py. set (y := rnd64 x) in *.
  assert (forall k, (0 <= k <= 2 ^ 26 + 2 ^ 10)%Z ->
    ((k # 1024) * (k # 1024) <= x -> (k # 1024) <= fsqrt y) /\ (x <= (k # 1024) * (k # 1024) -> fsqrt y <= (k # 1024))) as K.
  { intros k Hk. destruct (SC y k Py ltac:(lia)) as [A B]. pose proof (square_double k Hk) as D. split; intros H.
    - apply A. apply rnd64_mono in H. rewrite D in H. exact H.
    - apply B. apply rnd64_mono in H. rewrite D in H. exact H. }
  assert (0 <= fsqrt y) as Lo.
  { destruct (K 0%Z ltac:(lia)) as [A _]. setoid_replace (0 # 1024) with 0 in A by reflexivity. apply A. lra. }
  assert (fsqrt y <= inject_Z (2 ^ 16)) as Hi.
  { destruct (K (2 ^ 26)%Z ltac:(lia)) as [_ B]. setoid_replace (2 ^ 26 # 1024) with (inject_Z (2 ^ 16)) in B by reflexivity. apply B.
    setoid_replace (inject_Z (2 ^ 16) * inject_Z (2 ^ 16)) with (inject_Z (2 ^ 32)) by reflexivity. exact Ux. }
  assert (r = rint (fsqrt y)) as Er by reflexivity.
  assert (0 <= r <= 2 ^ 16)%Z as Rr.
  { rewrite Er. split; [apply rint_ge; exact Lo|apply rint_le; exact Hi]. }
  pose proof (rint_bound (fsqrt y)) as Rb. rewrite <- Er in Rb. clearbody r.
  split; [lia|]. unfold most, fewest. split; [|intros R1].
  - assert (((1024 * r + 513)%Z # 1024) == inject_Z r + (1 # 2) + (1 # 1024)) as Ek by (unfold Qeq, Qminus, Qplus, Qmult, Qopp, inject_Z; cbn [Qnum Qden]; rewrite ?Pos2Z.inj_mul; lia).
    destruct (K (1024 * r + 513)%Z ltac:(lia)) as [A _]. rewrite Ek in A. set (b := inject_Z r + (1 # 2) + (1 # 1024)) in *.
    rewrite Ex. apply Qmult_lt_compat_r; [exact PT|]. apply Qnot_le_lt. intros H. specialize (A H). unfold b in A. lra.
  - assert (((1024 * r - 513)%Z # 1024) == inject_Z r - (1 # 2) - (1 # 1024)) as Ek by (unfold Qeq, Qminus, Qplus, Qmult, Qopp, inject_Z; cbn [Qnum Qden]; rewrite ?Pos2Z.inj_mul; lia).
    destruct (K (1024 * r - 513)%Z ltac:(lia)) as [_ B]. rewrite Ek in B. set (b := inject_Z r - (1 # 2) - (1 # 1024)) in *.
    rewrite Ex. apply Qmult_lt_compat_r; [exact PT|]. apply Qnot_le_lt. intros H. specialize (B H). unfold b in B. lra.
Qed.

Lemma most_mono p q T : (0 <= p <= q)%Z -> (0 < T)%Z -> most p T <= most q T.
Proof.
  intros H HT. unfold most. assert (0 <= inject_Z T) as PT by (change 0 with (inject_Z 0); apply inject_Z_le_iff; lia).
  assert (inject_Z p <= inject_Z q) as A by (apply inject_Z_le_iff; lia).
  assert (0 <= inject_Z p) as B by (change 0 with (inject_Z 0); apply inject_Z_le_iff; lia).
  apply Qmult_le_compat_r; [|exact PT]. apply Qmult_le_compat_nonneg; split; lra.
Qed.
Lemma fewest_mono p q T : (1 <= p <= q)%Z -> (0 < T)%Z -> fewest p T <= fewest q T.
Proof.
  intros H HT. unfold fewest. assert (0 <= inject_Z T) as PT by (change 0 with (inject_Z 0); apply inject_Z_le_iff; lia).
  assert (inject_Z p <= inject_Z q) as A by (apply inject_Z_le_iff; lia).
  assert (inject_Z 1 <= inject_Z p) as B by (apply inject_Z_le_iff; lia). change (inject_Z 1) with 1 in B.
  apply Qmult_le_compat_r; [|exact PT]. apply Qmult_le_compat_nonneg; split; lra.
Qed.

(** The tiles form a square number that fits the coherent pixels: [q * q] tiles
    with [q] within half a tile of the root of pixels per target. Fewer only if
    that is more than the allowed number. *)
Theorem C87_count pick fsqrt s s' arr t :
  picks_in_range pick -> root_contract fsqrt -> tiler_post_init s' = Ok s ->
  (0 < length arr)%nat -> (0 < length (nth 0 arr []))%nat ->
  (forall i, (i < length arr)%nat -> length (nth i arr []) = length (nth 0 arr [])) ->
  let T := target_points_per_tile s in let n := length (nonzero arr) in
  (Z.of_nat n <= 2 ^ 32 * T)%Z ->
  get_tiles pick (tile_root fsqrt T) true s arr = Ok t ->
  exists q, Z.of_nat (ntiles t) = (q * q)%Z /\ (1 <= q)%Z /\ (q * q <= ts_max_tiles s)%Z /\
    ((2 <= q)%Z -> fewest q T < inject_Z (Z.of_nat n)) /\
    (((q + 1) * (q + 1) <= ts_max_tiles s)%Z -> inject_Z (Z.of_nat n) < most q T).
Proof.
  intros Hpick SC Hs Hr Hc Hrect T n Hn E.
  assert (1 <= ts_max_tiles s /\ 0 < T)%Z as [Hmax HT].
  { unfold tiler_post_init in Hs. destruct (ts_max_tiles s' <? 1)%Z eqn:E1; [discriminate|].
    destruct (negb (Qle_bool 0 (dilation_factor s'))) eqn:E2; [discriminate|].
    destruct (target_points_for_generation s' <=? 0)%Z; [discriminate|].
    destruct (target_points_per_tile s' <=? 0)%Z eqn:E4; [discriminate|].
    injection Hs as <-. unfold T. lia. }
  destruct (C87_root fsqrt T n SC HT Hn) as (R0 & Rm & Rf). set (r := tile_root fsqrt T n) in *.
  set (sh := (Z.of_nat (length arr), Z.of_nat (length (nth 0 arr [])))).
  unfold get_tiles in E. cbn [negb] in E. fold sh n in E. fold r in E.
  assert ((fst sh * snd sh =? 0)%Z = false) as NE by (unfold sh; cbn [fst snd]; nia). rewrite NE in E.
  set (sk := Nat.max 1 _) in E.
  destruct (create_tiles_density pick (every_nth sk 0 (nonzero arr)) sh (requested_tiles r (ts_max_tiles s))) as [t0|] eqn:E0; [|discriminate].
  cbn [bind] in E.
  assert (ntiles t = ntiles t0) as En.
  { destruct (_ && _); injection E as <-; [|reflexivity]. unfold ntiles, dilate. cbn [tiles]. apply map_length. }
  assert (points_in sh (every_nth sk 0 (nonzero arr))) as PI.
  { intros p Hp. apply every_nth_In in Hp. apply nonzero_In in Hp as (i & j & -> & Hi & Hj & _).
    rewrite Hrect in Hj by exact Hi. unfold in_image, sh. cbn [fst snd]. lia. }
  destruct (C30_count_density pick _ sh _ t0 Hpick ltac:(unfold sh; cbn [fst snd]; lia) ltac:(unfold sh; cbn [fst snd]; lia) PI E0) as [Nq _].
  exists (Z.sqrt (requested_tiles r (ts_max_tiles s))). rewrite En. split; [exact Nq|].
  unfold requested_tiles in *. set (M := ts_max_tiles s) in *.
  set (q := Z.sqrt (Z.min (Z.max 1 (r * r)) M)).
  assert (q * q <= Z.min (Z.max 1 (r * r)) M < Z.succ q * Z.succ q)%Z as Sq by (apply Z.sqrt_spec; lia).
  pose proof (Z.sqrt_nonneg (Z.min (Z.max 1 (r * r)) M)) as Q0. fold q in Q0. clearbody q.
  split; [nia|]. split; [lia|]. split.
  - intros Q2. assert (q <= r)%Z by nia.
    apply Qle_lt_trans with (fewest r T); [apply fewest_mono; lia|apply Rf; lia].
  - intros QM. assert (r <= q)%Z by nia.
    apply Qlt_le_trans with (most r T); [exact Rm|apply most_mono; lia].
Qed.

(** On average a tile has more than half of the target when there are several, and
    less than 2.3 times the target unless the number of tiles is limited. *)
Theorem C87_average pick fsqrt s s' arr t :
  picks_in_range pick -> root_contract fsqrt -> tiler_post_init s' = Ok s ->
  (0 < length arr)%nat -> (0 < length (nth 0 arr []))%nat ->
  (forall i, (i < length arr)%nat -> length (nth i arr []) = length (nth 0 arr [])) ->
  let T := target_points_per_tile s in let n := Z.of_nat (length (nonzero arr)) in let N := Z.of_nat (ntiles t) in
  (n <= 2 ^ 32 * T)%Z ->
  get_tiles pick (tile_root fsqrt T) true s arr = Ok t ->
  ((1 < N)%Z -> (N * T < 2 * n)%Z) /\ ((4 * N <= ts_max_tiles s)%Z -> (10 * n < 23 * (N * T))%Z).
Proof.
  intros Hpick SC Hs Hr Hc Hrect T n N Hn E.
  destruct (C87_count pick fsqrt s s' arr t Hpick SC Hs Hr Hc Hrect Hn E) as (q & Eq & Q1 & _ & F & G). fold T n in F, G. fold N in Eq.
  assert (0 < T)%Z as HT.
  { unfold tiler_post_init in Hs. destruct (ts_max_tiles s' <? 1)%Z; [discriminate|].
    destruct (negb (Qle_bool 0 (dilation_factor s'))); [discriminate|].
    destruct (target_points_for_generation s' <=? 0)%Z; [discriminate|].
    destruct (target_points_per_tile s' <=? 0)%Z eqn:E4; [discriminate|]. injection Hs as <-. unfold T. lia. }
  clearbody T n N. split; intros H.
  - assert (2 <= q)%Z as Q2 by nia. specialize (F Q2). unfold fewest in F.
    assert (((1024 * q - 513) * (1024 * q - 513) * T < 1048576 * n)%Z) as F'.
    { apply inject_Z_lt_iff. rewrite !inject_Z_mul. setoid_replace (inject_Z (1024 * q - 513)) with (1024 * (inject_Z q - (1 # 2) - (1 # 1024))).
      - change (inject_Z 1048576) with 1048576. lra.
      - unfold Z.sub. rewrite inject_Z_plus, inject_Z_mul. change (inject_Z 1024) with 1024. change (inject_Z (- (513))) with (- (513))%Q. lra. }
    assert (1048576 * (q * q) <= 2 * ((1024 * q - 513) * (1024 * q - 513)))%Z by nia. rewrite Eq. nia.
  - assert ((q + 1) * (q + 1) <= ts_max_tiles s)%Z as Q2 by nia. specialize (G Q2). unfold most in G.
    assert ((1048576 * n < (1024 * q + 513) * (1024 * q + 513) * T)%Z) as G'.
    { apply inject_Z_lt_iff. rewrite !inject_Z_mul. setoid_replace (inject_Z (1024 * q + 513)) with (1024 * (inject_Z q + (1 # 2) + (1 # 1024))).
      - change (inject_Z 1048576) with 1048576. lra.
      - rewrite inject_Z_plus, inject_Z_mul. change (inject_Z 1024) with 1024. change (inject_Z 513) with 513. lra. }
    assert (10 * ((1024 * q + 513) * (1024 * q + 513)) <= 23 * 1048576 * (q * q))%Z by nia. rewrite Eq. nia.
Qed.

(** Few pixels: one tile. *)
Theorem C87_one pick fsqrt s s' arr t :
  picks_in_range pick -> root_contract fsqrt -> tiler_post_init s' = Ok s ->
  (0 < length arr)%nat -> (0 < length (nth 0 arr []))%nat ->
  (forall i, (i < length arr)%nat -> length (nth i arr []) = length (nth 0 arr [])) ->
  let T := target_points_per_tile s in let n := Z.of_nat (length (nonzero arr)) in
  (n <= 2 * T)%Z ->
  get_tiles pick (tile_root fsqrt T) true s arr = Ok t -> ntiles t = 1%nat.
Proof.
  intros Hpick SC Hs Hr Hc Hrect T n Hn E.
  assert (0 < T)%Z as HT.
  { unfold tiler_post_init in Hs. destruct (ts_max_tiles s' <? 1)%Z; [discriminate|].
    destruct (negb (Qle_bool 0 (dilation_factor s'))); [discriminate|].
    destruct (target_points_for_generation s' <=? 0)%Z; [discriminate|].
    destruct (target_points_per_tile s' <=? 0)%Z eqn:E4; [discriminate|]. injection Hs as <-. unfold T. lia. }
  destruct (C87_average pick fsqrt s s' arr t Hpick SC Hs Hr Hc Hrect ltac:(fold T n; lia) E) as [A _]. fold T n in A.
  destruct (C87_count pick fsqrt s s' arr t Hpick SC Hs Hr Hc Hrect ltac:(fold T n; lia) E) as (q & Eq & Q1 & _).
  destruct (Z.eq_dec q 1) as [->|]; [lia|]. assert (4 <= Z.of_nat (ntiles t))%Z by nia. specialize (A ltac:(lia)). nia.
Qed.

Lemma every_from k c l i : (1 <= k)%nat -> nth_error (every_nth k c l) i = nth_error l (c + k * i)%nat.
Proof.
  intros Hk. revert c i. induction l as [|x l IH]; intros c i; cbn [every_nth].
  - rewrite !(proj2 (nth_error_None _ _)) by (cbn [length]; lia). reflexivity.
  - destruct c as [|c].
    + destruct i as [|i]; [now rewrite Nat.mul_0_r|]. cbn [nth_error]. rewrite IH.
      replace (0 + k * S i)%nat with (S (k - 1 + k * i)) by nia. reflexivity.
    + rewrite IH. reflexivity.
Qed.

(** The tiles are made from a sample of the coherent pixels: every [k]-th one. It has
    at least the target number of points, if there are so many, and less than twice
    that number. *)
Theorem C87_sample pick root s s' arr t :
  tiler_post_init s' = Ok s -> get_tiles pick root true s arr = Ok t ->
  let n := length (nonzero arr) in let G := Z.to_nat (target_points_for_generation s) in
  exists k sample t0, (1 <= k)%nat /\ every k (nonzero arr) sample /\
    (Nat.min n G <= length sample)%nat /\ (length sample < 2 * G)%nat /\ ((n < 2 * G)%nat -> k = 1%nat) /\
    create_tiles_density pick sample (Z.of_nat (length arr), Z.of_nat (length (nth 0 arr []))) (requested_tiles (root n) (ts_max_tiles s)) = Ok t0 /\
    (t = t0 \/ t = dilate (dilation_factor s) t0).
Proof.
  intros Hs E n G.
  assert (0 < target_points_for_generation s)%Z as HG.
  { unfold tiler_post_init in Hs. destruct (ts_max_tiles s' <? 1)%Z; [discriminate|].
    destruct (negb (Qle_bool 0 (dilation_factor s'))); [discriminate|].
    destruct (target_points_for_generation s' <=? 0)%Z eqn:E3; [discriminate|].
    destruct (target_points_per_tile s' <=? 0)%Z; [discriminate|]. injection Hs as <-. lia. }
  unfold get_tiles in E. cbn [negb] in E. destruct (_ =? 0)%Z; [discriminate|].
  destruct (create_tiles_density _ _ _ _) as [t0|] eqn:E0 in E; [|discriminate]. cbn [bind] in E.
  set (k := Nat.max 1 (Z.to_nat (Z.of_nat (length (nonzero arr)) / target_points_for_generation s))) in E0.
  assert (k = Nat.max 1 (n / G)) as Ek.
  { unfold k, n, G. f_equal. rewrite Z2Nat.inj_div by lia. now rewrite Nat2Z.id. }
  exists k, (every_nth k 0 (nonzero arr)), t0.
  split; [lia|]. split; [intros i; apply every_from; lia|].
  assert (1 <= G)%nat as G1 by (unfold G; lia).
  pose proof (Nat.div_mod n G ltac:(lia)) as D. pose proof (Nat.mod_upper_bound n G ltac:(lia)) as M.
  set (m := (n / G)%nat) in *. set (r := (n mod G)%nat) in *. clearbody m r.
  rewrite every_nth_length by lia. fold n. rewrite Nat.sub_0_r.
  assert (Nat.min n G <= (n + (k - 1)) / k)%nat as L1.
  { apply Nat.div_le_lower_bound; [lia|]. destruct m as [|m]; [assert (k = 1%nat) by lia; subst k; rewrite H; lia|]. assert (k = S m) as -> by lia. nia. }
  assert ((n + (k - 1)) / k < 2 * G)%nat as L2.
  { apply Nat.div_lt_upper_bound; [lia|]. destruct m as [|m]; [assert (k = 1%nat) as -> by lia; lia|]. assert (k = S m) as -> by lia. nia. }
  split; [exact L1|]. split; [exact L2|]. split; [intros B; assert (m < 2)%nat by nia; lia|]. split; [exact E0|].
  destruct (_ && _)%bool; injection E as <-; auto.
Qed.

(** A root that meets the contract: rounded down to a multiple of 2^-10. *)
Definition floor_root (x : Q) : Q := Z.sqrt (Qfloor (x * 1048576)) # 1024.
Example C87_root_witness : root_contract floor_root.
Proof.
  intros x k Px Hk. unfold floor_root. set (f := Qfloor (x * 1048576)).
  assert (0 <= f)%Z as F0 by (unfold f; change 0%Z with (Qfloor 0); apply Qfloor_resp_le; lra).
  pose proof (Qfloor_le (x * 1048576)) as Fl. pose proof (Qlt_floor (x * 1048576)) as Fu. fold f in Fl, Fu.
  assert ((k # 1024) * (k # 1024) == inject_Z (k * k) * (1 # 1048576)) as Ek by (unfold Qeq, Qminus, Qplus, Qmult, Qopp, inject_Z; cbn [Qnum Qden]; rewrite ?Pos2Z.inj_mul; lia).
  split; intros H; rewrite Ek in H.
  - assert (k * k <= f)%Z as L.
    { assert (inject_Z (k * k) < inject_Z (f + 1)) as L by lra. apply (proj1 (inject_Z_lt_iff _ _)) in L. lia. }
    assert (k <= Z.sqrt f)%Z by (rewrite <- (Z.sqrt_square k) by lia; now apply Z.sqrt_le_mono). unfold Qle. cbn [Qnum Qden]. lia.
  - assert (f <= k * k)%Z as L by (assert (inject_Z f <= inject_Z (k * k)) as L by lra; apply (proj1 (inject_Z_le_iff _ _)) in L; exact L).
    assert (Z.sqrt f <= k)%Z by (rewrite <- (Z.sqrt_square k) by lia; now apply Z.sqrt_le_mono). unfold Qle. cbn [Qnum Qden]. lia.
Qed.

(** 24 coherent pixels for tiles of 6: four tiles. With at most 3 tiles: one. *)
Definition image24 : list (list bool) := repeat (repeat true 6) 4.
Example C87_witness : length (nonzero image24) = 24%nat /\
  tile_root floor_root 6 24 = 2%Z /\
  (exists t, get_tiles pick_rows (tile_root floor_root 6) true (TilerSettings 6 100 100 0) image24 = Ok t /\ ntiles t = 4%nat) /\
  (exists t, get_tiles pick_rows (tile_root floor_root 6) true (TilerSettings 6 3 100 0) image24 = Ok t /\ ntiles t = 1%nat).
Proof. repeat split; try (vm_compute; reflexivity); eexists; (split; [vm_compute; reflexivity|vm_compute; reflexivity]). Qed.

(** With 5 points for the generation every fourth of the 24 pixels is used. *)
Example C87_sample_witness : tiler_post_init (TilerSettings 6 100 5 0) = Ok (TilerSettings 6 100 5 0) /\
  exists t, get_tiles pick_rows (tile_root floor_root 6) true (TilerSettings 6 100 5 0) image24 = Ok t.
Proof. split; [reflexivity|]. eexists. vm_compute. reflexivity. Qed.

Print Assumptions C87_root.
Print Assumptions C87_count.
Print Assumptions C87_average.
Print Assumptions C87_one.
Print Assumptions C87_sample.
