(** Properties of binary64 rounding used by the tiling proofs. *)
From Verif Require Import Base BaseLemmas FloatModel.
From Coq Require Import ZifyBool Qpower.
Set Default Goal Selector "!".
Local Open Scope Q_scope.

Lemma pow2_pos e : 0 < pow2 e.
Proof. apply Qpower_0_lt. reflexivity. Qed.

Lemma pow2_add a b : pow2 (a + b) == pow2 a * pow2 b.
Proof. apply Qpower_plus. discriminate. Qed.

Lemma pow2_S a : pow2 (a + 1) == 2 * pow2 a.
Proof. rewrite pow2_add. change (pow2 1) with 2. ring. Qed.

Lemma pow2_nonneg e : (0 <= e)%Z -> pow2 e == inject_Z (2 ^ e).
Proof. intros H. unfold pow2. now rewrite Zpower_Qpower. Qed.

Lemma pow2_mono a b : (a <= b)%Z -> pow2 a <= pow2 b.
Proof. intros H. apply Qpower_le_compat_l; [exact H|]. discriminate. Qed.

Lemma pow2_lt_inv a b : pow2 a < pow2 b -> (a < b)%Z.
Proof.
  intros H. destruct (Z_lt_le_dec a b) as [L|L]; [exact L|].
  apply pow2_mono in L. lra.
Qed.

Lemma pow2_inv a : pow2 (- a) * pow2 a == 1.
Proof. rewrite <- pow2_add. replace (- a + a)%Z with 0%Z by lia. reflexivity. Qed.

Lemma qlog2_spec x : 0 < x -> pow2 (qlog2 x) <= x < pow2 (qlog2 x + 1).
Proof.
  intros Hx. destruct x as [n d]. unfold Qlt in Hx. cbn in Hx.
  assert (0 < n)%Z as Hn by lia.
  unfold qlog2. cbn [Qnum Qden].
  set (a := Z.log2 n). set (b := Z.log2 (Zpos d)).
  pose proof (Z.log2_spec n Hn) as [A1 A2]. pose proof (Z.log2_spec (Zpos d) eq_refl) as [B1 B2].
  fold a in A1, A2. fold b in B1, B2.
  assert (0 <= a)%Z as Ha by apply Z.log2_nonneg.
  assert (0 <= b)%Z as Hb by apply Z.log2_nonneg.
  assert ((n # d) * inject_Z (Zpos d) == inject_Z n) as Hnd.
  { unfold Qeq. cbn. lia. }
  assert (pow2 a <= inject_Z n) as A1'.
  { rewrite pow2_nonneg by lia. now apply inject_Z_le_iff. }
  assert (inject_Z n < pow2 (a + 1)) as A2'.
  { rewrite pow2_nonneg by lia. apply inject_Z_lt_iff. replace (a + 1)%Z with (Z.succ a) by lia. lia. }
  assert (pow2 b <= inject_Z (Zpos d)) as B1'.
  { rewrite pow2_nonneg by lia. now apply inject_Z_le_iff. }
  assert (inject_Z (Zpos d) < pow2 (b + 1)) as B2'.
  { rewrite pow2_nonneg by lia. apply inject_Z_lt_iff. replace (b + 1)%Z with (Z.succ b) by lia. lia. }
  clear A1 A2 B1 B2.
  set (q := n # d) in *. clearbody q.
  set (D := inject_Z (Z.pos d)) in *. clearbody D.
  set (N := inject_Z n) in *. clearbody N.
  pose proof (pow2_pos a) as Pa. pose proof (pow2_pos b) as Pb.
  assert (0 < D) as HD by lra.
  (* q < 2^(a-b+1) and q >= 2^(a-b-1) *)
  assert (q < pow2 (a - b + 1)) as U.
  { setoid_replace q with (N / D) by (rewrite <- Hnd; field; lra).
    apply Qlt_shift_div_r; [exact HD|].
    apply Qlt_le_trans with (pow2 (a + 1)); [exact A2'|].
    replace (a + 1)%Z with ((a - b + 1) + b)%Z by lia. rewrite pow2_add.
    pose proof (pow2_pos (a - b + 1)). nra. }
  assert (pow2 (a - b - 1) <= q) as L.
  { setoid_replace q with (N / D) by (rewrite <- Hnd; field; lra).
    apply Qle_shift_div_l; [exact HD|].
    apply Qle_trans with (pow2 a); [|exact A1'].
    replace a with ((a - b - 1) + (b + 1))%Z at 2 by lia. rewrite pow2_add.
    pose proof (pow2_pos (a - b - 1)). nra. }
  destruct (Qle_bool (pow2 (a - b)) q) eqn:E.
  - apply Qle_bool_iff in E. split; [exact E|exact U].
  - split; [exact L|]. replace (a - b - 1 + 1)%Z with (a - b)%Z by lia.
    destruct (Qlt_le_dec q (pow2 (a - b))) as [K|K]; [exact K|].
    apply Qle_bool_iff in K. congruence.
Qed.

Lemma qlog2_unique x e : 0 < x -> pow2 e <= x < pow2 (e + 1) -> qlog2 x = e.
Proof.
  intros Hx [H1 H2]. pose proof (qlog2_spec x Hx) as [A B].
  assert (qlog2 x < e + 1)%Z by (apply pow2_lt_inv; lra).
  assert (e < qlog2 x + 1)%Z by (apply pow2_lt_inv; lra). lia.
Qed.

Lemma rint_mono x y : x <= y -> (rint x <= rint y)%Z.
Proof.
  intros H. destruct (Z_le_gt_dec (rint x) (rint y)) as [L|G]; [exact L|exfalso].
  pose proof (rint_bound x) as [A1 A2]. pose proof (rint_bound y) as [B1 B2].
  assert (inject_Z (rint y) + 1 <= inject_Z (rint x)) as K.
  { change 1 with (inject_Z 1). rewrite <- inject_Z_add. apply inject_Z_le_iff. lia. }
  (* then x = y exactly half way *)
  assert (x == y) as E by lra. rewrite E in K. lra.
Qed.

Lemma rint_ge k x : inject_Z k <= x -> (k <= rint x)%Z.
Proof. intros H. rewrite <- (rint_inject k). now apply rint_mono. Qed.
Lemma rint_le k x : x <= inject_Z k -> (rint x <= k)%Z.
Proof. intros H. rewrite <- (rint_inject k). now apply rint_mono. Qed.

Section Pos.
  Variables (x : Q) (Hx : 0 < x).
  Let e := qlog2 x.
  Let u := pow2 (e - 52).

  Lemma rp_u : 0 < u. Proof. apply pow2_pos. Qed.

  Lemma rp_lo : pow2 e == inject_Z (2 ^ 52) * u.
  Proof.
    unfold u. rewrite <- pow2_nonneg by lia. rewrite <- pow2_add.
    replace (52 + (e - 52))%Z with e by lia. reflexivity.
  Qed.
  Lemma rp_hi : pow2 (e + 1) == inject_Z (2 ^ 53) * u.
  Proof.
    unfold u. rewrite <- pow2_nonneg by lia. rewrite <- pow2_add.
    replace (53 + (e - 52))%Z with (e + 1)%Z by lia. reflexivity.
  Qed.

  Lemma rnd_pos_range : pow2 e <= rnd_pos x <= pow2 (e + 1).
  Proof.
    destruct (qlog2_spec x Hx) as [A B]. fold e in A, B.
    pose proof rp_u as Hu. unfold rnd_pos. fold e. fold u.
    rewrite rp_lo in *. rewrite rp_hi in *.
    split; apply Qmult_le_compat_r; try lra; apply inject_Z_le_iff.
    - apply rint_ge. apply Qle_shift_div_l; [exact Hu|lra].
    - apply rint_le. apply Qle_shift_div_r; [exact Hu|lra].
  Qed.

  Lemma rnd_pos_err : - (u * (1#2)) <= rnd_pos x - x <= u * (1#2).
  Proof.
    unfold rnd_pos. fold e. fold u. pose proof rp_u as Hu.
    pose proof (rint_bound (x / u)) as [A B].
    set (r := inject_Z (rint (x / u))) in *. clearbody r.
    assert (x == (x / u) * u) as E by (field; lra).
    set (t := x / u) in *. clearbody t. rewrite E. nra.
  Qed.
End Pos.

Lemma rnd_pos_mono x y : 0 < x -> x <= y -> rnd_pos x <= rnd_pos y.
Proof.
  intros Hx H. assert (0 < y) as Hy by lra.
  pose proof (qlog2_spec x Hx) as [A1 A2]. pose proof (qlog2_spec y Hy) as [B1 B2].
  destruct (Z.eq_dec (qlog2 x) (qlog2 y)) as [E|N].
  - unfold rnd_pos. rewrite E. pose proof (pow2_pos (qlog2 y - 52)) as Hu.
    set (u := pow2 (qlog2 y - 52)) in *. apply Qmult_le_compat_r; [|lra].
    apply inject_Z_le_iff. apply rint_mono.
    apply Qle_shift_div_l; [exact Hu|].
    setoid_replace (x / u * u) with x by (field; lra). exact H.
  - assert (qlog2 x < qlog2 y + 1)%Z by (apply pow2_lt_inv; lra).
    pose proof (rnd_pos_range x Hx) as [_ X]. pose proof (rnd_pos_range y Hy) as [Y _].
    assert (pow2 (qlog2 x + 1) <= pow2 (qlog2 y)) by (apply pow2_mono; lia). lra.
Qed.

Lemma rnd_pos_pos x : 0 < x -> 0 < rnd_pos x.
Proof. intros H. pose proof (rnd_pos_range x H). pose proof (pow2_pos (qlog2 x)). lra. Qed.

(** Rounding is monotone. *)
Lemma rnd64_mono x y : x <= y -> rnd64 x <= rnd64 y.
Proof.
  intros H. unfold rnd64.
  destruct (Qcompare_spec x 0) as [Ex|Lx|Gx], (Qcompare_spec y 0) as [Ey|Ly|Gy]; try lra.
  - pose proof (rnd_pos_pos y Gy). lra.
  - pose proof (rnd_pos_pos (- x) ltac:(lra)). lra.
  - pose proof (rnd_pos_mono (- y) (- x) ltac:(lra) ltac:(lra)). lra.
  - pose proof (rnd_pos_pos (- x) ltac:(lra)). pose proof (rnd_pos_pos y Gy). lra.
  - apply rnd_pos_mono; assumption.
Qed.

#[global] Instance rnd64_Proper : Proper (Qeq ==> Qeq) rnd64.
Proof. intros x y H. apply Qle_antisym; apply rnd64_mono; lra. Qed.

Lemma rnd64_zero : rnd64 0 == 0.
Proof. reflexivity. Qed.
Lemma rnd64_nonneg x : 0 <= x -> 0 <= rnd64 x.
Proof. intros H. rewrite <- rnd64_zero. now apply rnd64_mono. Qed.

(** Relative error at most 2^-53 (stated for non-negative values). *)
Lemma rnd64_err x : 0 <= x -> - (x * pow2 (- (53))) <= rnd64 x - x <= x * pow2 (- (53)).
Proof.
  intros H. unfold rnd64. destruct (Qcompare_spec x 0) as [Ex|Lx|Gx].
  - rewrite Ex. lra.
  - lra.
  - pose proof (rnd_pos_err x) as [A B]. destruct (qlog2_spec x Gx) as [C _].
    assert (pow2 (qlog2 x - 52) * (1#2) == pow2 (qlog2 x) * pow2 (- (53))) as E.
    { rewrite <- pow2_add. replace (qlog2 x + - (53))%Z with ((qlog2 x - 52) + - (1))%Z by lia.
      rewrite pow2_add. reflexivity. }
    rewrite E in A, B.
    pose proof (pow2_pos (- (53))). nra.
Qed.

(** Integers up to 2^53 are doubles. *)
Lemma rnd_pos_int z : (0 < z <= 2 ^ 53)%Z -> rnd_pos (inject_Z z) == inject_Z z.
Proof.
  intros [H1 H2]. assert (0 < inject_Z z) as Hx by (change 0 with (inject_Z 0); now apply inject_Z_lt_iff).
  pose proof (qlog2_spec _ Hx) as [A B].
  unfold rnd_pos. set (e := qlog2 (inject_Z z)) in *.
  pose proof (pow2_pos (e - 52)) as Hu.
  assert (0 <= e)%Z as He.
  { assert (0 < e + 1)%Z; [|lia]. apply pow2_lt_inv. change (pow2 0) with (inject_Z 1).
    apply Qle_lt_trans with (inject_Z z); [apply inject_Z_le_iff; lia|exact B]. }
  destruct (Z_le_gt_dec e 52) as [L|G].
  - assert (inject_Z z / pow2 (e - 52) == inject_Z (z * 2 ^ (52 - e))) as E.
    { rewrite inject_Z_mul, <- pow2_nonneg by lia.
      pose proof (pow2_inv (52 - e)) as I. replace (- (52 - e))%Z with (e - 52)%Z in I by lia.
      assert (inject_Z z == inject_Z z * pow2 (52 - e) * pow2 (e - 52)) as J.
      { rewrite <- Qmult_assoc, (Qmult_comm (pow2 (52 - e))), I. ring. }
      rewrite J at 1. field. lra. }
    rewrite E, rint_inject. rewrite <- E. field. lra.
  - assert (z = 2 ^ 53)%Z as Ez.
    { assert (pow2 53 <= inject_Z z).
      { apply Qle_trans with (pow2 e); [apply pow2_mono; lia|exact A]. }
      rewrite (pow2_nonneg 53 ltac:(lia)) in H. apply (proj1 (inject_Z_le_iff _ _)) in H. lia. }
    assert (e = 53)%Z as Ee.
    { unfold e. rewrite Ez. apply qlog2_unique; [reflexivity|split; [discriminate|reflexivity]]. }
    rewrite Ee, Ez. reflexivity.
Qed.

Lemma rnd64_int z : (- 2 ^ 53 <= z <= 2 ^ 53)%Z -> rnd64 (inject_Z z) == inject_Z z.
Proof.
  intros H. unfold rnd64. destruct (Qcompare_spec (inject_Z z) 0) as [E|L|G].
  - now rewrite E.
  - change 0 with (inject_Z 0) in L. apply (proj1 (inject_Z_lt_iff _ _)) in L.
    change (- inject_Z z) with (inject_Z (- z)).
    rewrite (rnd_pos_int (- z)) by lia. rewrite inject_Z_opp. ring.
  - change 0 with (inject_Z 0) in G. apply (proj1 (inject_Z_lt_iff _ _)) in G.
    apply rnd_pos_int. lia.
Qed.

(** * Truncation *)
Lemma qtrunc_mono x y : x <= y -> (qtrunc x <= qtrunc y)%Z.
Proof.
  intros H. unfold qtrunc.
  destruct (Qle_bool 0 x) eqn:A, (Qle_bool 0 y) eqn:B.
  - now apply Qfloor_resp_le.
  - apply Qle_bool_iff in A. assert (Qle_bool 0 y = true) by (apply Qle_bool_iff; lra). congruence.
  - apply Qle_bool_iff in B.
    assert (~ 0 <= x) as A' by (intros K; apply Qle_bool_iff in K; congruence).
    apply Z.le_trans with 0%Z.
    + apply (Qceiling_resp_le x 0). lra.
    + apply (Qfloor_resp_le 0 y). lra.
  - now apply Qceiling_resp_le.
Qed.

#[global] Instance qtrunc_Proper : Proper (Qeq ==> eq) qtrunc.
Proof. intros x y H. apply Z.le_antisymm; apply qtrunc_mono; lra. Qed.

Lemma qtrunc_int z : qtrunc (inject_Z z) = z.
Proof.
  unfold qtrunc. destruct (Qle_bool _ _); [apply Qfloor_Z|apply Qceiling_Z].
Qed.

Lemma qtrunc_nonneg x : 0 <= x -> qtrunc x = Qfloor x.
Proof. intros H. unfold qtrunc. apply Qle_bool_iff in H. now rewrite H. Qed.

Lemma qtrunc_le x z : x <= inject_Z z -> (qtrunc x <= z)%Z.
Proof. intros H. rewrite <- (qtrunc_int z). now apply qtrunc_mono. Qed.
Lemma qtrunc_ge x z : inject_Z z <= x -> (z <= qtrunc x)%Z.
Proof. intros H. rewrite <- (qtrunc_int z). now apply qtrunc_mono. Qed.
