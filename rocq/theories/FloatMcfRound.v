(** Rounding to a given number of bits meets the contract of FloatMcfSpec.v. *)
From Verif Require Import Base BaseLemmas GraphModel McfModel FloatModel FloatProofs FloatMcfModel FloatMcfSpec.
From Coq Require Import ZifyBool.
Set Default Goal Selector "!".
Local Open Scope Q_scope.

Lemma abs_le x b : Qabs x <= b <-> - b <= x <= b.
Proof. apply Qabs_Qle_condition. Qed.

Lemma qlog2_comp x y : 0 < x -> x == y -> qlog2 x = qlog2 y.
Proof.
  intros Hx E. symmetry. apply qlog2_unique; [lra|]. pose proof (qlog2_spec x Hx). lra.
Qed.

Lemma grid_comp bits x y : 0 < x -> x == y ->
  inject_Z (rint (x / pow2 (qlog2 x - bits))) * pow2 (qlog2 x - bits)
  == inject_Z (rint (y / pow2 (qlog2 y - bits))) * pow2 (qlog2 y - bits).
Proof.
  intros Hx E. rewrite (qlog2_comp x y Hx E).
  rewrite (rint_comp (x / _) (y / pow2 (qlog2 y - bits))); [reflexivity|]. now rewrite E.
Qed.

Lemma grid_err bits x : 0 < x ->
  let r := inject_Z (rint (x / pow2 (qlog2 x - bits))) * pow2 (qlog2 x - bits) in
  - (pow2 (- (bits + 1)) * x) <= r - x <= pow2 (- (bits + 1)) * x.
Proof.
  intros Hx. cbv zeta. destruct (qlog2_spec x Hx) as [C _].
  set (e := qlog2 x) in *. set (u := pow2 (e - bits)).
  assert (0 < u) as Hu by apply pow2_pos.
  assert (u * (1#2) == pow2 e * pow2 (- (bits + 1))) as E.
  { unfold u. rewrite <- pow2_add. replace (e + - (bits + 1))%Z with ((e - bits) + - (1))%Z by lia.
    rewrite pow2_add. reflexivity. }
  pose proof (rint_bound (x / u)) as [A B].
  set (r := inject_Z (rint (x / u))) in *. clearbody r.
  assert (x == (x / u) * u) as E' by (field; lra).
  set (t := x / u) in *. clearbody t.
  pose proof (pow2_pos (- (bits + 1))) as Hp. set (p := pow2 (- (bits + 1))) in *. clearbody p.
  assert (pow2 e * p <= x * p) as F by (apply Qmult_le_compat_r; lra).
  assert (- (u * (1 # 2)) <= r * u - x <= u * (1 # 2)) as G by (rewrite E'; nra).
  lra.
Qed.

Theorem rnd_at_rounding bits : rounding (rnd_at bits) (pow2 (- (bits + 1))).
Proof.
  assert (forall x y, x == y -> rnd_at bits x == rnd_at bits y) as P.
  { intros x y E. unfold rnd_at.
    destruct (Qcompare_spec x 0) as [Ex|Lx|Gx], (Qcompare_spec y 0) as [Ey|Ly|Gy]; try lra; cbv zeta.
    - apply Qopp_comp. apply (grid_comp bits (- x) (- y)); lra.
    - apply (grid_comp bits x y); lra. }
  assert (forall x, rnd_at bits (- x) == - rnd_at bits x) as O.
  { intros x. unfold rnd_at.
    destruct (Qcompare_spec (- x) 0) as [Ex|Lx|Gx], (Qcompare_spec x 0) as [Ey|Ly|Gy]; try lra; cbv zeta.
    apply Qopp_comp. apply (grid_comp bits (- - x) x); lra. }
  split; auto.
  assert (forall x, 0 < x -> Qabs (rnd_at bits x - x) <= pow2 (- (bits + 1)) * Qabs x) as K.
  { intros x Hx. rewrite (Qabs_pos x) by lra. unfold rnd_at.
    destruct (Qcompare_spec x 0) as [Ex|Lx|Gx]; try lra. apply abs_le. now apply grid_err. }
  intros x. destruct (Qlt_le_dec 0 x) as [L|L]; [auto|].
  destruct (Qlt_le_dec x 0) as [L'|L'].
  - rewrite <- (Qabs_opp x), <- (Qabs_opp (rnd_at bits x - x)).
    setoid_replace (- (rnd_at bits x - x)) with (rnd_at bits (- x) - - x) by (rewrite O; ring). apply K. lra.
  - assert (x == 0) as E by lra.
    rewrite (P x 0 E), E. change (rnd_at bits 0) with 0. change (Qabs 0) with 0. change (Qabs (0 - 0)) with 0. lra.
Qed.

Theorem rnd64_rounding : rounding rnd64 (pow2 (- (53))).
Proof.
  destruct (rnd_at_rounding 52) as [A B C]. split; intros x; try intros y H.
  - exact (A x y H).
  - exact (B x).
  - exact (C x).
Qed.
Theorem rnd32_rounding : rounding rnd32 (pow2 (- (24))).
Proof. exact (rnd_at_rounding 23). Qed.
Theorem id_rounding : rounding (fun x => x) 0.
Proof.
  split; auto; [reflexivity|]. intros x. setoid_replace (x - x) with 0 by ring. change (Qabs 0) with 0. lra.
Qed.
