(** Rounding is rounding to nearest, ties to even. *)
From Verif Require Import Base BaseLemmas GraphModel McfModel FloatModel FloatProofs FloatMcfModel FloatMcfSpec FloatMcfRound FormatSpec.
From Coq Require Import ZifyBool.
Set Default Goal Selector "!".
Local Open Scope Q_scope.

Lemma rint_nearest x k : Qabs (inject_Z (rint x) - x) <= Qabs (inject_Z k - x).
Proof.
  destruct (rint_bound x) as [A B]. destruct (Z.eq_dec (rint x) k) as [<-|N]; [lra|].
  assert (Qabs (inject_Z (rint x) - x) <= 1 # 2) as C by (apply abs_le; lra).
  eapply Qle_trans; [exact C|].
  assert (inject_Z (rint x) + 1 <= inject_Z k \/ inject_Z k + 1 <= inject_Z (rint x)) as [D|D].
  { change 1 with (inject_Z 1). rewrite <- !inject_Z_add.
    destruct (Z_lt_ge_dec (rint x) k); [left|right]; apply inject_Z_le_iff; lia. }
  - rewrite Qabs_pos; lra.
  - rewrite Qabs_neg; lra.
Qed.

Lemma rint_tie x k : Qabs (inject_Z k - x) == Qabs (inject_Z (rint x) - x) -> k <> rint x -> Z.even (rint x) = true.
Proof.
  intros E N. destruct (near_or_tie x) as [(j & J)|(j & J)].
  - exfalso. pose proof (rint_unique x j J) as R. rewrite R in *. clear R.
    assert (Qabs (inject_Z j - x) < 1 # 2) as C.
    { apply Qabs_case; intros; lra. }
    rewrite <- E in C. apply N. symmetry. rewrite <- (rint_unique x j J). apply rint_unique.
    revert C. apply Qabs_case; intros; lra.
  - rewrite (rint_tie_even x j J). destruct (Z.even j) eqn:Ej; [exact Ej|]. rewrite Z.even_add, Ej. reflexivity.
Qed.

Lemma holds_opp p x : holds p x -> holds p (- x).
Proof.
  intros (m & e & E & L). exists (- m)%Z, e. split; [rewrite E, inject_Z_opp; ring|lia].
Qed.
Lemma holds_eq p x y : x == y -> holds p x -> holds p y.
Proof. intros E (m & e & H & L). exists m, e. split; [now rewrite <- E|exact L]. Qed.
Lemma even_opp p x : holds_even p x -> holds_even p (- x).
Proof.
  intros (m & e & E & L & V). exists (- m)%Z, e. split; [rewrite E, inject_Z_opp; ring|].
  split; [lia|now rewrite Z.even_opp].
Qed.
Lemma even_eq p x y : x == y -> holds_even p x -> holds_even p y.
Proof. intros E (m & e & H & L). exists m, e. split; [now rewrite <- E|exact L]. Qed.
Lemma holds_zero p : (0 <= p)%Z -> holds p 0.
Proof. intros P. exists 0%Z, 0%Z. split; [reflexivity|]. change (Z.abs 0) with 0%Z. apply Z.pow_pos_nonneg; lia. Qed.

Lemma nearest_opp p x y : nearest_even p x y -> nearest_even p (- x) (- y).
Proof.
  intros (A & B & C). split; [now apply holds_opp|]. split.
  - intros z Hz. pose proof (B (- z) (holds_opp _ _ Hz)) as D.
    setoid_replace (- y - - x) with (- (y - x)) by ring. setoid_replace (z - - x) with (- (- z - x)) by ring.
    now rewrite !Qabs_opp.
  - intros z Hz E N. apply even_opp. apply (C (- z) (holds_opp _ _ Hz)).
    + setoid_replace (- z - x) with (- (z - - x)) by ring. setoid_replace (y - x) with (- (- y - - x)) by ring.
      now rewrite !Qabs_opp.
    + intros K. apply N. rewrite <- K. ring.
Qed.
Lemma nearest_eq p x x' y y' : x == x' -> y == y' -> nearest_even p x y -> nearest_even p x' y'.
Proof.
  intros E F (A & B & C). split; [now apply (holds_eq p y)|]. split.
  - intros z Hz. rewrite <- E, <- F. auto.
  - intros z Hz K N. apply (even_eq p y); [exact F|]. apply (C z Hz).
    + now rewrite E, F.
    + intros J. apply N. now rewrite J.
Qed.

Section Pos.
Variables (bits : Z) (x : Q).
Hypotheses (Hb : (1 <= bits)%Z) (Hx : 0 < x).
Let e := qlog2 x.
Let u := pow2 (e - bits).
Let n := rint (x / u).
Let r := inject_Z n * u.

Lemma u_pos : 0 < u. Proof. apply pow2_pos. Qed.
Lemma x_u : x == x / u * u.
Proof. pose proof u_pos. field. lra. Qed.
Lemma lo_u : pow2 e == inject_Z (2 ^ bits) * u.
Proof.
  unfold u. rewrite <- pow2_nonneg by lia. rewrite <- pow2_add.
  replace (bits + (e - bits))%Z with e by lia. reflexivity.
Qed.
Lemma hi_u : pow2 (e + 1) == inject_Z (2 ^ (bits + 1)) * u.
Proof.
  unfold u. rewrite <- pow2_nonneg by lia. rewrite <- pow2_add.
  replace (bits + 1 + (e - bits))%Z with (e + 1)%Z by lia. reflexivity.
Qed.
Lemma n_range : (2 ^ bits <= n <= 2 ^ (bits + 1))%Z.
Proof.
  destruct (qlog2_spec x Hx) as [A B]. fold e in A, B. pose proof u_pos as Hu.
  rewrite lo_u in A. rewrite hi_u in B. unfold n. split.
  - apply rint_ge. apply Qle_shift_div_l; [exact Hu|lra].
  - apply rint_le. apply Qle_shift_div_r; [exact Hu|lra].
Qed.

Lemma pow_twice : (2 ^ (bits + 1) = 2 * 2 ^ bits)%Z.
Proof. rewrite Z.pow_add_r by lia. lia. Qed.
Lemma pow_even : Z.even (2 ^ bits) = true.
Proof. rewrite Z.even_pow by lia. reflexivity. Qed.

(** The largest value has the significand of the next exponent. *)
Lemma top_u : inject_Z (2 ^ (bits + 1)) * u == inject_Z (2 ^ bits) * pow2 (e - bits + 1).
Proof.
  rewrite pow_twice, inject_Z_mult. unfold u. rewrite pow2_S. change (inject_Z 2) with 2. ring.
Qed.

Lemma r_holds : holds (bits + 1) r.
Proof.
  pose proof n_range as [A B]. pose proof pow_twice as P.
  assert (0 < 2 ^ bits)%Z as Q by (apply Z.pow_pos_nonneg; lia).
  destruct (Z.eq_dec n (2 ^ (bits + 1))) as [E|N].
  - exists (2 ^ bits)%Z, (e - bits + 1)%Z. split; [unfold r; rewrite E; exact top_u|].
    rewrite Z.abs_eq; lia.
  - exists n, (e - bits)%Z. split; [reflexivity|]. rewrite Z.abs_eq; lia.
Qed.

Lemma r_even : Z.even n = true -> holds_even (bits + 1) r.
Proof.
  intros V. pose proof n_range as [A B]. pose proof pow_twice as P.
  assert (0 < 2 ^ bits)%Z as Q by (apply Z.pow_pos_nonneg; lia).
  replace bits with (bits + 1 - 1)%Z in Q, A by lia.
  destruct (Z.eq_dec n (2 ^ (bits + 1))) as [E|N].
  - exists (2 ^ bits)%Z, (e - bits + 1)%Z. split; [unfold r; rewrite E; exact top_u|].
    replace (bits + 1 - 1)%Z with bits in * by lia. rewrite Z.abs_eq by lia. split; [lia|exact pow_even].
  - exists n, (e - bits)%Z. split; [reflexivity|]. rewrite Z.abs_eq by lia. split; [lia|exact V].
Qed.

(** Numbers of the format are multiples of [u] or below the binade of [x]. *)
Lemma multiple_or_below z : holds (bits + 1) z -> (exists k, z == inject_Z k * u) \/ z < pow2 e.
Proof.
  intros (m & f & E & L). change (Qpower 2 f) with (pow2 f) in E.
  destruct (Z_le_gt_dec (e - bits) f) as [G|G].
  - left. exists (m * 2 ^ (f - (e - bits)))%Z. rewrite inject_Z_mult, E. unfold u.
    rewrite <- (pow2_nonneg (f - (e - bits))) by lia. rewrite <- Qmult_assoc, <- pow2_add.
    replace (f - (e - bits) + (e - bits))%Z with f by lia. reflexivity.
  - right. rewrite E. apply Qle_lt_trans with (inject_Z (2 ^ (bits + 1) - 1) * pow2 f).
    { apply Qmult_le_compat_r; [apply inject_Z_le_iff; lia|]. apply Qlt_le_weak, pow2_pos. }
    apply Qlt_le_trans with (inject_Z (2 ^ (bits + 1)) * pow2 f).
    { apply Qmult_lt_compat_r; [apply pow2_pos|]. rewrite <- Zlt_Qlt. lia. }
    rewrite <- pow2_nonneg by lia. rewrite <- pow2_add. apply pow2_mono. lia.
Qed.

Lemma dist_u k : Qabs (inject_Z k * u - x) == Qabs (inject_Z k - x / u) * u.
Proof.
  rewrite <- (Qabs_pos u) at 3 by (apply Qlt_le_weak, u_pos). rewrite <- Qabs_Qmult. apply Qabs_wd.
  pose proof u_pos. field. lra.
Qed.

Lemma r_best k : Qabs (r - x) <= Qabs (inject_Z k * u - x).
Proof.
  unfold r. rewrite !dist_u. apply Qmult_le_compat_r; [apply rint_nearest|]. apply Qlt_le_weak, u_pos.
Qed.

Lemma below z : z < pow2 e -> Qabs (r - x) < Qabs (z - x).
Proof.
  intros L. destruct (qlog2_spec x Hx) as [A _]. fold e in A.
  eapply Qle_lt_trans; [apply (r_best (2 ^ bits))|]. rewrite <- lo_u.
  rewrite (Qabs_neg (pow2 e - x)) by lra. rewrite (Qabs_neg (z - x)) by lra. lra.
Qed.

Lemma pos_nearest : nearest_even (bits + 1) x r.
Proof.
  split; [exact r_holds|]. split.
  - intros z Hz. destruct (multiple_or_below z Hz) as [(k & E)|L].
    + rewrite E. apply r_best.
    + apply Qlt_le_weak, below, L.
  - intros z Hz E N. destruct (multiple_or_below z Hz) as [(k & K)|L].
    + rewrite K in E, N. apply r_even. unfold n. apply (rint_tie (x / u) k).
      * unfold r in E. rewrite !dist_u in E. pose proof u_pos. apply Qmult_inj_r in E; [exact E|lra].
      * intros F. apply N. unfold r, n. now rewrite <- F.
    + exfalso. pose proof (below z L). lra.
Qed.

(** Numbers with a full significand have only one. *)
Lemma normal_unique m f k g : (2 ^ bits <= m < 2 ^ (bits + 1))%Z -> (2 ^ bits <= k < 2 ^ (bits + 1))%Z ->
  inject_Z m * pow2 f == inject_Z k * pow2 g -> m = k.
Proof.
  intros A B E.
  assert (forall m f k g, (2 ^ bits <= m)%Z -> (k < 2 ^ (bits + 1))%Z -> (g < f)%Z -> ~ inject_Z m * pow2 f == inject_Z k * pow2 g) as K.
  { clear m f k g A B E. intros m f k g A B L E.
    assert (inject_Z k * pow2 g < inject_Z (2 ^ (bits + 1)) * pow2 g) as C.
    { apply Qmult_lt_compat_r; [apply pow2_pos|]. rewrite <- Zlt_Qlt. lia. }
    assert (inject_Z (2 ^ bits) * pow2 f <= inject_Z m * pow2 f) as D.
    { apply Qmult_le_compat_r; [apply inject_Z_le_iff; lia|]. apply Qlt_le_weak, pow2_pos. }
    rewrite <- pow2_nonneg in C by lia. rewrite <- pow2_nonneg in D by lia. rewrite <- pow2_add in C, D.
    assert (pow2 (bits + 1 + g) <= pow2 (bits + f)) as G by (apply pow2_mono; lia). lra. }
  destruct (Z.lt_total f g) as [L|[->|L]].
  - exfalso. apply (K k g m f); [lia|lia|exact L|now symmetry].
  - pose proof (pow2_pos g) as P. apply Qmult_inj_r in E; [|lra]. now apply inject_Z_injective.
  - exfalso. apply (K m f k g); [lia|lia|exact L|exact E].
Qed.

Lemma pos_unique y : nearest_even (bits + 1) x y -> y == r.
Proof.
  intros (A & B & C). specialize (B r r_holds). pose proof u_pos as Hu.
  destruct (multiple_or_below y A) as [(k & E)|L]; [|exfalso; pose proof (below y L); lra].
  destruct (Z.eq_dec k n) as [->|N]; [exact E|exfalso].
  assert (Qabs (y - x) == Qabs (r - x)) as D by (apply Qle_antisym; [exact B|rewrite E; apply r_best]).
  assert (~ r == y) as NE.
  { intros F. apply N. rewrite E in F. unfold r in F. apply Qmult_inj_r in F; [|lra]. symmetry. now apply inject_Z_injective. }
  destruct (C r r_holds (Qeq_sym _ _ D) NE) as (m & f & Em & Rm & V). change (Qpower 2 f) with (pow2 f) in Em.
  replace (bits + 1 - 1)%Z with bits in Rm by lia.
  assert (Qabs (inject_Z k - x / u) == Qabs (inject_Z n - x / u)) as T.
  { rewrite E in D. unfold r in D. rewrite !dist_u in D. apply Qmult_inj_r in D; [exact D|lra]. }
  pose proof (rint_tie (x / u) k T N) as Ve. fold n in Ve.
  destruct (rint_bound (x / u)) as [R1 R2]. fold n in R1, R2.
  assert (k = n + 1 \/ k = n - 1)%Z as Kn.
  { assert (Qabs (inject_Z n - x / u) <= 1 # 2) as H by (apply abs_le; lra). rewrite <- T in H. apply abs_le in H.
    assert (inject_Z k <= inject_Z (n + 1)) as H1 by (rewrite inject_Z_add; change (inject_Z 1) with 1; lra).
    assert (inject_Z (n - 1) <= inject_Z k) as H2.
    { replace (n - 1)%Z with (n + - (1))%Z by lia. rewrite inject_Z_add. change (inject_Z (- (1))) with (- (1)). lra. }
    apply (proj1 (inject_Z_le_iff _ _)) in H1, H2. lia. }
  assert (Z.even k = false) as Vk.
  { destruct Kn as [-> | ->]; [rewrite Z.even_add|rewrite Z.even_sub]; rewrite Ve; reflexivity. }
  pose proof n_range as [N1 N2].
  assert (0 < 2 ^ bits)%Z as Q by (apply Z.pow_pos_nonneg; lia).
  assert (k <> 2 ^ bits - 1)%Z as Lk.
  { intros F. destruct (qlog2_spec x Hx) as [G _]. fold e in G. rewrite lo_u in G.
    assert (n = 2 ^ bits)%Z as Fn by lia. assert (inject_Z n <= x / u) as H by (rewrite Fn; apply Qle_shift_div_l; [exact Hu|lra]).
    assert (inject_Z k + 1 <= inject_Z n) as H' by (change 1 with (inject_Z 1); rewrite <- inject_Z_add; apply inject_Z_le_iff; lia).
    rewrite (Qabs_neg (inject_Z n - x / u)), (Qabs_neg (inject_Z k - x / u)) in T by lra. lra. }
  assert (k <> 2 ^ (bits + 1) + 1)%Z as Hk.
  { intros F. destruct (qlog2_spec x Hx) as [_ G]. fold e in G. rewrite hi_u in G.
    assert (n = 2 ^ (bits + 1))%Z as Fn by lia. assert (x / u <= inject_Z n) as H by (rewrite Fn; apply Qle_shift_div_r; [exact Hu|lra]).
    assert (inject_Z n + 1 <= inject_Z k) as H' by (change 1 with (inject_Z 1); rewrite <- inject_Z_add; apply inject_Z_le_iff; lia).
    rewrite (Qabs_pos (inject_Z n - x / u)), (Qabs_pos (inject_Z k - x / u)) in T by lra. lra. }
  assert (k <> 2 ^ (bits + 1))%Z as Pk.
  { intros F. rewrite F, Z.even_pow in Vk by lia. discriminate Vk. }
  assert (2 ^ bits <= k < 2 ^ (bits + 1))%Z as Rk by lia.
  assert (0 < m)%Z as Pm.
  { destruct (Z_lt_le_dec 0 m) as [H|H]; [exact H|exfalso]. pose proof (pow2_pos f) as Pf.
    assert (inject_Z m <= 0) as I by (change 0 with (inject_Z 0); now apply inject_Z_le_iff).
    assert (inject_Z m * pow2 f <= 0 * pow2 f) as J by (apply Qmult_le_compat_r; lra).
    assert (0 < inject_Z k) as I' by (change 0 with (inject_Z 0); rewrite <- Zlt_Qlt; lia).
    assert (0 * u < inject_Z k * u) as J' by (apply Qmult_lt_compat_r; lra). lra. }
  rewrite Z.abs_eq in Rm by lia.
  assert (m = k) as F by (apply (normal_unique m f k (e - bits)); [lia|exact Rk|]; rewrite <- Em; exact E).
  rewrite F, Vk in V. discriminate V.
Qed.
End Pos.

Theorem rnd_at_nearest bits x : (1 <= bits)%Z -> nearest_even (bits + 1) x (rnd_at bits x).
Proof.
  intros Hb. unfold rnd_at. destruct (Qcompare_spec x 0) as [E|L|G].
  - apply (nearest_eq _ 0 x 0 0); [now symmetry|reflexivity|]. split; [apply holds_zero; lia|]. split.
    + intros z _. change (Qabs (0 - 0)) with 0. apply Qabs_nonneg.
    + intros z _ K N. exfalso. apply N. change (Qabs (0 - 0)) with 0 in K. revert K. apply Qabs_case; intros; lra.
  - cbv zeta. refine (nearest_eq _ (- - x) x _ _ _ (Qeq_refl _) (nearest_opp _ _ _ _)); [ring|].
    apply (pos_nearest bits (- x) Hb). lra.
  - cbv zeta. exact (pos_nearest bits x Hb G).
Qed.

(** There is one such value. *)
Theorem nearest_rnd_at bits x y : (1 <= bits)%Z -> nearest_even (bits + 1) x y -> y == rnd_at bits x.
Proof.
  intros Hb H. unfold rnd_at. destruct (Qcompare_spec x 0) as [E|L|G].
  - apply (nearest_eq _ x 0 y y E (Qeq_refl y)) in H. destruct H as (_ & B & _). specialize (B 0 (holds_zero (bits + 1) ltac:(lia))).
    change (Qabs (0 - 0)) with 0 in B. revert B. apply Qabs_case; intros; lra.
  - cbv zeta. apply nearest_opp in H. apply (pos_unique bits (- x) Hb) in H; [|lra]. rewrite <- H. ring.
  - cbv zeta. exact (pos_unique bits x Hb G y H).
Qed.

Lemma rnd64_at x : rnd64 x = rnd_at 52 x.
Proof. reflexivity. Qed.

(** Two correctly rounded values of a number are equal. *)
Lemma nearest_fixed p x y : nearest_even p x y -> holds p x -> y == x.
Proof.
  intros (_ & B & _) H. specialize (B x H).
  assert (Qabs (x - x) == 0) as E by (setoid_replace (x - x) with 0 by ring; reflexivity).
  rewrite E in B. revert B. apply Qabs_case; intros; lra.
Qed.

(** What a number lies off the nearest integer is a number of the format. *)
Lemma fraction_holds p x : (1 <= p)%Z -> holds p x -> holds p (x - inject_Z (rint x)).
Proof.
  intros Hp (m & e & E & L). change (Qpower 2 e) with (pow2 e) in E.
  assert (0 < 2 ^ p)%Z as P by (apply Z.pow_pos_nonneg; lia).
  destruct (Z_le_gt_dec 0 e) as [G|G].
  - apply (holds_eq p 0); [|apply holds_zero; lia]. rewrite pow2_nonneg, <- inject_Z_mult in E by exact G.
    rewrite (rint_comp _ _ E), rint_inject, E. ring.
  - set (d := (- e)%Z). set (n := rint x).
    assert (pow2 d * pow2 e == 1) as I.
    { unfold d. apply pow2_inv. }
    destruct (rint_bound x) as [A B]. fold n in A, B.
    assert (x - inject_Z n == inject_Z (m - n * 2 ^ d) * pow2 e) as F.
    { replace (m - n * 2 ^ d)%Z with (m + - (n * 2 ^ d))%Z by lia. rewrite inject_Z_add, inject_Z_opp, inject_Z_mult.
      rewrite <- pow2_nonneg by (unfold d; lia). rewrite E.
      setoid_replace ((inject_Z m + - (inject_Z n * pow2 d)) * pow2 e) with (inject_Z m * pow2 e - inject_Z n * (pow2 d * pow2 e)) by ring.
      rewrite I. ring. }
    set (q := (m - n * 2 ^ d)%Z) in *.
    assert (2 * Z.abs q <= 2 ^ d)%Z as Q.
    { pose proof (pow2_pos e) as Pe. pose proof (pow2_pos d) as Pd.
      assert ((x - inject_Z n) * pow2 d == inject_Z q) as F' by (rewrite F, <- Qmult_assoc, (Qmult_comm (pow2 e)), I; ring).
      assert (- (1 # 2) * pow2 d <= (x - inject_Z n) * pow2 d) as A' by (apply Qmult_le_compat_r; lra).
      assert ((x - inject_Z n) * pow2 d <= (1 # 2) * pow2 d) as B' by (apply Qmult_le_compat_r; lra).
      rewrite F' in A', B'. rewrite pow2_nonneg in A', B' by (unfold d; lia).
      assert (inject_Z (2 * q) <= inject_Z (2 ^ d)) as U by (rewrite inject_Z_mult; change (inject_Z 2) with 2; lra).
      assert (inject_Z (- (2 * q)) <= inject_Z (2 ^ d)) as V by (rewrite inject_Z_opp, inject_Z_mult; change (inject_Z 2) with 2; lra).
      apply (proj1 (inject_Z_le_iff _ _)) in U, V. lia. }
    destruct (Z_le_gt_dec d p) as [D|D].
    + exists q, e. split; [exact F|]. assert (2 ^ d <= 2 ^ p)%Z by (apply Z.pow_le_mono_r; lia). lia.
    + exists m, e. split; [|exact L]. rewrite <- E.
      assert (n = 0)%Z as ->; [|change (inject_Z 0) with 0; ring].
      assert (2 ^ (p + 1) <= 2 ^ d)%Z as W by (apply Z.pow_le_mono_r; lia). rewrite Z.pow_add_r in W by lia.
      change (2 ^ 1)%Z with 2%Z in W. unfold q in Q. nia.
Qed.
