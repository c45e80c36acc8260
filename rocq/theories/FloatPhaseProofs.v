(** Rounded phase differences and sums. *)
From Verif Require Import Base BaseLemmas GraphModel GraphSpec McfModel McfSpec PhaseProofs
  FloatMcfModel FloatMcfSpec FloatMcfRound.
From Coq Require Import ZifyBool.
Set Default Goal Selector "!".
Local Open Scope Q_scope.

Lemma twopi_lo : 6 < twopi. Proof. reflexivity. Qed.
Lemma twopi_hi : twopi < 63 # 10. Proof. reflexivity. Qed.

Section Rd.
Context (f : Q -> Q) (u : Q) (Hf : rounding f u).

Lemma rd_nonneg : 0 <= u.
Proof.
  pose proof (rd_err f u Hf 1) as H. change (Qabs 1) with 1 in H. pose proof (Qabs_nonneg (f 1 - 1)). lra.
Qed.
Lemma rd_bound x b : - b <= x <= b -> - (u * b) <= f x - x <= u * b.
Proof.
  intros H. pose proof (rd_err f u Hf x) as E. apply abs_le in H. apply abs_le.
  apply Qle_trans with (1 := E). rewrite !(Qmult_comm u). apply Qmult_le_compat_r; [exact H|apply rd_nonneg].
Qed.
Lemma rd_zero : f 0 == 0.
Proof. pose proof (rd_bound 0 0 ltac:(lra)). lra. Qed.
End Rd.

Section Pd.
Context (f1 f2 : Q -> Q) (u : Q) (H1 : rounding f1 u) (H2 : rounding f2 u).

Lemma cycles_fl_swap p0 p1 : cycles_fl f1 f2 p1 p0 0 = (- cycles_fl f1 f2 p0 p1 0)%Z.
Proof.
  unfold cycles_fl. rewrite <- rint_opp. apply rint_comp. rewrite <- (rd_odd f2 u H2). apply (rd_eq f2 u H2).
  assert (f2 (f1 (p0 - p1) - 0) == - f2 (f1 (p1 - p0) - 0)) as ->; [|unfold Qdiv; ring].
  rewrite <- (rd_odd f2 u H2). apply (rd_eq f2 u H2).
  assert (f1 (p0 - p1) == - f1 (p1 - p0)) as ->; [|ring].
  rewrite <- (rd_odd f1 u H1). apply (rd_eq f1 u H1). ring.
Qed.

Lemma pd_fl_eq p0 p1 :
  phase_diff_fl f1 f2 p0 p1 0
  = f2 (f2 (0 + f2 (f1 (p1 - p0) - 0)) - f2 (f2 (inject_Z (cycles_fl f1 f2 p0 p1 0) * 2) * f2 (twopi / 2))).
Proof. reflexivity. Qed.

Lemma pd_fl_swap p0 p1 : phase_diff_fl f1 f2 p1 p0 0 == - phase_diff_fl f1 f2 p0 p1 0.
Proof.
  rewrite !pd_fl_eq, cycles_fl_swap. rewrite <- (rd_odd f2 u H2). apply (rd_eq f2 u H2).
  assert (f2 (f1 (p0 - p1) - 0) == - f2 (f1 (p1 - p0) - 0)) as E.
  { rewrite <- (rd_odd f2 u H2). apply (rd_eq f2 u H2).
    assert (f1 (p0 - p1) == - f1 (p1 - p0)) as ->; [|ring].
    rewrite <- (rd_odd f1 u H1). apply (rd_eq f1 u H1). ring. }
  assert (f2 (0 + f2 (f1 (p0 - p1) - 0)) == - f2 (0 + f2 (f1 (p1 - p0) - 0))) as ->.
  { rewrite <- (rd_odd f2 u H2). apply (rd_eq f2 u H2). rewrite E. ring. }
  set (k := cycles_fl f1 f2 p0 p1 0).
  assert (f2 (inject_Z (- k) * 2) == - f2 (inject_Z k * 2)) as E'.
  { rewrite <- (rd_odd f2 u H2). apply (rd_eq f2 u H2). rewrite inject_Z_opp. ring. }
  assert (f2 (f2 (inject_Z (- k) * 2) * f2 (twopi / 2)) == - f2 (f2 (inject_Z k * 2) * f2 (twopi / 2))) as ->.
  { rewrite <- (rd_odd f2 u H2). apply (rd_eq f2 u H2). rewrite E'. ring. }
  ring.
Qed.

Context (Hu : u <= 1 # 100) (M : Q).

(** The difference before the reduction, the quotient that is rounded. *)
Lemma d_near p0 p1 : - M <= p0 <= M -> - M <= p1 <= M ->
  - (u * ((402 # 100) * M)) <= f2 (f1 (p1 - p0) - 0) - (p1 - p0) <= u * ((402 # 100) * M).
Proof.
  intros A B. pose proof (rd_nonneg f1 u H1) as Hn. assert (0 <= M) as HM by lra.
  pose proof (rd_bound f1 u H1 (p1 - p0) (2 * M) ltac:(lra)) as E1.
  assert (0 <= u * M <= M * (1 # 100)) as Hum by nra.
  pose proof (rd_bound f2 u H2 (f1 (p1 - p0) - 0) ((202 # 100) * M) ltac:(lra)) as E2.
  lra.
Qed.

Lemma q_near p0 p1 : - M <= p0 <= M -> - M <= p1 <= M ->
  - (u * (2 * M)) <= f2 (f2 (f1 (p1 - p0) - 0) / f2 twopi) - (p1 - p0) / twopi <= u * (2 * M).
Proof.
  intros A B. pose proof (rd_nonneg f1 u H1) as Hn. assert (0 <= M) as HM by lra.
  pose proof (d_near p0 p1 A B) as E1. set (d := f2 (f1 (p1 - p0) - 0)) in *. clearbody d.
  assert (0 <= u * M <= M * (1 # 100)) as Hum by nra.
  pose proof twopi_lo as L. pose proof twopi_hi as L'.
  pose proof (rd_bound f2 u H2 twopi twopi ltac:(lra)) as E2. set (t := f2 twopi) in *. clearbody t.
  assert (0 <= u * twopi <= twopi * (1 # 100)) as Hut by nra.
  assert (0 < t) as Ht by lra.
  set (D := p1 - p0) in *. assert (- (2 * M) <= D <= 2 * M) as HD by (unfold D; lra). clearbody D. clear A B.
  assert (D == (D / twopi) * twopi) as F by (field; lra).
  assert (d == (d / t) * t) as F' by (field; lra).
  set (x := D / twopi) in *. set (q := d / t) in *. clearbody x q.
  (* sizes *)
  assert (- (M * (35 # 100)) <= x <= M * (35 # 100)) as Hx by nra.
  assert (- (M * (35 # 100)) <= q <= M * (35 # 100)) as Hq.
  { assert ((594 # 100) <= t) by lra.
    assert (- ((205 # 100) * M) <= q * t <= (205 # 100) * M) by lra. nra. }
  pose proof (rd_bound f2 u H2 q (M * (35 # 100)) Hq) as E3.
  (* q * twopi - x * twopi = (q t - d) + ... *)
  assert (q * twopi - x * twopi == (d - D) - q * (t - twopi)) as G by lra.
  assert (- (u * twopi * (M * (35 # 100))) <= q * (t - twopi) <= u * twopi * (M * (35 # 100))) as G'.
  { assert (0 <= u * twopi) by lra. nra. }
  assert (- (u * M * (63 # 10)) <= u * twopi * M <= u * M * (63 # 10)) as G'' by nra.
  assert (- (u * (M * (12 # 10))) <= q - x <= u * (M * (12 # 10))) as G3 by nra.
  lra.
Qed.

Lemma cycles_bound p0 p1 : - M <= p0 <= M -> - M <= p1 <= M ->
  - ((23 # 10) * M + (32 # 10)) <= twopi * inject_Z (cycles_fl f1 f2 p0 p1 0) <= (23 # 10) * M + (32 # 10).
Proof.
  intros A B. pose proof (q_near p0 p1 A B) as E. pose proof (rd_nonneg f1 u H1) as Hn. assert (0 <= M) as HM by lra.
  unfold cycles_fl. set (y := f2 _) in *. pose proof (rint_bound y) as R. set (k := inject_Z (rint y)) in *.
  clearbody k y. pose proof twopi_lo as L. pose proof twopi_hi as L'.
  assert (0 <= u * M <= M * (1 # 100)) as Hum by nra.
  set (D := p1 - p0) in *. assert (- (2 * M) <= D <= 2 * M) as HD by (unfold D; lra). clearbody D. clear A B.
  assert (D == (D / twopi) * twopi) as F by (field; lra). set (x := D / twopi) in *. clearbody x.
  assert (- ((2 # 100) * M + (1 # 2)) <= k - x <= (2 # 100) * M + (1 # 2)) as G by lra.
  nra.
Qed.

Theorem pd_fl_near p0 p1 : - M <= p0 <= M -> - M <= p1 <= M ->
  let e := 20 * u * (M + 1) in
  - e <= phase_diff_fl f1 f2 p0 p1 0 - (p1 - p0 - twopi * inject_Z (cycles_fl f1 f2 p0 p1 0)) <= e.
Proof.
  intros A B. cbv zeta. pose proof (cycles_bound p0 p1 A B) as HK. rewrite pd_fl_eq.
  pose proof (d_near p0 p1 A B) as E1. set (d := f2 (f1 (p1 - p0) - 0)) in *. clearbody d.
  set (k := inject_Z (cycles_fl f1 f2 p0 p1 0)) in *. clearbody k.
  set (Y := (23 # 10) * M + (32 # 10)) in *.
  pose proof (rd_nonneg f1 u H1) as Hn. assert (0 <= M) as HM by lra.
  assert (0 <= u * M <= M * (1 # 100)) as Hum by nra.
  assert (0 <= u * Y <= Y * (1 # 100)) as HuY by (unfold Y; lra).
  pose proof twopi_lo as L. pose proof twopi_hi as L'.
  set (D := p1 - p0) in *. assert (- (2 * M) <= D <= 2 * M) as HD by (unfold D; lra). clearbody D. clear A B.
  pose proof (rd_bound f2 u H2 (0 + d) ((205 # 100) * M) ltac:(lra)) as E2. set (a := f2 (0 + d)) in *. clearbody a.
  (* the product *)
  assert (- Y <= twopi * k <= Y) as HY by exact HK.
  assert (exists y, - Y <= y * twopi <= Y /\ - y <= k <= y) as (y & Hy & Hk).
  { destruct (Qlt_le_dec k 0); [exists (- k)|exists k]; split; lra. }
  pose proof (rd_bound f2 u H2 (k * 2) (y * 2) ltac:(lra)) as E3. set (z1 := f2 (k * 2)) in *. clearbody z1.
  assert (twopi / 2 == twopi * (1 # 2)) as Eh by field.
  pose proof (rd_bound f2 u H2 (twopi / 2) (twopi / 2) ltac:(lra)) as E4. set (h := f2 (twopi / 2)) in *. clearbody h.
  rewrite Eh in E4. clear Eh.
  assert (0 <= y) as Hy0 by lra.
  assert (0 <= u * y) as Huy by nra.
  assert (0 <= u * y * twopi <= u * Y) as Huyt by nra.
  assert (- ((21 # 10) * (u * Y)) <= z1 * h - twopi * k <= (21 # 10) * (u * Y)) as E5.
  { assert (z1 * h - twopi * k == (z1 - k * 2) * h + k * 2 * (h - twopi * (1 # 2))) as -> by ring.
    assert (- ((102 # 100) * (u * Y)) <= (z1 - k * 2) * h <= (102 # 100) * (u * Y)) as P1.
    { assert (0 <= h <= twopi * (51 # 100)) as Hh by nra.
      assert (0 <= u * y * h <= u * y * (twopi * (51 # 100))) by nra.
      nra. }
    assert (- (u * Y) <= k * 2 * (h - twopi * (1 # 2)) <= u * Y) as P2.
    { assert (0 <= u * twopi) by nra.
      assert (- (y * 2 * (u * (twopi * (1 # 2)))) <= k * 2 * (h - twopi * (1 # 2)) <= y * 2 * (u * (twopi * (1 # 2)))) by nra.
      lra. }
    lra. }
  pose proof (rd_bound f2 u H2 (z1 * h) ((103 # 100) * Y) ltac:(lra)) as E6.
  set (z2 := f2 (z1 * h)) in *. clearbody z2.
  pose proof (rd_bound f2 u H2 (a - z2) ((21 # 10) * M + (105 # 100) * Y) ltac:(lra)) as E7.
  set (r := f2 (a - z2)) in *. clearbody r.
  unfold Y in *. lra.
Qed.

(** Size of the reduced difference. *)
Lemma pd_ideal_bound p0 p1 : - M <= p0 <= M -> - M <= p1 <= M ->
  - (5 * (M + 1)) <= p1 - p0 - twopi * inject_Z (cycles_fl f1 f2 p0 p1 0) <= 5 * (M + 1).
Proof. intros A B. pose proof (cycles_bound p0 p1 A B). lra. Qed.

(** Away from half a cycle the same number of cycles is removed. *)
Lemma rint_stable x y e : - e <= y - x <= e ->
  (forall j : Z, e < Qabs (x - (inject_Z j + (1 # 2)))) -> rint y = rint x.
Proof.
  intros Hxy Ht. pose proof (rint_bound x) as R. set (k := rint x) in *.
  assert (0 <= e) as He by lra.
  assert (x - inject_Z k < (1 # 2) - e) as A.
  { destruct (Qlt_le_dec (x - inject_Z k) ((1 # 2) - e)) as [|N]; auto. exfalso.
    specialize (Ht k). assert (Qabs (x - (inject_Z k + (1 # 2))) <= e); [apply abs_le; lra|lra]. }
  assert (e - (1 # 2) < x - inject_Z k) as B.
  { destruct (Qlt_le_dec (e - (1 # 2)) (x - inject_Z k)) as [|N]; auto. exfalso.
    specialize (Ht (k - 1)%Z). rewrite inject_Z_sub in Ht. change (inject_Z 1) with 1 in Ht.
    assert (Qabs (x - (inject_Z k - 1 + (1 # 2))) <= e); [apply abs_le; lra|lra]. }
  apply rint_unique. lra.
Qed.

Theorem cycles_off_tie p0 p1 : - M <= p0 <= M -> - M <= p1 <= M ->
  off_tie (13 * u * M) p0 p1 -> cycles_fl f1 f2 p0 p1 0 = pd_cycles p0 p1 0.
Proof.
  intros A B Ht. unfold pd_cycles. rewrite (rint_comp ((p1 - p0 - 0) / twopi) ((p1 - p0) / twopi)) by (apply Qmult_comp; [ring|reflexivity]).
  unfold cycles_fl. apply (rint_stable _ _ (u * (2 * M))); [now apply q_near|].
  intros j. specialize (Ht j). pose proof twopi_lo as L. pose proof twopi_hi as L'.
  pose proof (rd_nonneg f1 u H1) as Hn. assert (0 <= M) as HM by lra.
  assert (0 <= u * M) as Hum by nra.
  set (w := inject_Z j + (1 # 2)) in *. set (D := p1 - p0) in *. clearbody D w.
  assert (D - twopi * w == twopi * (D / twopi - w)) as E by (field; lra).
  rewrite E, Qabs_Qmult, (Qabs_pos twopi) in Ht by lra.
  set (z := Qabs (D / twopi - w)) in *. clearbody z.
  assert (0 <= u * (2 * M)) by nra.
  destruct (Qlt_le_dec (u * (2 * M)) z) as [|N]; auto. exfalso. nra.
Qed.
End Pd.

(** * Sums *)
Lemma fold_near (add : Q -> Q -> Q) (w gamma c : Q) (n : nat) :
  adds add w -> 0 <= w -> 0 <= gamma -> 0 <= c ->
  let N := inject_Z (Z.of_nat n) in
  let e := gamma + w * ((N + 1) * c + 2) in
  N * e <= 1 -> gamma <= 1 ->
  forall (l : list (Q * Q)), (length l <= n)%nat ->
  (forall v V, In (v, V) l -> - gamma <= v - V <= gamma /\ - c <= V <= c) ->
  let r := fold_left add (map fst l) 0 in
  - (N * e) <= r - sumQ (map snd l) <= N * e.
Proof.
  intros Hadd Hw Hg Hc N e HN Hg1 l HL Hl r.
  assert (0 <= N) as HN0 by (unfold N; change 0 with (inject_Z 0); apply inject_Z_le_iff; lia).
  assert (0 <= e) as He.
  { unfold e. assert (0 <= (N + 1) * c) by nra. nra. }
  assert (forall l2 l1 acc, (length l1 + length l2 <= n)%nat ->
    (forall v V, In (v, V) (l1 ++ l2) -> - gamma <= v - V <= gamma /\ - c <= V <= c) ->
    let k1 := inject_Z (Z.of_nat (length l1)) in
    - (k1 * c) <= sumQ (map snd l1) <= k1 * c ->
    - (k1 * e) <= acc - sumQ (map snd l1) <= k1 * e ->
    let k := inject_Z (Z.of_nat (length l1 + length l2)) in
    - (k * e) <= fold_left add (map fst l2) acc - sumQ (map snd (l1 ++ l2)) <= k * e) as K.
  { induction l2 as [|[v V] l2 IH]; intros l1 acc Hlen Hin k1 Hs Ha; cbn [map fst fold_left].
    - cbv zeta. rewrite app_nil_r, Nat.add_0_r. exact Ha.
    - cbn [length] in Hlen.
      assert (inject_Z (Z.of_nat (length (l1 ++ [(v, V)]))) == k1 + 1) as Ek.
      { rewrite app_length. cbn [length]. rewrite Nat2Z.inj_add, inject_Z_add. reflexivity. }
      assert (sumQ (map snd (l1 ++ [(v, V)])) == sumQ (map snd l1) + V) as Es.
      { rewrite map_app, sumQ_app. cbn [map snd]. rewrite sumQ_cons, sumQ_nil. ring. }
      destruct (Hin v V) as [Hv HV]; [apply in_app_iff; right; now left|].
      assert (0 <= k1 <= N - 1) as Hk1.
      { unfold k1, N. split; [change 0 with (inject_Z 0); apply inject_Z_le_iff; lia|].
        change 1 with (inject_Z 1). rewrite <- inject_Z_sub. apply inject_Z_le_iff. lia. }
      assert (k1 * e <= N * e) as Hke by nra.
      assert (k1 * c <= (N - 1) * c) as Hkc by nra.
      pose proof (Hadd acc v) as Hav.
      assert (Qabs acc <= (N - 1) * c + 1) as A1 by (apply abs_le; lra).
      assert (Qabs v <= c + 1) as A2 by (apply abs_le; lra).
      assert (w * (Qabs acc + Qabs v) <= w * ((N + 1) * c + 2)) as A3.
      { rewrite !(Qmult_comm w). apply Qmult_le_compat_r; [|exact Hw]. lra. }
      assert (Qabs (add acc v - (acc + v)) <= w * ((N + 1) * c + 2)) as A4 by lra.
      apply abs_le in A4.
      specialize (IH (l1 ++ [(v, V)]) (add acc v)).
      rewrite <- app_assoc in IH. cbn [app] in IH.
      assert (length (l1 ++ [(v, V)]) + length l2 = length l1 + length ((v, V) :: l2))%nat as EL
        by (rewrite app_length; cbn [length]; lia).
      rewrite EL in IH. apply IH.
      + cbn [length]. lia.
      + exact Hin.
      + rewrite Ek, Es. lra.
      + rewrite Ek, Es. unfold e in *. lra. }
  specialize (K l [] 0). cbn [length app map Nat.add] in K.
  assert (- (inject_Z (Z.of_nat (length l)) * e) <= r - sumQ (map snd l) <= inject_Z (Z.of_nat (length l)) * e) as R.
  { apply K; auto; rewrite ?sumQ_nil; change (inject_Z (Z.of_nat 0)) with 0; lra. }
  assert (inject_Z (Z.of_nat (length l)) <= N) as Hle by (apply inject_Z_le_iff; lia).
  assert (inject_Z (Z.of_nat (length l)) * e <= N * e) by (apply Qmult_le_compat_r; auto). lra.
Qed.

(** Rounding the sum to cycles. *)
Lemma rint_sum (fe : Q -> Q) (w t s : Q) (R : Z) :
  rounding fe w -> w <= 1 # 100 -> - (w * twopi) <= t - twopi <= w * twopi ->
  - 1 <= s - twopi * inject_Z R <= 1 -> w * Qabs (twopi * inject_Z R) <= 1 # 4 ->
  rint (fe (s / t)) = R.
Proof.
  intros Hf Hw Ht Hs HR. pose proof (rd_nonneg fe w Hf) as Hn. pose proof twopi_lo as L. pose proof twopi_hi as L'.
  set (r := inject_Z R) in *. set (A := Qabs (twopi * r)) in *.
  assert (0 <= A) as HA by apply Qabs_nonneg.
  assert (- A <= twopi * r <= A) as Hr by (apply abs_le; unfold A; lra).
  assert (0 <= w * twopi <= twopi * (1 # 100)) as Hwt by nra.
  assert (0 < t) as Ht0 by lra.
  assert (s == (s / t) * t) as Es by (field; lra). 
  apply rint_unique. fold r. set (q := s / t) in *. clearbody q r A.
  assert ((594 # 100) <= t) as Ht1 by lra.
  assert (- ((A + 1) * (17 # 100)) <= q <= (A + 1) * (17 # 100)) as Hq by nra.
  pose proof (rd_bound fe w Hf q _ Hq) as E.
  (* q - r *)
  assert (twopi * (q - r) == (s - twopi * r) - q * (t - twopi)) as G by lra.
  assert (- (w * twopi * ((A + 1) * (17 # 100))) <= q * (t - twopi) <= w * twopi * ((A + 1) * (17 # 100))) as G1.
  { assert (0 <= (A + 1) * (17 # 100)) by lra. nra. }
  assert (0 <= w * (A + 1) <= (26 # 100)) as HwA by nra.
  assert (- ((26 # 100) * (17 # 100) * twopi) <= q * (t - twopi) <= (26 # 100) * (17 # 100) * twopi) as G2 by nra.
  assert (- (28 # 100) < q - r < 28 # 100) as G3.
  { assert (- (1 + (26 # 100) * (17 # 100) * twopi) <= twopi * (q - r) <= 1 + (26 # 100) * (17 # 100) * twopi) by lra. nra. }
  lra.
Qed.

Lemma rounding_adds fe w : rounding fe w -> adds (fun a v => fe (a + v)) w.
Proof.
  intros H a v. pose proof (rd_err fe w H (a + v)) as E. apply Qle_trans with (1 := E).
  rewrite !(Qmult_comm w). apply Qmult_le_compat_r; [apply Qabs_triangle|apply (rd_nonneg fe w H)].
Qed.

Lemma near_half f1 f2 u M p0 p1 : rounding f1 u -> rounding f2 u -> u <= 1 # 100 ->
  - M <= p0 <= M -> - M <= p1 <= M ->
  Qabs (p1 - p0 - twopi * inject_Z (cycles_fl f1 f2 p0 p1 0)) <= half + 13 * u * M.
Proof.
  intros H1 H2 Hu A B. pose proof (q_near f1 f2 u H1 H2 Hu M p0 p1 A B) as E. unfold cycles_fl.
  set (y := f2 _) in *. pose proof (rint_bound y) as R. set (k := inject_Z (rint y)) in *. clearbody k y.
  pose proof twopi_lo as T. pose proof twopi_hi as T'. pose proof (rd_nonneg f1 u H1) as Hn.
  assert (0 <= M) by lra. assert (0 <= u * M) by nra.
  set (D := p1 - p0) in *. clearbody D.
  assert (D - twopi * k == twopi * (D / twopi - k)) as -> by (field; lra).
  apply abs_le. unfold half. set (z := D / twopi - k).
  assert (- ((1 # 2) + 2 * (u * M)) <= z <= (1 # 2) + 2 * (u * M)) as Z by (unfold z; lra).
  assert (13 * u * M == 13 * (u * M)) as E13 by ring. rewrite E13. clearbody z. set (W := u * M) in *. clearbody W.
  assert (twopi * (2 * W) <= 13 * W) by nra.
  assert (twopi * z <= twopi * ((1 # 2) + 2 * W)) by (rewrite !(Qmult_comm twopi); apply Qmult_le_compat_r; lra).
  assert (twopi * (- ((1 # 2) + 2 * W)) <= twopi * z) by (rewrite !(Qmult_comm twopi); apply Qmult_le_compat_r; lra).
  lra.
Qed.
