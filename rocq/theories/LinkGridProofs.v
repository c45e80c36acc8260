(** Lemmas for C78. *)
From Coq Require Import Reals.
From Verif Require Import Base BaseLemmas LinksModel LinkGridModel LinksSpec LinkGridSpec LinksProofs.
From Coq Require Import Lra ZifyBool Sorted.
Import ListNotations.
Set Default Goal Selector "!".
Local Open Scope R_scope.

(** * The grid *)

Lemma ceilR_spec x (i : Z) : (i < ceilR x)%Z <-> IZR i < x.
Proof.
  unfold ceilR. destruct (archimed (- x)) as [A B]. split; intros H.
  - assert (IZR i <= IZR (- up (- x))) as L by (apply IZR_le; lia). rewrite opp_IZR in L. lra.
  - assert (IZR (i + up (- x) - 1) < IZR 0) as K by (rewrite minus_IZR, plus_IZR; lra). apply lt_IZR in K. lia.
Qed.

Lemma axis_points_on ax v : usable ax -> In v (axis_points ax) <-> on_axis ax v.
Proof.
  destruct ax as [a z d|a z n]; cbn [usable axis_points on_axis]; intros U; rewrite in_map_iff.
  - assert (K : forall i : nat, (i < Z.to_nat (ceilR ((z - a) / d)))%nat <-> a + INR i * d < z).
    { intros i. transitivity ((Z.of_nat i < ceilR ((z - a) / d))%Z); [lia|]. rewrite ceilR_spec, <- INR_IZR_INZ.
      split; intros H.
      - apply Rmult_lt_compat_r with (r := d) in H; [|exact U]. unfold Rdiv in H.
        rewrite Rmult_assoc, Rinv_l in H by lra. lra.
      - apply Rmult_lt_reg_r with d; [exact U|]. unfold Rdiv. rewrite Rmult_assoc, Rinv_l by lra. lra. }
    split.
    + intros (i & <- & H). apply in_seq in H. exists i. split; [ring|]. rewrite Rplus_comm. apply K. lia.
    + intros (i & -> & H). exists i. split; [ring|]. apply in_seq. apply K in H. lia.
  - destruct (Nat.eqb_spec n 1) as [E|_]; [lia|].
    assert (P : 0 < INR n - 1) by (apply (le_INR 2) in U; cbn in U; lra).
    split.
    + intros (i & <- & H). apply in_seq in H. exists i. split; [lia|]. field. lra.
    + intros (i & Hi & E). exists i. split; [|apply in_seq; lia].
      apply Rmult_eq_reg_l with (INR n - 1); [|lra].
      replace ((INR n - 1) * (INR i * ((z - a) / (INR n - 1)) + a)) with (INR i * (z - a) + (INR n - 1) * a) by (field; lra).
      lra.
Qed.

Lemma mgrid_on rg g : Forall usable rg -> In g (mgrid rg) <-> on_grid rg g.
Proof.
  unfold on_grid. intros U. revert g. induction U as [|ax rg Ua U IH]; intros g; cbn [mgrid].
  - split; [intros [<-|[]]; constructor|intros H; inversion H; left; reflexivity].
  - rewrite in_flat_map. split.
    + intros (v & Hv & H). apply in_map_iff in H as (t & <- & Ht). constructor; [apply axis_points_on; assumption|].
      apply IH, Ht.
    + intros H. inversion H as [|? v ? t Hv Ht]; subst. exists v. split; [apply axis_points_on; assumption|].
      apply in_map_iff. exists t. split; [reflexivity|]. apply IH, Ht.
Qed.

Lemma best_none l : best l = None -> l = [].
Proof. destruct l as [|p l]; [reflexivity|]. cbn. destruct (best l); [destruct (Rle_dec _ _); discriminate|discriminate]. Qed.

Lemma best_least l p : best l = Some p -> In p l /\ forall q, In q l -> snd p <= snd q.
Proof.
  revert p. induction l as [|r l IH]; [discriminate|]. cbn [best]. intros p.
  destruct (best l) as [q|] eqn:E.
  - destruct (IH q eq_refl) as [I L]. destruct (Rle_dec (snd r) (snd q)) as [H|H]; intros [= <-].
    + split; [left; reflexivity|]. intros t [<-|Ht]; [lra|]. specialize (L t Ht). lra.
    + split; [right; exact I|]. intros t [<-|Ht]; [lra|]. apply L, Ht.
  - intros [= <-]. apply best_none in E as ->. split; [left; reflexivity|]. intros t [<-|[]]. lra.
Qed.

Lemma map_res_all {A B} (f : A -> res B) l y : map_res f l = Ok y ->
  (forall b, In b y -> exists a, In a l /\ f a = Ok b) /\ (forall a, In a l -> exists b, In b y /\ f a = Ok b).
Proof.
  revert y. induction l as [|a l IH]; cbn [map_res].
  - intros y [= <-]. split; intros ? [].
  - intros y. destruct (f a) as [b|] eqn:E; [|discriminate]. cbn [bind].
    destruct (map_res f l) as [t|] eqn:Et; [|discriminate]. cbn [bind]. intros [= <-].
    destruct (IH t eq_refl) as [I1 I2]. split.
    + intros c [<-|H]; [exists a; split; [left; reflexivity|exact E]|].
      destruct (I1 c H) as (a' & H' & E'). exists a'. split; [right; exact H'|exact E'].
    + intros c [<-|H]; [exists b; split; [left; reflexivity|exact E]|].
      destruct (I2 c H) as (b' & H' & E'). exists b'. split; [right; exact H'|exact E'].
Qed.

Lemma neg_ok_length x a b w v : neg_temporal_coherence x a b w = Ok v -> length x = m_ncol a.
Proof.
  unfold neg_temporal_coherence, residual, mat_dot. destruct (Nat.eqb_spec (length x) (m_ncol a)); [trivial|discriminate].
Qed.

(** * Distance to the grid *)

Lemma nearest x : 0 <= x -> exists i : nat, INR i - / 2 <= x <= INR i + / 2 /\ (forall n : nat, x <= INR n -> (i <= n)%nat).
Proof.
  intros H. destruct (archimed (x + / 2)) as [A B].
  assert (P : (0 < up (x + / 2))%Z) by (apply lt_IZR; lra).
  exists (Z.to_nat (up (x + / 2) - 1)).
  assert (E : INR (Z.to_nat (up (x + / 2) - 1)) = IZR (up (x + / 2)) - 1).
  { rewrite INR_IZR_INZ, Z2Nat.id by lia. apply minus_IZR. }
  rewrite E. split; [lra|]. intros n Hn. apply Nat2Z.inj_le. rewrite Z2Nat.id by lia.
  enough (up (x + / 2) - 1 < Z.of_nat n + 1)%Z by lia. apply lt_IZR. rewrite minus_IZR, plus_IZR, <- INR_IZR_INZ. lra.
Qed.

Lemma below x : 0 <= x -> exists i : nat, INR i <= x < INR i + 1.
Proof.
  intros H. destruct (archimed x) as [A B].
  assert (P : (0 < up x)%Z) by (apply lt_IZR; lra).
  exists (Z.to_nat (up x - 1)).
  assert (E : INR (Z.to_nat (up x - 1)) = IZR (up x) - 1) by (rewrite INR_IZR_INZ, Z2Nat.id by lia; apply minus_IZR).
  rewrite E. lra.
Qed.

(** * Resultants *)

Lemma resultant_along n w r c : big n (fun j => w j * cos (r j - c)) <= resultant n w r.
Proof.
  rewrite <- (resultant_rotate n w r (- c)). unfold resultant.
  change (fun j => w j * cos (r j - c)) with (fun j => w j * cos (r j + - c)).
  eapply Rle_trans; [apply Rle_abs|]. rewrite <- sqrt_Rsqr_abs. apply sqrt_le_1_alt. unfold Rsqr.
  set (X := big _ _). set (Y := big _ _). pose proof (pow2_ge_0 Y). nra.
Qed.

Lemma angle_exists c s : c ^ 2 + s ^ 2 = 1 -> exists t, cos t = c /\ sin t = s.
Proof.
  intros H. assert (B : -1 <= c <= 1) by (pose proof (pow2_ge_0 s); nra). pose proof PI_RGT_0 as P.
  destruct (IVT_cor (fun t => cos t - c) 0 PI) as (t & [T1 T2] & E).
  - apply continuity_minus; [apply continuity_cos|apply continuity_const; intros ? ?; reflexivity].
  - lra.
  - rewrite cos_0, cos_PI. nra.
  - assert (C : cos t = c) by lra. pose proof (sin_ge_0 t T1 T2) as S0. pose proof (sin2_cos2 t) as Q. unfold Rsqr in Q.
    rewrite C in Q. assert (Z : (sin t - s) * (sin t + s) = 0) by lra. apply Rmult_integral in Z as [Z|Z].
    + exists t. split; [exact C|lra].
    + exists (- t). rewrite cos_neg, sin_neg. split; [exact C|lra].
Qed.

Lemma resultant_direction n w r : exists t, resultant n w r = big n (fun j => w j * cos (r j - t)).
Proof.
  set (C := big n (fun j => w j * cos (r j))). set (S := big n (fun j => w j * sin (r j))).
  assert (Q : resultant n w r ^ 2 = C ^ 2 + S ^ 2) by apply resultant_sq.
  assert (E : forall t, big n (fun j => w j * cos (r j - t)) = cos t * C + sin t * S).
  { intros t. rewrite (big_ext n _ (fun j => cos t * (w j * cos (r j)) + sin t * (w j * sin (r j))))
      by (intros; rewrite cos_minus; ring). rewrite big_plus, !big_scal. reflexivity. }
  set (R := resultant n w r) in *. pose proof (resultant_nonneg n w r) as P. fold R in P.
  destruct (Req_dec R 0) as [Z|Z].
  - exists 0. rewrite E, cos_0, sin_0, Z. rewrite Z in Q. pose proof (pow2_ge_0 C). pose proof (pow2_ge_0 S).
    assert (C ^ 2 = 0) as C0 by lra. assert (C * C = 0) as C1 by lra. apply Rmult_integral in C1. lra.
  - destruct (angle_exists (C / R) (S / R)) as (t & Ct & St).
    { replace ((C / R) ^ 2 + (S / R) ^ 2) with ((C ^ 2 + S ^ 2) / R ^ 2) by (field; lra). rewrite <- Q. field. lra. }
    exists t. rewrite E, Ct, St. replace (C / R * C + S / R * S) with ((C ^ 2 + S ^ 2) / R) by (field; lra).
    rewrite <- Q. field. lra.
Qed.

(** * Angles *)

Lemma cos_within x t : Rabs x <= t -> t <= PI -> cos t <= cos x.
Proof.
  intros H T. pose proof (Rabs_pos x).
  replace (cos x) with (cos (Rabs x)) by (unfold Rabs; destruct (Rcase_abs x); [apply cos_neg|reflexivity]).
  destruct (Req_dec (Rabs x) t) as [->|N]; [lra|]. apply Rlt_le, cos_decreasing_1; lra.
Qed.

Lemma cos_outside x t : 0 <= t <= PI -> (forall k : Z, ~ Rabs (x - 2 * PI * IZR k) <= t) -> cos x <= cos t.
Proof.
  intros T N. pose proof PI_RGT_0 as P.
  set (y := (x + PI) / (2 * PI)). destruct (archimed y) as [A B]. set (k := (up y - 1)%Z).
  specialize (N k). assert (Ek : IZR k = IZR (up y) - 1) by apply minus_IZR.
  assert (Ey : x = 2 * PI * y - PI) by (unfold y; field; lra).
  set (z := x - 2 * PI * IZR k) in *.
  assert (L1 : 0 <= 2 * PI * (y - IZR k)) by (apply Rmult_le_pos; lra).
  assert (L2 : 0 < 2 * PI * (1 - (y - IZR k)) \/ y - IZR k = 1).
  { destruct (Req_dec (y - IZR k) 1); [right; assumption|]. left. apply Rmult_lt_0_compat; lra. }
  assert (Z : - PI <= z <= PI).
  { unfold z. rewrite Ey. split; [lra|]. destruct L2 as [L2|L2]; [lra|].
    replace (2 * PI * y - PI - 2 * PI * IZR k) with (2 * PI * (y - IZR k) - PI) by ring. rewrite L2. lra. }
  destruct (turn_cos_sin z k) as [Cz _]. replace (z + 2 * PI * IZR k) with x in Cz by (unfold z; ring). rewrite Cz.
  assert (H : t < Rabs z) by lra.
  replace (cos z) with (cos (Rabs z)) by (unfold Rabs; destruct (Rcase_abs z); [apply cos_neg|reflexivity]).
  assert (Rabs z <= PI) by (apply Rabs_le; lra).
  apply Rlt_le, cos_decreasing_1; lra.
Qed.

Lemma big_abs n f : Rabs (big n f) <= big n (fun i => Rabs (f i)).
Proof.
  induction n as [|n IH]; cbn [big]; [rewrite Rabs_R0; lra|].
  eapply Rle_trans; [apply Rabs_triang|]. lra.
Qed.

Lemma mass_big n w P : mass n w P = big n (fun j => if P j then w j else 0).
Proof. induction n as [|n IH]; [reflexivity|]. cbn. rewrite IH. reflexivity. Qed.

(** * Order *)

Lemma seq_sorted (f : nat -> R) n : (forall i j, (i < j)%nat -> f i < f j) ->
  forall k, StronglySorted Rlt (map f (seq k n)).
Proof.
  intros H. induction n as [|n IH]; intros k; cbn; constructor; [apply IH|].
  apply Forall_map, Forall_forall. intros i Hi. apply in_seq in Hi. apply H. lia.
Qed.

Lemma axis_sorted ax : rising ax -> StronglySorted Rlt (axis_points ax).
Proof.
  assert (K : forall d c, 0 < d -> forall i j, (i < j)%nat -> INR i * d + c < INR j * d + c).
  { intros d c P i j L. apply lt_INR in L. apply Rplus_lt_compat_r, Rmult_lt_compat_r; assumption. }
  destruct ax as [a z d|a z n]; cbn [rising axis_points]; intros H.
  - apply (seq_sorted (fun i => INR i * d + a)), K, H.
  - destruct H as [N L]. destruct (Nat.eqb_spec n 1); [lia|].
    apply (seq_sorted (fun i => INR i * ((z - a) / (INR n - 1)) + a)), K.
    apply Rmult_lt_0_compat; [lra|]. apply Rinv_0_lt_compat. apply (le_INR 2) in N. cbn in N. lra.
Qed.

Lemma sorted_app {A} (P : A -> A -> Prop) l1 l2 : StronglySorted P l1 -> StronglySorted P l2 ->
  (forall x y, In x l1 -> In y l2 -> P x y) -> StronglySorted P (l1 ++ l2).
Proof.
  intros S1 S2. induction S1 as [|x l S1 IH F]; intros H; [exact S2|]. cbn. constructor.
  - apply IH. intros; apply H; [right|]; assumption.
  - apply Forall_app. split; [exact F|]. apply Forall_forall. intros y Hy. apply H; [left; reflexivity|exact Hy].
Qed.

Lemma mgrid_sorted rg : Forall rising rg -> StronglySorted lex (mgrid rg).
Proof.
  induction 1 as [|ax rg H _ IH]; cbn [mgrid]; [repeat constructor|].
  apply axis_sorted in H. induction H as [|v l S IHl F]; cbn; [constructor|].
  apply sorted_app; [|exact IHl|].
  - clear -IH. induction IH as [|g l S IH F]; cbn; constructor; [exact IH|].
    apply Forall_map. eapply Forall_impl; [|exact F]. intros h Hh. cbn. right. split; [reflexivity|exact Hh].
  - intros x y Hx Hy. apply in_map_iff in Hx as (g & <- & _). apply in_flat_map in Hy as (u & Hu & Hy).
    apply in_map_iff in Hy as (h & <- & _). left. rewrite Forall_forall in F. apply F, Hu.
Qed.

Lemma best_first l p : best l = Some p -> exists l1 l2, l = l1 ++ p :: l2 /\
  (forall q, In q l1 -> snd p < snd q) /\ (forall q, In q l2 -> snd p <= snd q).
Proof.
  revert p. induction l as [|r l IH]; [discriminate|]. cbn [best]. intros p. destruct (best l) as [q|] eqn:E.
  - destruct (Rle_dec (snd r) (snd q)) as [H|H]; intros [= <-].
    + exists [], l. split; [reflexivity|]. split; [intros ? []|]. intros t Ht.
      destruct (best_least _ _ E) as [_ L]. specialize (L t Ht). lra.
    + destruct (IH q eq_refl) as (l1 & l2 & -> & A & B). exists (r :: l1), l2. split; [reflexivity|].
      split; [|exact B]. intros t [<-|Ht]; [lra|apply A, Ht].
  - intros [= <-]. apply best_none in E as ->. exists [], []. split; [reflexivity|]. split; intros ? [].
Qed.
