(** The choice of cuts by score. *)
From Verif Require Import Base BaseLemmas TileModel TileSpec TileProofs DensitySpec DensityProofs ScoreModel.
From Coq Require Import List ZifyBool Reals Qreals Lra Lia.
Import ListNotations.
Set Default Goal Selector "!".
Local Open Scope R_scope.

Lemma argmin_from_idx best bi i l : (bi < i)%nat -> (fst (argmin_from best bi i l) < i + length l)%nat.
Proof.
  revert best bi i. induction l as [|s l IH]; intros best bi i H; cbn [argmin_from]; [cbn; lia|].
  destruct best as [v|]; [|cbn; lia]. destruct s as [w|]; [|cbn; lia].
  destruct (Rlt_dec w v); (eapply Nat.lt_le_trans; [apply IH; lia|cbn; lia]).
Qed.
Lemma argmin_idx l : l <> [] -> (fst (argmin l) < length l)%nat.
Proof. destruct l as [|s l]; [easy|]. intros _. cbn [argmin length]. eapply Nat.lt_le_trans; [apply argmin_from_idx; lia|lia]. Qed.

Lemma get_splits_length z m b cuts : (1 <= m)%nat -> get_splits z m b = Ok cuts -> length cuts = S m.
Proof. intros Hm. unfold get_splits. destruct (Nat.eqb _ 0); [discriminate|]. intros E. injection E as <-. cbn [length]. rewrite app_length, map_length, seq_length. cbn. lia. Qed.
Lemma lens_length cuts : length (lens cuts) = (length cuts - 1)%nat.
Proof. unfold lens. now rewrite map_length, seq_length. Qed.

Lemma find_best_idx lc lo m : (2 <= length lc)%nat -> (1 <= fst (find_best_split lc lo m) <= length lc - 1)%nat.
Proof.
  intros H. unfold find_best_split. assert (length (split_scores lc lo m) = length lc - 1)%nat as L by (unfold split_scores; now rewrite map_length, seq_length).
  pose proof (argmin_idx (split_scores lc lo m)) as A. destruct (argmin _) as [k s]. cbn [fst] in *.
  assert (split_scores lc lo m <> []) as N by (intros K; rewrite K in L; cbn in L; lia). specialize (A N). lia.
Qed.

Theorem pick_scores_range : picks_in_range pick_scores.
Proof.
  intros pts b m Hm. unfold pick_scores.
  destruct (get_splits _ m (fst b)) as [cx|] eqn:Ex; [|cbn; lia]. destruct (get_splits _ m (snd b)) as [cy|] eqn:Ey; [|cbn; lia].
  apply get_splits_length in Ex, Ey; try lia.
  pose proof (find_best_idx (lens cx) (lens cy) m ltac:(rewrite lens_length; lia)) as A.
  pose proof (find_best_idx (lens cy) (lens cx) m ltac:(rewrite lens_length; lia)) as B. rewrite lens_length in A, B.
  destruct (find_best_split (lens cx) _ m) as [xi xs], (find_best_split (lens cy) _ m) as [yi ys]. cbn [fst] in A, B.
  destruct xs, ys; try destruct (Rle_dec _ _); cbn [snd]; lia.
Qed.

(** ** Scores *)
Lemma sqrt_ge_abs x y : 0 <= x -> x ^ 2 <= y -> x <= sqrt y.
Proof. intros Hx H. rewrite <- (sqrt_pow2 x Hx). apply sqrt_le_1_alt. exact H. Qed.
Lemma sqrt_le_abs x y : 0 <= x -> y <= x ^ 2 -> sqrt y <= x.
Proof. intros Hx H. rewrite <- (sqrt_pow2 x Hx). apply sqrt_le_1_alt. exact H. Qed.
Lemma score_ge a b m s : 0 < b -> score a b m = Some s -> b <= s.
Proof.
  intros Hb. unfold score. destruct (Req_EM_T b 0); [lra|]. intros E. injection E as <-. unfold rect_cost.
  set (ii := Rmax 1 _). assert (1 <= ii) as Hi by apply Rmax_l. clearbody ii.
  apply sqrt_ge_abs; [lra|]. pose proof (pow2_ge_0 (a * INR m / ii)). assert (b ^ 2 <= (b * ii) ^ 2); [|lra].
  apply pow_incr. split; [lra|]. pose proof (Rmult_le_compat_l b 1 ii ltac:(lra) Hi). lra.
Qed.
Lemma score_some a b m : 0 < b -> exists s, score a b m = Some s.
Proof. intros Hb. unfold score. destruct (Req_EM_T b 0); [lra|]. eauto. Qed.

Lemma argmin3 a b c : argmin [Some a; Some b; Some c] = (0%nat, Some a) /\ a <= b /\ a <= c \/ argmin [Some a; Some b; Some c] = (1%nat, Some b) /\ b < a /\ b <= c \/
  argmin [Some a; Some b; Some c] = (2%nat, Some c) /\ c < a /\ c < b.
Proof.
  cbn [argmin argmin_from]. destruct (Rlt_dec b a); cbn [argmin_from].
  - destruct (Rlt_dec c b); [right; right; repeat split; lra|right; left; repeat split; lra].
  - destruct (Rlt_dec c a); [right; right; repeat split; lra|left; repeat split; lra].
Qed.

(** Four pieces. *)
Lemma split4_scores c0 c1 c2 c3 c4 lo : split_scores (lens [c0; c1; c2; c3; c4]) lo 4 =
  [plus_nan (score (Q2R c1 - Q2R c0) (Rsum lo) 1) (score (Q2R c4 - Q2R c1) (Rsum lo) 3);
   plus_nan (score (Q2R c2 - Q2R c0) (Rsum lo) 2) (score (Q2R c4 - Q2R c2) (Rsum lo) 2);
   plus_nan (score (Q2R c3 - Q2R c0) (Rsum lo) 3) (score (Q2R c4 - Q2R c3) (Rsum lo) 1)].
Proof.
  unfold split_scores, lens, Rsum. cbn [length Nat.sub seq map nth firstn skipn fold_right].
  repeat (apply f_equal2; [apply f_equal2; apply f_equal3; ring || reflexivity|]). reflexivity.
Qed.
Lemma lens4_sum c0 c1 c2 c3 c4 : Rsum (lens [c0; c1; c2; c3; c4]) = Q2R c4 - Q2R c0.
Proof. unfold lens, Rsum. cbn [length Nat.sub seq map nth fold_right]. ring. Qed.

Lemma get_splits4 z b : (4 <= length z)%nat -> exists c1 c2 c3, get_splits z 4 b = Ok [fst b; c1; c2; c3; snd b] /\
  (forall c, (forall v, In v z -> v = c) -> (c1 == inject_Z c /\ c2 == inject_Z c /\ c3 == inject_Z c)%Q).
Proof.
  intros H. unfold get_splits. assert (length z / 4 <> 0)%nat as N by (apply Nat.neq_0_lt_0, Nat.div_str_pos; lia).
  destruct (Nat.eqb_spec (length z / 4) 0) as [|_]; [lia|]. cbn [Nat.sub seq map app]. do 3 eexists. split; [reflexivity|].
  intros c Hc. set (n := (length z / 4)%nat) in *. pose proof (Nat.mul_div_le (length z) 4 ltac:(lia)) as M. fold n in M.
  assert (forall k, (k < length z)%nat -> nth k z 0%Z = c) as K by (intros k Hk; apply Hc, nth_In; exact Hk).
  rewrite !K by lia. repeat split; unfold Qeq, Qdiv, Qmult, Qinv, inject_Z; cbn -[Z.mul]; lia.
Qed.

Lemma Q2R_inject z : Q2R (inject_Z z) = IZR z.
Proof. unfold Q2R, inject_Z. cbn. lra. Qed.

Section OneRow.
  Variables (r W : Z) (pts : list (Z * Z)).
  Hypotheses (HW : (1 <= W)%Z) (HrW : (2 * W <= r)%Z) (Hp : forall p, In p pts -> fst p = r) (HN : (4 <= length pts)%nat).
  Let bd : qbounds := ((0%Q, inject_Z (2 * r)), (0%Q, inject_Z W)).

  Lemma row_pick : exists i, pick_scores pts bd 4%nat = (true, i) /\ (1 <= i <= 2)%nat.
  Proof.
    unfold pick_scores.
    destruct (get_splits4 (sortZ (map fst pts)) (fst bd)) as (c1 & c2 & c3 & -> & C); [rewrite sortZ_length, map_length; lia|].
    destruct (get_splits4 (sortZ (map snd pts)) (snd bd)) as (d1 & d2 & d3 & -> & _); [rewrite sortZ_length, map_length; lia|].
    destruct (C r) as (E1 & E2 & E3). { intros v I. apply (proj1 (sortZ_In _ _)) in I. apply in_map_iff in I as (p & <- & I). auto. }
    apply Qeq_eqR in E1, E2, E3. rewrite Q2R_inject in E1, E2, E3.
    unfold find_best_split. rewrite !split4_scores, !lens4_sum. unfold bd. cbn [fst snd]. rewrite E1, E2, E3, !Q2R_inject.
    replace (Q2R 0) with 0 by (unfold Q2R; cbn; lra). rewrite mult_IZR.
    assert (1 <= IZR W) as RW by now apply IZR_le. assert (2 * IZR W <= IZR r) as Rr by (rewrite <- mult_IZR; now apply IZR_le).
    set (w := IZR W) in *. set (x := IZR r) in *. clearbody w x.
    replace (x - 0) with x by ring. replace (2 * x - x) with x by ring. replace (w - 0) with w by ring. replace (2 * x - 0) with (2 * x) by ring.
    destruct (score_some x w 1 ltac:(lra)) as (s1 & ->), (score_some x w 3 ltac:(lra)) as (s3 & ->).
    assert (score x w 2 = Some (sqrt (x ^ 2 + (2 * w) ^ 2))) as ->.
    { unfold score. destruct (Req_EM_T w 0); [lra|]. f_equal. unfold rect_cost. replace (INR 2) with 2 by (cbn; lra).
      assert (2 <= sqrt (2 * x / w)) as Hs.
      { apply sqrt_ge_abs; [lra|]. replace (2 ^ 2) with (4 * w / w) by (field; lra). unfold Rdiv. apply Rmult_le_compat_r; [left; apply Rinv_0_lt_compat; lra|lra]. }
      rewrite Rmin_left by exact Hs. rewrite Rmax_right by lra. f_equal. field. }
    cbn [plus_nan]. set (s2 := sqrt _).
    assert (s2 < 2 * x) as B2.
    { unfold s2. apply Rle_lt_trans with (3 / 2 * x); [|lra]. apply sqrt_le_abs; [lra|]. assert ((2 * w) ^ 2 <= x ^ 2) by (apply pow_incr; lra). pose proof (pow2_ge_0 x). lra. }
    assert (forall a b m, exists s t, score a (2 * x) m = Some s /\ score b (2 * x) (4 - m)%nat = Some t /\ 2 * x <= s /\ 2 * x <= t) as Y.
    { intros a b m. destruct (score_some a (2 * x) m ltac:(lra)) as (s & Es), (score_some b (2 * x) (4 - m)%nat ltac:(lra)) as (t & Et). exists s, t.
      repeat split; auto; eapply score_ge; eauto; lra. }
    destruct (Y (Q2R d1 - 0) (w - Q2R d1) 1%nat) as (t1 & t2 & -> & H1 & T1 & T2). cbn [Nat.sub] in H1. rewrite H1. clear H1.
    destruct (Y (Q2R d2 - 0) (w - Q2R d2) 2%nat) as (t3 & t4 & -> & H1 & T3 & T4). cbn [Nat.sub] in H1. rewrite H1. clear H1.
    destruct (Y (Q2R d3 - 0) (w - Q2R d3) 3%nat) as (t5 & t6 & -> & H1 & T5 & T6). cbn [Nat.sub] in H1. rewrite H1. clear H1. cbn [plus_nan].
    destruct (argmin3 (s1 + s3) (s2 + s2) (s3 + s1)) as [(-> & A & B)|[(-> & A & B)|(-> & A & B)]]; [| |lra];
    (destruct (argmin3 (t1 + t2) (t3 + t4) (t5 + t6)) as [(-> & ? & ?)|[(-> & ? & ?)|(-> & ? & ?)]]);
    (match goal with |- context [Rle_dec ?u ?v] => destruct (Rle_dec u v); [|exfalso; lra] end); eexists; (split; [reflexivity|lia]).
  Qed.
End OneRow.

(** ** All points in the middle row *)
Lemma filter_all {A} (P : A -> bool) l : (forall x, In x l -> P x = true) -> filter P l = l.
Proof. induction l as [|a l IH]; intros H; cbn; [auto|]. rewrite (H a (or_introl eq_refl)). f_equal. apply IH. intros; apply H; now right. Qed.
Lemma filter_none {A} (P : A -> bool) l : (forall x, In x l -> P x = false) -> filter P l = [].
Proof. induction l as [|a l IH]; intros H; cbn; [auto|]. rewrite (H a (or_introl eq_refl)). apply IH. intros; apply H; now right. Qed.

Lemma get_splits_ok z m b : (1 <= m <= length z)%nat -> exists cuts, get_splits z m b = Ok cuts.
Proof.
  intros H. unfold get_splits. assert (length z / m <> 0)%nat by (apply Nat.neq_0_lt_0, Nat.div_str_pos; lia).
  destruct (Nat.eqb_spec (length z / m) 0); [lia|eauto].
Qed.
Lemma split_two pick fuel pts b : picks_in_range pick -> (1 <= fuel)%nat -> (2 <= length pts)%nat -> exists r, split_rectangle pick fuel pts b 2 = Ok r.
Proof.
  intros Hpick Hf HN. destruct fuel as [|fuel]; [lia|]. cbn [split_rectangle Nat.eqb].
  destruct (get_splits_ok (sortZ (map fst pts)) 2 (fst b)) as (cx & Ex); [rewrite sortZ_length, map_length; lia|].
  destruct (get_splits_ok (sortZ (map snd pts)) 2 (snd b)) as (cy & Ey); [rewrite sortZ_length, map_length; lia|].
  destruct pts as [|p0 pts0]; [cbn in HN; lia|]. set (pts := p0 :: pts0) in *. rewrite Ex, Ey. cbn [bind].
  pose proof (Hpick pts b 2%nat ltac:(lia)) as Hi. destruct (pick pts b 2%nat) as [ux i]. cbn [snd] in Hi. assert (i = 1)%nat as -> by lia.
  destruct ux; destruct fuel; cbn; eauto.
Qed.

Theorem row_raises r W pts : (1 <= W)%Z -> (2 * W <= r)%Z -> (forall p, In p pts -> fst p = r) -> (4 <= length pts)%nat ->
  create_tiles_density pick_scores pts (2 * r, W)%Z 4 = Err ValueError.
Proof.
  intros HW HrW Hp HN. unfold create_tiles_density. cbn [fst snd].
  destruct ((2 * r <=? 0) && (W <=? 0))%Z eqn:E0; [lia|]. change (4 <=? 0)%Z with false. cbn iota. change (Z.to_nat (Z.sqrt 4 * Z.sqrt 4)) with 4%nat.
  cbn [Nat.eqb]. destruct (row_pick r W pts HW HrW Hp HN) as (i & Ep & Hi).
  set (bd := ((0%Q, inject_Z (2 * r)), (0%Q, inject_Z W)) : qbounds) in *.
  enough (split_rectangle pick_scores 4 pts bd 4 = Err ValueError) as -> by reflexivity.
  destruct (get_splits4 (sortZ (map fst pts)) (fst bd)) as (c1 & c2 & c3 & Ex & C); [rewrite sortZ_length, map_length; lia|].
  destruct (get_splits4 (sortZ (map snd pts)) (snd bd)) as (d1 & d2 & d3 & Ey & _); [rewrite sortZ_length, map_length; lia|].
  destruct (C r) as (E1 & E2 & E3). { intros v I. apply (proj1 (sortZ_In _ _)) in I. apply in_map_iff in I as (p & <- & I). auto. }
  remember 3%nat as f eqn:Ef. replace 4%nat with (S f) at 1 by lia. cbn [split_rectangle Nat.eqb].
  destruct pts as [|p0 pts0]; [cbn in HN; lia|]. set (pts := p0 :: pts0) in *. rewrite Ex, Ey. cbn [bind]. rewrite Ep. cbn iota.
  set (cut := nth i _ 0%Q). assert (cut == inject_Z r)%Q as Ec by (destruct i as [|[|[|i]]]; cbn in cut; [lia|exact E1|exact E2|lia]).
  assert (forall p, In p pts -> Qle_bool (inject_Z (fst p)) cut = true) as M by (intros p I; apply Qle_bool_iff; rewrite Ec, (Hp p I); apply Qle_refl).
  rewrite filter_all by exact M. rewrite filter_none by (intros p I; now rewrite M).
  match goal with |- context [split_rectangle pick_scores f pts ?b0 i] => assert (exists lo, split_rectangle pick_scores f pts b0 i = Ok lo) as (lo & ->) end.
  { assert (i = 1 \/ i = 2)%nat as [-> | ->] by lia; [subst f; cbn; eauto|]. apply split_two; [apply pick_scores_range|lia|lia]. }
  cbn [bind]. subst f. assert (i = 1 \/ i = 2)%nat as [-> | ->] by lia; reflexivity.
Qed.

(** ** All points in the first column *)
Lemma score_zero b m : 0 < b -> score 0 b m = Some b.
Proof.
  intros Hb. unfold score. destruct (Req_EM_T b 0); [lra|]. f_equal. unfold rect_cost.
  replace (INR m * 0 / b) with 0 by (field; lra). rewrite sqrt_0. rewrite Rmax_left.
  - replace ((0 * INR m / 1) ^ 2 + (b * 1) ^ 2) with (b ^ 2) by field. apply sqrt_pow2. lra.
  - eapply Rle_trans; [apply Rmin_r|lra].
Qed.
Lemma score_flat a m : a <> 0 -> 0 < a -> (1 <= m)%nat -> score a 0 m = Some a.
Proof.
  intros Na Ha Hm. unfold score. destruct (Req_EM_T 0 0); [|lra]. destruct (Req_EM_T a 0); [lra|]. f_equal. unfold rect_cost.
  assert (1 <= INR m) by (change 1 with (INR 1); now apply le_INR).
  replace ((a * INR m / INR m) ^ 2 + (0 * INR m) ^ 2) with (a ^ 2) by (field; lra). apply sqrt_pow2. lra.
Qed.
(** More pieces never make it cheaper: both sides of the rectangles get at least as long. *)
Lemma score_many a b m s1 s : 0 < a -> 0 < b -> (2 <= m)%nat -> score a b 1 = Some s1 -> score a b m = Some s -> s1 < s.
Proof.
  intros Ha Hb Hm. unfold score. destruct (Req_EM_T b 0); [lra|]. intros E1 E. injection E1 as <-. injection E as <-. unfold rect_cost.
  assert (2 <= INR m) as Rm by (replace 2 with (INR 2) by (cbn; lra); now apply le_INR). replace (INR 1) with 1 by reflexivity.
  assert (Rmax 1 (Rmin 1 (sqrt (1 * a / b))) = 1) as -> by (apply Rmax_left, Rmin_l).
  set (ii := Rmax 1 _). assert (1 <= ii) as Hi by apply Rmax_l. assert (ii <= INR m) as Hi2 by (apply Rmax_lub; [lra|apply Rmin_l]). clearbody ii.
  apply sqrt_lt_1_alt. split; [pose proof (pow2_ge_0 (a * 1 / 1)); pose proof (pow2_ge_0 (b * 1)); lra|].
  assert (a <= a * INR m / ii) as A.
  { apply Rmult_le_reg_r with ii; [lra|]. replace (a * INR m / ii * ii) with (a * INR m) by (field; lra). apply Rmult_le_compat_l; lra. }
  assert (b <= b * ii) as B by (rewrite <- (Rmult_1_r b) at 1; apply Rmult_le_compat_l; lra).
  replace (a * 1 / 1) with a by field. replace (b * 1) with b by ring.
  assert (a ^ 2 <= (a * INR m / ii) ^ 2) by (apply pow_incr; lra). assert (b ^ 2 <= (b * ii) ^ 2) by (apply pow_incr; lra).
  destruct (Rle_lt_or_eq_dec 1 ii Hi) as [L|L].
  - assert (b < b * ii) as B' by (rewrite <- (Rmult_1_r b) at 1; apply Rmult_lt_compat_l; lra).
    assert (b ^ 2 < (b * ii) ^ 2); [|lra]. assert (b * b < (b * ii) * (b * ii)) by (apply Rmult_le_0_lt_compat; lra). cbn [pow]. lra.
  - assert (a < a * INR m / ii) as A'.
    { apply Rmult_lt_reg_r with ii; [lra|]. replace (a * INR m / ii * ii) with (a * INR m) by (field; lra). rewrite <- L. apply Rmult_lt_compat_l; lra. }
    assert (a ^ 2 < (a * INR m / ii) ^ 2); [|lra]. assert (a * a < (a * INR m / ii) * (a * INR m / ii)) by (apply Rmult_le_0_lt_compat; lra). cbn [pow]. lra.
Qed.

Section OneColumn.
  Variables (H W : Z) (pts : list (Z * Z)).
  Hypotheses (HH : (1 <= H)%Z) (HW : (2 * H <= W)%Z) (Hp : forall p, In p pts -> snd p = 0%Z) (HN : (4 <= length pts)%nat).
  Let bd : qbounds := ((0%Q, inject_Z H), (0%Q, inject_Z W)).

  Lemma column_pick : pick_scores pts bd 4%nat = (false, 3%nat).
  Proof using HH HW Hp HN.
    unfold pick_scores.
    destruct (get_splits4 (sortZ (map fst pts)) (fst bd)) as (c1 & c2 & c3 & -> & _); [rewrite sortZ_length, map_length; lia|].
    destruct (get_splits4 (sortZ (map snd pts)) (snd bd)) as (d1 & d2 & d3 & -> & C); [rewrite sortZ_length, map_length; lia|].
    destruct (C 0%Z) as (E1 & E2 & E3). { intros v I. apply (proj1 (sortZ_In _ _)) in I. apply in_map_iff in I as (p & <- & I). auto. }
    apply Qeq_eqR in E1, E2, E3. rewrite Q2R_inject in E1, E2, E3.
    unfold find_best_split. rewrite !split4_scores, !lens4_sum. unfold bd. cbn [fst snd]. rewrite E1, E2, E3, !Q2R_inject.
    replace (Q2R 0) with 0 by (unfold Q2R; cbn; lra).
    assert (1 <= IZR H) as RH by now apply IZR_le. assert (2 * IZR H <= IZR W) as RW by (rewrite <- mult_IZR; now apply IZR_le).
    set (w := IZR W) in *. set (h := IZR H) in *. clearbody w h.
    replace (w - 0) with w by ring. replace (h - 0) with h by ring. replace (0 - 0) with 0 by ring. rewrite !score_zero by lra.
    assert (forall a b m, exists s t, score a w m = Some s /\ score b w (4 - m)%nat = Some t /\ w <= s /\ w <= t) as Y.
    { intros a b m. destruct (score_some a w m ltac:(lra)) as (s & Es), (score_some b w (4 - m)%nat ltac:(lra)) as (t & Et). exists s, t.
      repeat split; auto; eapply score_ge; eauto; lra. }
    destruct (Y (Q2R c1 - 0) (h - Q2R c1) 1%nat) as (t1 & t2 & -> & H1 & T1 & T2). cbn [Nat.sub] in H1. rewrite H1. clear H1.
    destruct (Y (Q2R c2 - 0) (h - Q2R c2) 2%nat) as (t3 & t4 & -> & H1 & T3 & T4). cbn [Nat.sub] in H1. rewrite H1. clear H1.
    destruct (Y (Q2R c3 - 0) (h - Q2R c3) 3%nat) as (t5 & t6 & -> & H1 & T5 & T6). cbn [Nat.sub] in H1. rewrite H1. clear H1 Y.
    destruct (score_some w h 1 ltac:(lra)) as (s1 & S1), (score_some w h 2 ltac:(lra)) as (s2 & S2), (score_some w h 3 ltac:(lra)) as (s3 & S3).
    pose proof (score_many w h 2 s1 s2 ltac:(lra) ltac:(lra) ltac:(lia) S1 S2) as L2. pose proof (score_many w h 3 s1 s3 ltac:(lra) ltac:(lra) ltac:(lia) S1 S3) as L3.
    rewrite S1, S2, S3. cbn [plus_nan].
    assert (h + s1 < 2 * w) as B.
    { assert (s1 <= 5 / 4 * w); [|lra]. revert S1. unfold score. destruct (Req_EM_T h 0); [lra|]. intros S1. injection S1 as <-. unfold rect_cost.
      replace (INR 1) with 1 by reflexivity. assert (Rmax 1 (Rmin 1 (sqrt (1 * w / h))) = 1) as -> by (apply Rmax_left, Rmin_l).
      apply sqrt_le_abs; [lra|]. replace ((w * 1 / 1) ^ 2 + (h * 1) ^ 2) with (w ^ 2 + h ^ 2) by field.
      assert (h ^ 2 <= (w / 2) ^ 2) by (apply pow_incr; lra). pose proof (pow2_ge_0 w). lra. }
    destruct (argmin3 (h + s3) (h + s2) (h + s1)) as [(-> & P & Q)|[(-> & P & Q)|(-> & P & Q)]]; [lra|lra|].
    destruct (argmin3 (t1 + t2) (t3 + t4) (t5 + t6)) as [(-> & ? & ?)|[(-> & ? & ?)|(-> & ? & ?)]];
      (match goal with |- context [Rle_dec ?u ?v] => destruct (Rle_dec u v); [exfalso; lra|reflexivity] end).
  Qed.
End OneColumn.

Theorem column_empty H W pts t : (1 <= H)%Z -> (2 * H <= W)%Z -> points_in (H, W) pts -> (forall p, In p pts -> snd p = 0%Z) -> (4 <= length pts)%nat ->
  create_tiles_density pick_scores pts (H, W) 4 = Ok t -> forall k r c, (k < 3)%nat -> ~ has_pixel (tile_at t k) r c.
Proof.
  intros HH HW Hin Hp HN. unfold create_tiles_density. cbn [fst snd].
  destruct ((H <=? 0) && (W <=? 0))%Z eqn:E0; [lia|]. change (4 <=? 0)%Z with false. cbn iota. change (Z.to_nat (Z.sqrt 4 * Z.sqrt 4)) with 4%nat.
  cbn [Nat.eqb]. pose proof (column_pick H W pts HH HW Hp HN) as Ep.
  set (bd := ((0%Q, inject_Z H), (0%Q, inject_Z W)) : qbounds) in *.
  destruct (split_rectangle pick_scores 4 pts bd 4) as [s|] eqn:Es; [|discriminate]. cbn [bind]. intros E. injection E as <-.
  pose proof (split_rectangle_S _ _ _ _ _ _ (ltac:(lia) : 4%nat <> 1%nat) Es) as K. rewrite Ep in K. cbn [fst snd] in K.
  destruct K as (cuts & lo & hi & Ec & E1 & _ & ->).
  destruct (get_splits4 (sortZ (map (axis false) pts)) (side false bd)) as (d1 & d2 & d3 & Ed & C); [rewrite sortZ_length, map_length; lia|].
  rewrite Ec in Ed. injection Ed as ->. cbn [nth] in E1.
  destruct (C 0%Z) as (_ & _ & E3). { intros v I. apply (proj1 (sortZ_In _ _)) in I. apply in_map_iff in I as (p & <- & I). cbn. auto. }
  change (inject_Z 0) with 0%Q in E3.
  assert (0 <= inject_Z H /\ 0 <= inject_Z W)%Q as [QH QW] by (split; apply (inject_le 0); lia).
  apply split_rectangle_sound in E1 as (L & _ & F); [|apply pick_scores_range|lia| |].
  2:{ unfold qwf, cut_lo, bd. cbn [fst snd]. split; [exact QH|rewrite E3; apply Qle_refl]. }
  2:{ intros p I. apply filter_In in I as [I _]. destruct (Hin p I) as [A B]. cbn [fst snd] in A, B. unfold cut_lo, bd. cbn [fst snd].
      split; [split; [apply (inject_le 0); lia|apply inject_le; lia]|]. rewrite (Hp p I), E3. split; apply Qle_refl. }
  intros k x c Hk. unfold tile_at. cbn [tiles]. rewrite map_app, app_nth1 by (rewrite map_length; lia).
  rewrite (@map_nth' qbounds bbox _ _ _ ((0%Q, 0%Q), (0%Q, 0%Q))) by (rewrite L; lia). set (a := nth k lo ((0%Q, 0%Q), (0%Q, 0%Q))). rewrite Forall_forall in F.
  assert (In a lo) as Ia by (apply (@nth_In qbounds); rewrite L; lia). destruct (F a Ia) as [Sb Wf]. unfold qsub, cut_lo, bd in Sb. cbn [fst snd] in Sb. destruct Sb as (A1 & A2 & A3 & A4).
  rewrite E3 in A4. intros Px.
  assert (qsub a ((0%Q, inject_Z (fst (H, W))), (0%Q, inject_Z (snd (H, W))))) as Sb'.
  { unfold qsub. cbn [fst snd]. repeat split; auto. eapply Qle_trans; eauto. }
  apply (proj1 (box_of_bounds_has (H, W) a x c Wf Sb')) in Px. destruct Px as [_ Px]. apply Qfloor_resp_le in A3, A4. change (Qfloor 0) with 0%Z in *. lia.
Qed.

(** One step that succeeds. *)
Lemma split_step (pick : picker) fuel (pts : list (Z * Z)) (b : qbounds) (m : nat) (cx cy : list Q) (ux : bool) (i : nat) lo hi : m <> 1%nat -> pts <> [] ->
  get_splits (sortZ (map fst pts)) m (fst b) = Ok cx -> get_splits (sortZ (map snd pts)) m (snd b) = Ok cy ->
  pick pts b m = (ux, i) -> let cut := nth i (if ux then cx else cy) 0%Q in
  split_rectangle pick fuel (filter (fun p => Qle_bool (inject_Z (axis ux p)) cut) pts) (cut_lo ux b cut) i = Ok lo ->
  split_rectangle pick fuel (filter (fun p => negb (Qle_bool (inject_Z (axis ux p)) cut)) pts) (cut_hi ux b cut) (m - i) = Ok hi ->
  split_rectangle pick (S fuel) pts b m = Ok (lo ++ hi).
Proof.
  intros Nm Np Ex Ey Ep cut El Eh. cbn [split_rectangle]. apply Nat.eqb_neq in Nm. rewrite Nm.
  destruct pts as [|p0 pts0]; [easy|]. set (pts := p0 :: pts0) in *. rewrite Ex, Ey. cbn [bind]. rewrite Ep.
  unfold cut in *. destruct ux; cbn [axis cut_lo cut_hi] in *; rewrite El; cbn [bind]; rewrite Eh; reflexivity.
Qed.

(** The column case does happen. *)
Definition col4 : list (Z * Z) := [(0, 0); (1, 0); (2, 0); (3, 0)]%Z.
Lemma argmin2 a b : exists k, argmin [Some a; Some b] = (k, Some (Rmin a b)) /\ (k <= 1)%nat.
Proof. cbn [argmin argmin_from]. unfold Rmin. destruct (Rlt_dec b a), (Rle_dec a b); try lra; [exists 1%nat|exists 0%nat]; split; auto. Qed.
Lemma col4_pick d0 d1 : (d0 == 0)%Q -> (d1 == 0)%Q ->  exists i, pick_scores col4 ((0%Q, inject_Z 4), (d0, d1)) 3%nat = (true, i) /\ (1 <= i <= 2)%nat.
Proof.
  intros D0 D1. apply Qeq_eqR in D0, D1. replace (Q2R 0) with 0 in * by (unfold Q2R; cbn; lra). unfold pick_scores.
  assert (get_splits (sortZ (map fst col4)) 3 (fst ((0%Q, inject_Z 4), (d0, d1))) = Ok [0%Q; 1 # 2; 3 # 2; inject_Z 4]) as -> by reflexivity.
  assert (get_splits (sortZ (map snd col4)) 3 (snd ((0%Q, inject_Z 4), (d0, d1))) = Ok [d0; 0 # 2; 0 # 2; d1]) as -> by reflexivity.
  unfold find_best_split, split_scores, lens, Rsum. cbn [length Nat.sub seq map nth firstn skipn fold_right]. rewrite D0, D1.
  replace (Q2R 0) with 0 by (unfold Q2R; cbn; lra). replace (Q2R (0 # 2)) with 0 by (unfold Q2R; cbn; lra).
  replace (Q2R (1 # 2)) with (1 / 2) by (unfold Q2R; cbn; lra). replace (Q2R (3 # 2)) with (3 / 2) by (unfold Q2R; cbn; lra). rewrite !Q2R_inject.
  replace (0 - 0 + (0 - 0 + (0 - 0 + 0))) with 0 by ring. replace (1 / 2 - 0 + 0) with (1 / 2) by ring. replace (3 / 2 - 1 / 2 + (4 - 3 / 2 + 0)) with (7 / 2) by field.
  replace (1 / 2 - 0 + (3 / 2 - 1 / 2 + 0)) with (3 / 2) by field. replace (4 - 3 / 2 + 0) with (5 / 2) by field.
  replace (1 / 2 - 0 + (3 / 2 - 1 / 2 + (4 - 3 / 2 + 0))) with 4 by field.
  replace (1 / 2 - 0 + (3 / 2 - 1 / 2 + 5 / 2)) with 4 by field.
  replace (0 - 0 + 0) with 0 by ring. replace (0 - 0 + (0 - 0 + 0)) with 0 by ring. replace (0 - 0 + 0) with 0 by ring. rewrite ?Rplus_0_r, ?Rminus_0_r, ?Rplus_0_l.
  rewrite !score_zero by lra. rewrite !score_flat by (lra || lia). cbn [plus_nan].
  destruct (argmin2 (1 / 2 + 7 / 2) (3 / 2 + 5 / 2)) as (k & -> & Hk). destruct (argmin2 (1 / 2 + 7 / 2 + (1 / 2 + 7 / 2)) (1 / 2 + 7 / 2 + (1 / 2 + 7 / 2))) as (k' & -> & _).
  match goal with |- context [Rle_dec ?u ?v] => destruct (Rle_dec u v) as [|N] end; [exists (k + 1)%nat; split; [reflexivity|lia]|]. exfalso. apply N.
  rewrite (Rmin_left (1 / 2 + 7 / 2 + _)) by lra. eapply Rle_trans; [apply Rmin_l|lra].
Qed.
Lemma col4_ok : exists t, create_tiles_density pick_scores col4 (4, 8)%Z 4 = Ok t.
Proof.
  unfold create_tiles_density. cbn [fst snd]. change ((4 <=? 0) && (8 <=? 0))%Z with false. change (4 <=? 0)%Z with false. cbn iota. change (Z.to_nat (Z.sqrt 4 * Z.sqrt 4)) with 4%nat. cbn [Nat.eqb].
  enough (exists r, split_rectangle pick_scores 4 col4 ((0%Q, inject_Z 4), (0%Q, inject_Z 8)) 4 = Ok r) as (r & ->) by (cbn [bind]; eauto).
  assert (pick_scores col4 ((0%Q, inject_Z 4), (0%Q, inject_Z 8)) 4%nat = (false, 3%nat)) as Ep.
  { apply column_pick; [lia|lia| |cbn; lia]. intros p I. cbn in I. repeat (destruct I as [<-|I]; [reflexivity|]). contradiction. }
  destruct (col4_pick 0%Q (0 # 2)%Q) as (i & Ei & Hi); [reflexivity|reflexivity|].
  assert (exists r, split_rectangle pick_scores 3 col4 ((0%Q, inject_Z 4), (0%Q, (0 # 2)%Q)) 3 = Ok r) as (r & Er).
  { assert (i = 1 \/ i = 2)%nat as [-> | ->] by lia.
    - destruct (split_two pick_scores 2 [(1, 0); (2, 0); (3, 0)]%Z (cut_hi true ((0%Q, inject_Z 4), (0%Q, (0 # 2)%Q)) (1 # 2)%Q) pick_scores_range) as (hi & Eh); [lia|cbn; lia|].
      eexists. eapply split_step; [lia|discriminate|reflexivity|reflexivity|exact Ei|reflexivity|exact Eh].
    - destruct (split_two pick_scores 2 [(0, 0); (1, 0)]%Z (cut_lo true ((0%Q, inject_Z 4), (0%Q, (0 # 2)%Q)) (3 # 2)%Q) pick_scores_range) as (lo & El); [lia|cbn; lia|].
      eexists. eapply split_step; [lia|discriminate|reflexivity|reflexivity|exact Ei|exact El|reflexivity]. }
  eexists. eapply split_step; [lia|discriminate|reflexivity|reflexivity|exact Ep|exact Er|reflexivity].
Qed.
