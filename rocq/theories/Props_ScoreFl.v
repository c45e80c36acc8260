(** C91, continued: the choice of cuts with rounded scores. *)
From Verif Require Import Base BaseLemmas TileModel TileSpec TileProofs DensitySpec DensityProofs ScoreModel ScoreSpec ScoreProofs ScoreFlModel Props_Score.
From Coq Require Import List Permutation ZifyBool Reals Qreals Lra Lia.
Import ListNotations.
Set Default Goal Selector "!".
Local Open Scope R_scope.

Section Rounded.
  Context (fl rt : R -> R) (u : R).
  Hypothesis Hu : 0 <= u < 1.
  Hypothesis Hfl : forall x, 0 <= x -> (1 - u) * x <= fl x <= (1 + u) * x.
  Hypothesis Hrt : forall x, 0 <= x -> (1 - u) * sqrt x <= rt x <= (1 + u) * sqrt x.

  (** [x] is [y] up to [k] roundings. *)
  Definition near (k : nat) (x y : R) : Prop := (1 - u) ^ k * y <= x <= (1 + u) ^ k * y.

  Lemma lo_pos k : 0 < (1 - u) ^ k. Proof using Hu. apply pow_lt. lra. Qed.
  Lemma hi_pos k : 0 < (1 + u) ^ k. Proof using Hu. apply pow_lt. lra. Qed.
  Lemma near_pos k x y : 0 <= y -> near k x y -> 0 <= x.
  Proof using Hu. intros Hy [A _]. pose proof (lo_pos k). assert (0 <= (1 - u) ^ k * y) by (apply Rmult_le_pos; lra). lra. Qed.
  Lemma near_0 x : near 0 x x.
  Proof. unfold near. cbn [pow]. lra. Qed.
  Lemma near_step k x y z : 0 <= y -> near k x y -> (1 - u) * x <= z <= (1 + u) * x -> near (S k) z y.
  Proof using Hu.
    intros Hy H [A B]. pose proof (near_pos k x y Hy H) as Px. destruct H as [C D]. unfold near. cbn [pow]. rewrite !Rmult_assoc. split.
    - apply Rle_trans with (2 := A). apply Rmult_le_compat_l; lra.
    - apply Rle_trans with (1 := B). apply Rmult_le_compat_l; lra.
  Qed.
  Lemma near_fl k x y : 0 <= y -> near k x y -> near (S k) (fl x) y.
  Proof using Hu Hfl. intros Hy H. apply near_step with x; auto. apply Hfl. eapply near_pos; eauto. Qed.
  Lemma near_weak k x y : 0 <= y -> near k x y -> near (S k) x y.
  Proof using Hu. intros Hy H. apply near_step with x; auto. pose proof (near_pos k x y Hy H) as P. assert (0 <= u * x) by (apply Rmult_le_pos; lra). lra. Qed.
  Lemma near_mul k l x y x' y' : 0 <= y -> 0 <= y' -> near k x y -> near l x' y' -> near (k + l) (x * x') (y * y').
  Proof using Hu.
    intros Hy Hy' H H'. pose proof (near_pos k x y Hy H). pose proof (near_pos l x' y' Hy' H'). destruct H as [A B], H' as [C D]. pose proof (lo_pos k). pose proof (lo_pos l).
    unfold near. rewrite !pow_add. split.
    - replace ((1 - u) ^ k * (1 - u) ^ l * (y * y')) with ((1 - u) ^ k * y * ((1 - u) ^ l * y')) by ring. apply Rmult_le_compat; auto; apply Rmult_le_pos; lra.
    - replace ((1 + u) ^ k * (1 + u) ^ l * (y * y')) with ((1 + u) ^ k * y * ((1 + u) ^ l * y')) by ring. apply Rmult_le_compat; auto.
  Qed.
  Lemma near_add k x y x' y' : near k x y -> near k x' y' -> near k (x + x') (y + y').
  Proof. unfold near. intros [A B] [C D]. rewrite !Rmult_plus_distr_l. lra. Qed.
  Lemma near_sqrt k x y : 0 <= y -> near (k + k) x y -> near k (sqrt x) (sqrt y).
  Proof using Hu.
    intros Hy [A B]. pose proof (lo_pos k). pose proof (hi_pos k). unfold near.
    rewrite <- (sqrt_square ((1 - u) ^ k)) by lra. rewrite <- (sqrt_square ((1 + u) ^ k)) by lra.
    rewrite <- !sqrt_mult_alt by (apply Rmult_le_pos; lra). rewrite <- !pow_add. split; apply sqrt_le_1_alt; assumption.
  Qed.
  Lemma near_rt k x y : 0 <= y -> near (k + k) x y -> near (S k) (rt x) (sqrt y).
  Proof using Hu Hrt. intros Hy H. apply near_step with (sqrt x); [apply sqrt_pos|now apply near_sqrt|]. apply Hrt. eapply near_pos; eauto. Qed.

  (** One diagonal. *)
  Lemma cost_near a b m x : 0 <= a -> 0 <= b -> 0 <= m -> 0 < x -> near 4 (rect_cost_fl fl rt a b m x) (rect_cost a b m x).
  Proof using Hu Hfl Hrt.
    intros Ha Hb Hm Hx. unfold rect_cost_fl, rect_cost.
    assert (0 <= a * m) as P1 by (now apply Rmult_le_pos). assert (0 <= a * m / x) as P2 by (apply Rmult_le_pos; [exact P1|left; now apply Rinv_0_lt_compat]).
    assert (0 <= b * x) as P3 by (apply Rmult_le_pos; lra).
    assert (near 2 (fl (fl (a * m) / x)) (a * m / x)) as N1.
    { apply near_fl; [exact P2|]. change 1%nat with (1 + 0)%nat. apply near_mul; [exact P1|left; now apply Rinv_0_lt_compat|apply near_fl; [exact P1|apply near_0]|apply near_0]. }
    assert (near 1 (fl (b * x)) (b * x)) as N2 by (apply near_fl; [exact P3|apply near_0]).
    assert (forall k z y, 0 <= y -> near k z y -> near (k + k) (z ^ 2) (y ^ 2)) as Sq.
    { intros k z y Py N. replace (z ^ 2) with (z * z) by ring. replace (y ^ 2) with (y * y) by ring. now apply near_mul. }
    pose proof (pow2_ge_0 (a * m / x)) as Q1. pose proof (pow2_ge_0 (b * x)) as Q2.
    apply (near_rt 3); [lra|]. apply (near_fl 5); [lra|]. apply near_add.
    - apply (near_fl 4); [exact Q1|]. now apply (Sq 2%nat).
    - apply near_weak; [exact Q2|]. apply near_weak; [exact Q2|]. apply (near_fl 2); [exact Q2|]. now apply (Sq 1%nat).
  Qed.

  (** A rounded optimum is clipped close to the true one. *)
  Lemma clip_near m t t' : 1 <= m -> 0 <= t -> near 2 t' t -> near 2 (Rmax 1 (Rmin m t')) (Rmax 1 (Rmin m t)).
  Proof using Hu.
    intros Hm Ht [A B]. pose proof (lo_pos 2) as L0. pose proof (hi_pos 2) as H0. unfold near.
    assert ((1 - u) ^ 2 <= 1) as L1 by (rewrite <- (pow1 2); apply pow_incr; lra). assert (1 <= (1 + u) ^ 2) as H1 by (rewrite <- (pow1 2) at 1; apply pow_incr; lra).
    set (l := (1 - u) ^ 2) in *. set (h := (1 + u) ^ 2) in *. clearbody l h.
    assert (forall z, 0 <= z -> l * z <= z) as Lz by (intros z Pz; rewrite <- (Rmult_1_l z) at 2; apply Rmult_le_compat_r; lra).
    assert (forall z, 0 <= z -> z <= h * z) as Hz by (intros z Pz; rewrite <- (Rmult_1_l z) at 1; apply Rmult_le_compat_r; lra).
    pose proof (Lz t Ht). pose proof (Lz m ltac:(lra)). pose proof (Hz t Ht). pose proof (Hz m ltac:(lra)).
    assert (forall z, t <= z -> l * t <= l * z) as Mz by (intros z Iz; apply Rmult_le_compat_l; lra).
    assert (forall z, z <= t -> h * z <= h * t) as Nz by (intros z Iz; apply Rmult_le_compat_l; lra).
    assert (forall z, z <= t -> l * z <= l * t) as Oz by (intros z Iz; apply Rmult_le_compat_l; lra).
    assert (forall z, t <= z -> h * t <= h * z) as Pz by (intros z Iz; apply Rmult_le_compat_l; lra).
    unfold Rmax, Rmin. destruct (Rle_dec m t'), (Rle_dec m t);
      repeat match goal with |- context [Rle_dec 1 ?z] => destruct (Rle_dec 1 z) end;
      repeat match goal with H : ~ (_ <= _) |- _ => apply Rnot_le_lt in H end;
      split; try lra;
      try (pose proof (Mz 1 ltac:(lra))); try (pose proof (Nz m ltac:(lra))); try (pose proof (Oz m ltac:(lra))); try (pose proof (Pz 1 ltac:(lra))); try lra.
  Qed.

  (** A rounded score is the least diagonal up to a few roundings. *)
  Lemma score_near a b m s : 0 <= a -> 0 < b -> (1 <= m)%nat -> least_diagonal a b (INR m) s ->
    exists t, score_fl fl rt a b m = Some t /\ (1 - u) ^ 4 * s <= t /\ (1 - u) ^ 2 * t <= (1 + u) ^ 4 * s.
  Proof using Hu Hfl Hrt.
    intros Ha Hb Hm L. assert (1 <= INR m) as Rm by (change 1 with (INR 1); now apply le_INR). unfold score_fl. destruct (Req_EM_T b 0); [lra|].
    destruct (proj1 (C91_score a b m Ha ltac:(lra) Hm) ltac:(lra)) as (s0 & Es & L0). rewrite (least_unique _ _ _ _ _ L L0). clear s L.
    unfold score in Es. destruct (Req_EM_T b 0); [lra|]. injection Es as Es.
    assert (0 <= INR m * a) as P1 by (apply Rmult_le_pos; lra). assert (0 <= / b) as Pb by (left; apply Rinv_0_lt_compat; lra).
    assert (0 <= INR m * a / b) as P2 by (now apply Rmult_le_pos).
    assert (near 2 (rt (fl (fl (INR m * a) / b))) (sqrt (INR m * a / b))) as N.
    { apply (near_rt 1); [exact P2|]. apply (near_fl 1); [exact P2|]. change 1%nat with (1 + 0)%nat. apply near_mul; [exact P1|exact Pb|apply (near_fl 0); [exact P1|apply near_0]|apply near_0]. }
    apply (clip_near (INR m)) in N; [|exact Rm|apply sqrt_pos]. set (o := Rmax 1 (Rmin (INR m) (sqrt _))) in *. set (x := Rmax 1 (Rmin (INR m) (rt _))) in *.
    assert (1 <= o) as Bo by apply Rmax_l. assert (1 <= x <= INR m) as Bx by (split; [apply Rmax_l|apply Rmax_lub; [lra|apply Rmin_l]]).
    eexists. split; [reflexivity|]. destruct (cost_near a b (INR m) x Ha ltac:(lra) ltac:(lra) ltac:(lra)) as [A B]. split.
    - apply Rle_trans with (2 := A). apply Rmult_le_compat_l; [left; apply lo_pos|]. apply L0, Bx.
    - assert ((1 - u) ^ 2 * rect_cost a b (INR m) x <= s0) as K.
      { rewrite <- Es. unfold rect_cost. pose proof (lo_pos 2) as L2. rewrite <- (sqrt_square ((1 - u) ^ 2)) by lra. rewrite <- sqrt_mult_alt by (apply Rmult_le_pos; lra).
        apply sqrt_le_1_alt. rewrite Rmult_plus_distr_l. destruct N as [N1 N2].
        assert ((1 - u) ^ 2 * (1 + u) ^ 2 <= 1) as U.
        { rewrite <- Rpow_mult_distr. replace ((1 - u) * (1 + u)) with (1 - u * u) by ring. rewrite <- (pow1 2). apply pow_incr. assert (0 <= u * u) by (apply Rmult_le_pos; lra).
          assert (u * u <= 1 * 1) by (apply Rmult_le_compat; lra). lra. }
        set (l := (1 - u) ^ 2) in *. assert (forall y z, 0 <= y -> l * y <= z -> l * l * y ^ 2 <= z ^ 2) as Sq.
        { intros y z Py I. replace (l * l * y ^ 2) with ((l * y) ^ 2) by ring. apply pow_incr. split; [apply Rmult_le_pos; lra|exact I]. }
        apply Rplus_le_compat; apply Sq.
        - apply Rmult_le_pos; [apply Rmult_le_pos; lra|left; apply Rinv_0_lt_compat; lra].
        - replace (l * (a * INR m / x)) with (a * INR m * (l * / x)) by (unfold Rdiv; ring). unfold Rdiv. apply Rmult_le_compat_l; [apply Rmult_le_pos; lra|].
          apply Rmult_le_reg_r with (x * o); [apply Rmult_lt_0_compat; lra|]. replace (l * / x * (x * o)) with (l * o) by (field; lra). replace (/ o * (x * o)) with x by (field; lra). exact N1.
        - apply Rmult_le_pos; lra.
        - replace (l * (b * x)) with (b * (l * x)) by ring. apply Rmult_le_compat_l; [lra|]. apply Rle_trans with (l * ((1 + u) ^ 2 * o)); [apply Rmult_le_compat_l; lra|].
          rewrite <- Rmult_assoc. rewrite <- (Rmult_1_l o) at 2. apply Rmult_le_compat_r; lra. }
      apply Rle_trans with ((1 - u) ^ 2 * ((1 + u) ^ 4 * rect_cost a b (INR m) x)); [apply Rmult_le_compat_l; [left; apply lo_pos|exact B]|].
      replace ((1 - u) ^ 2 * ((1 + u) ^ 4 * rect_cost a b (INR m) x)) with ((1 + u) ^ 4 * ((1 - u) ^ 2 * rect_cost a b (INR m) x)) by ring.
      apply Rmult_le_compat_l; [left; apply hi_pos|exact K].
  Qed.

  Section Cuts.
    Context (pts : list (Z * Z)) (b : qbounds) (m : nat).
    Hypothesis Hm : (2 <= m <= length pts)%nat.
    Hypothesis Hin : inside b pts.

    Definition part_cost_fl (rows : bool) (i : nat) : option R :=
      plus_fl fl (score_fl fl rt (line pts m rows i - from rows b) (extent b (negb rows)) i) (score_fl fl rt (upto rows b - line pts m rows i) (extent b (negb rows)) (m - i)).

    Lemma scores_are_fl rows cuts other : get_splits (sortZ (map (coord rows) pts)) m (if rows then fst b else snd b) = Ok cuts ->
      get_splits (sortZ (map (coord (negb rows)) pts)) m (if negb rows then fst b else snd b) = Ok other ->
      split_scores_fl fl rt (lens cuts) (lens other) m = map (fun k => part_cost_fl rows (S k)) (seq 0 (m - 1)).
    Proof using Hm.
      intros Ec Eo. destruct (cuts_of pts b m Hm rows) as (c & E & L & A & B & C). rewrite Ec in E. injection E as <-.
      destruct (cuts_of pts b m Hm (negb rows)) as (o & E & Lo & Ao & Bo & _). rewrite Eo in E. injection E as <-.
      unfold split_scores_fl. rewrite lens_length, L. replace (S m - 1 - 1)%nat with (m - 1)%nat by lia. rewrite <- seq_shift, map_map.
      apply map_ext_in. intros k I. apply in_seq in I. unfold part_cost_fl, extent.
      rewrite lens_first, lens_rest, lens_sum by lia. rewrite L, Lo. replace (S m - 1)%nat with m by lia. rewrite A, B, Ao, Bo, (C (S k)) by lia. reflexivity.
    Qed.
    Lemma pick_is_fl : pick_scores_fl fl rt pts b m =
      let '(xi, xs) := argmin (map (fun k => part_cost_fl true (S k)) (seq 0 (m - 1))) in
      let '(yi, ys) := argmin (map (fun k => part_cost_fl false (S k)) (seq 0 (m - 1))) in
      match xs, ys with
      | Some u, Some v => if Rle_dec u v then (true, (xi + 1)%nat) else (false, (yi + 1)%nat)
      | _, _ => (false, (yi + 1)%nat)
      end.
    Proof using Hm.
      unfold pick_scores_fl. destruct (cuts_of pts b m Hm true) as (cx & Ex & _). destruct (cuts_of pts b m Hm false) as (cy & Ey & _).
      pose proof (scores_are_fl true cx cy Ex Ey) as Sx. pose proof (scores_are_fl false cy cx Ey Ex) as Sy.
      change (map (coord true) pts) with (map fst pts) in Ex. change (map (coord false) pts) with (map snd pts) in Ey. cbn iota in Ex, Ey.
      rewrite Ex, Ey. unfold find_best_split_fl. rewrite Sx, Sy.
      destruct (argmin (map (fun k => part_cost_fl true (S k)) _)) as [xi xs]. destruct (argmin (map (fun k => part_cost_fl false (S k)) _)) as [yi ys]. reflexivity.
    Qed.

    (** What is computed for a cut, against what it costs. *)
    Lemma cut_near rows i s : 0 < extent b (negb rows) -> (1 <= i < m)%nat -> cut_cost rows pts b m i s ->
      exists t, part_cost_fl rows i = Some t /\ (1 - u) ^ 5 * s <= t /\ (1 - u) ^ 2 * t <= (1 + u) ^ 5 * s.
    Proof using Hu Hfl Hrt Hm Hin.
      intros W Bi (c & s1 & s2 & Hc & -> & L1 & L2). apply line_is in Hc. subst c. pose proof (line_inside pts b m Hm Hin rows i Bi).
      destruct (score_near (line pts m rows i - from rows b) (extent b (negb rows)) i s1 ltac:(lra) W ltac:(lia) L1) as (t1 & E1 & A1 & B1).
      destruct (score_near (upto rows b - line pts m rows i) (extent b (negb rows)) (m - i) s2 ltac:(lra) W ltac:(lia) L2) as (t2 & E2 & A2 & B2).
      unfold part_cost_fl. rewrite E1, E2. cbn [plus_fl]. eexists. split; [reflexivity|].
      unfold extent in W. apply diagonal_ge in L1; [|lra]. apply diagonal_ge in L2; [|lra]. pose proof (lo_pos 4). pose proof (lo_pos 2).
      assert (0 <= (1 - u) ^ 4 * s1) by (apply Rmult_le_pos; lra). assert (0 <= (1 - u) ^ 4 * s2) by (apply Rmult_le_pos; lra).
      destruct (Hfl (t1 + t2) ltac:(lra)) as [F1 F2]. split.
      - apply Rle_trans with (2 := F1). replace ((1 - u) ^ 5 * (s1 + s2)) with ((1 - u) * ((1 - u) ^ 4 * s1 + (1 - u) ^ 4 * s2)) by ring. apply Rmult_le_compat_l; lra.
      - apply Rle_trans with ((1 - u) ^ 2 * ((1 + u) * (t1 + t2))); [apply Rmult_le_compat_l; lra|].
        replace ((1 - u) ^ 2 * ((1 + u) * (t1 + t2))) with ((1 + u) * ((1 - u) ^ 2 * t1 + (1 - u) ^ 2 * t2)) by ring.
        replace ((1 + u) ^ 5 * (s1 + s2)) with ((1 + u) * ((1 + u) ^ 4 * s1 + (1 + u) ^ 4 * s2)) by ring. apply Rmult_le_compat_l; lra.
    Qed.

    Lemma best_of_fl rows : 0 < extent b (negb rows) -> exists k t, argmin (map (fun k => part_cost_fl rows (S k)) (seq 0 (m - 1))) = (k, Some t) /\ (k < m - 1)%nat /\
      part_cost_fl rows (k + 1) = Some t /\ forall i t', (1 <= i < m)%nat -> part_cost_fl rows i = Some t' -> t <= t'.
    Proof using Hu Hfl Hrt Hm Hin.
      intros W. set (g := fun k => match part_cost_fl rows (S k) with Some s => s | None => 0 end).
      assert (forall k, (k < m - 1)%nat -> part_cost_fl rows (S k) = Some (g k)) as G.
      { intros k Bk. unfold g. destruct (cost_is pts b m Hm Hin rows (S k) W ltac:(lia)) as (s & _ & C). destruct (cut_near rows (S k) s W ltac:(lia)) as (t & -> & _); [now apply C|reflexivity]. }
      assert (map (fun k => part_cost_fl rows (S k)) (seq 0 (m - 1)) = map (fun k => Some (g k)) (seq 0 (m - 1))) as ->.
      { apply map_ext_in. intros k I. apply in_seq in I. apply G. lia. }
      destruct (argmin_first g (m - 1) ltac:(lia)) as (k & E & Bk & K). exists k, (g k). split; [exact E|]. split; [exact Bk|]. split; [rewrite Nat.add_1_r; now apply G|].
      intros i t' Bi Et. replace i with (S (i - 1)) in Et by lia. rewrite G in Et by lia. injection Et as <-. apply K. lia.
    Qed.
  End Cuts.

  (** With all operations rounded the cut is the cheapest up to a few roundings. *)
  Theorem C91_rounded pts b m rows i : (2 <= m <= length pts)%nat -> inside b pts ->
    from true b < upto true b -> from false b < upto false b -> pick_scores_fl fl rt pts b m = (rows, i) ->
    (1 <= i < m)%nat /\ exists s, cut_cost rows pts b m i s /\
      forall rows' i' s', (1 <= i' < m)%nat -> cut_cost rows' pts b m i' s' -> (1 - u) ^ 7 * s <= (1 + u) ^ 5 * s'.
  Proof using Hu Hfl Hrt.
    intros Hm Hin Hx Hy E. assert (forall r, 0 < extent b r) as W by (intros [|]; unfold extent; lra).
    assert (forall r j t t' j' r' s s', (1 <= j < m)%nat -> (1 <= j' < m)%nat -> part_cost_fl pts b m r j = Some t -> part_cost_fl pts b m r' j' = Some t' -> t <= t' ->
      cut_cost r pts b m j s -> cut_cost r' pts b m j' s' -> (1 - u) ^ 7 * s <= (1 + u) ^ 5 * s') as Fin.
    { intros r j t t' j' r' s s' Bj Bj' Et Et' L C C'. destruct (cut_near pts b m Hm Hin r j s (W _) Bj C) as (t0 & E0 & A & _). rewrite Et in E0. injection E0 as <-.
      destruct (cut_near pts b m Hm Hin r' j' s' (W _) Bj' C') as (t0 & E0 & _ & B). rewrite Et' in E0. injection E0 as <-.
      apply Rle_trans with (2 := B). replace ((1 - u) ^ 7 * s) with ((1 - u) ^ 2 * ((1 - u) ^ 5 * s)) by ring. apply Rmult_le_compat_l; [left; apply lo_pos|lra]. }
    rewrite (pick_is_fl pts b m Hm) in E.
    destruct (best_of_fl pts b m Hm Hin true (W _)) as (k & t & Ek & Bk & Pk & K). destruct (best_of_fl pts b m Hm Hin false (W _)) as (k' & t' & Ek' & Bk' & Pk' & K').
    rewrite Ek, Ek' in E.
    assert (forall r j t0, (1 <= j < m)%nat -> part_cost_fl pts b m r j = Some t0 -> (forall r' j' t2, (1 <= j' < m)%nat -> part_cost_fl pts b m r' j' = Some t2 -> t0 <= t2) ->
      (1 <= j < m)%nat /\ exists s, cut_cost r pts b m j s /\ forall rows' i' s', (1 <= i' < m)%nat -> cut_cost rows' pts b m i' s' -> (1 - u) ^ 7 * s <= (1 + u) ^ 5 * s') as Go.
    { intros r j t0 Bj Et H. split; [exact Bj|]. destruct (cost_is pts b m Hm Hin r j (W _) Bj) as (s & _ & C). exists s. split; [now apply C|]. intros r' j' s' Bj' C'.
      destruct (cut_near pts b m Hm Hin r' j' s' (W _) Bj' C') as (t2 & E2 & _). apply (Fin r j t0 t2 j' r' s s'); auto; [now apply (H r' j')|now apply C]. }
    destruct (Rle_dec t t') as [L|L]; injection E as <- <-.
    - eapply Go; [lia|exact Pk|]. intros [|] j t2 Bj E2; [eapply K; eauto|]. pose proof (K' j t2 Bj E2). lra.
    - eapply Go; [lia|exact Pk'|]. intros [|] j t2 Bj E2; [|eapply K'; eauto]. pose proof (K j t2 Bj E2). lra.
  Qed.
End Rounded.

(** Without rounding it is the choice of [ScoreModel]. *)
Theorem C91_unrounded pts b m : pick_scores_fl (fun x => x) sqrt pts b m = pick_scores pts b m.
Proof. reflexivity. Qed.

(** Twelve columns, four rows: with every operation a thousandth too large and every root
    a thousandth too small the columns are still cut. *)
Example C91_rounded_witness :
  pick_scores_fl (fun x => (1 + 1 / 1000) * x) (fun x => (1 - 1 / 1000) * sqrt x) wide wide_bounds 2%nat = (false, 1%nat).
Proof.
  destruct (pick_scores_fl _ _ wide wide_bounds 2%nat) as [rows i] eqn:E. destruct wide_ends as (A & B & C & D).
  assert (2 <= 2 <= length wide)%nat as Hm by (cbn; lia).
  destruct (C91_rounded (fun x => (1 + 1 / 1000) * x) (fun x => (1 - 1 / 1000) * sqrt x) (1 / 1000) ltac:(lra) ltac:(intros x Hx; cbn beta; lra) ltac:(intros x Hx; cbn beta; pose proof (sqrt_pos x); lra)
    wide wide_bounds 2%nat rows i Hm wide_inside ltac:(lra) ltac:(lra) E) as (Bi & s & Cs & K). replace i with 1%nat by lia. f_equal.
  destruct rows; [exfalso|reflexivity]. replace i with 1%nat in * by lia.
  destruct (cost_is wide wide_bounds 2%nat Hm wide_inside false 1%nat) as (s' & _ & Cs'); [unfold extent; cbn [negb]; lra|lia|]. specialize (Cs' s'). destruct Cs' as [_ Cs']. specialize (Cs' eq_refl).
  pose proof (K false 1%nat s' ltac:(lia) Cs') as K1.
  destruct Cs as (c & s1 & s2 & _ & -> & L1 & L2). cbn [negb] in L1, L2. rewrite C, D in L1, L2. apply diagonal_ge in L1; [|lra]. apply diagonal_ge in L2; [|lra].
  destruct Cs' as (c' & t1 & t2 & Ec & -> & [_ M1] & [_ M2]). apply line_is in Ec. cbn [negb] in M1, M2. rewrite A, B, C, D in *.
  assert (c' = 9 / 2) as -> by (rewrite Ec; unfold line; cbn; lra).
  specialize (M1 1 ltac:(cbn; lra)). specialize (M2 1 ltac:(cbn; lra)). cbn [INR Nat.sub] in M1, M2.
  assert (sqrt (((9 / 2 - 0) * 1 / 1) ^ 2 + ((4 - 0) * 1) ^ 2) <= 7) by (apply sqrt_le_abs; lra).
  assert (sqrt (((12 - 9 / 2) * 1 / 1) ^ 2 + ((4 - 0) * 1) ^ 2) <= 9) by (apply sqrt_le_abs; lra). lra.
Qed.

Print Assumptions C91_rounded.
Print Assumptions C91_unrounded.
