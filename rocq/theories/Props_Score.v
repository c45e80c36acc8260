(** Property C91: the density tiler takes the cheapest of its cuts. *)
From Verif Require Import Base BaseLemmas TileModel TileSpec TileProofs DensitySpec DensityProofs ScoreModel ScoreSpec ScoreProofs.
From Verif Require ConjStatsProofs FloatProofs.
From Coq Require Import List Permutation Sorting.Sorted ZifyBool Reals Qreals Lra Lia.
Import ListNotations.
Set Default Goal Selector "!".
Local Open Scope R_scope.

(** * The score *)

Lemma best_side A b t o x m : 0 < b -> 0 <= t -> A = b * t ^ 2 -> 1 <= m -> o = Rmax 1 (Rmin m t) -> 1 <= x <= m ->
  (A / o) ^ 2 + (b * o) ^ 2 <= (A / x) ^ 2 + (b * x) ^ 2.
Proof.
  intros Hb Ht -> Hm Eo Hx. assert (1 <= o) as Ho by (rewrite Eo; apply Rmax_l).
  assert (0 <= (x ^ 2 - o ^ 2) * ((x * o) ^ 2 - (t ^ 2) ^ 2)) as K.
  { replace ((x ^ 2 - o ^ 2) * ((x * o) ^ 2 - (t ^ 2) ^ 2)) with ((x + o) * (x * o + t ^ 2) * ((x - o) * (x * o - t ^ 2))) by ring.
    assert (0 <= t ^ 2) as T2 by apply pow2_ge_0. assert (0 < x * o) by (apply Rmult_lt_0_compat; lra).
    apply Rmult_le_pos; [apply Rmult_le_pos; lra|].
    assert (o = 1 /\ t <= 1 \/ o = t /\ 1 <= t \/ o = m /\ m <= t) as [[-> Bt]|[[-> Bt]|[-> Bt]]].
    { rewrite Eo. unfold Rmax, Rmin. destruct (Rle_dec m t), (Rle_dec 1 _); lra. }
    - assert (t ^ 2 <= 1) by (replace 1 with (1 ^ 2) by ring; apply pow_incr; lra). apply Rmult_le_pos; lra.
    - replace ((x - t) * (x * t - t ^ 2)) with (t * (x - t) ^ 2) by ring. apply Rmult_le_pos; [lra|apply pow2_ge_0].
    - assert (x * m <= m * m) by (apply Rmult_le_compat_r; lra). assert (m ^ 2 <= t ^ 2) by (apply pow_incr; lra).
      replace ((x - m) * (x * m - t ^ 2)) with ((m - x) * (t ^ 2 - x * m)) by ring. apply Rmult_le_pos; [lra|]. replace (m ^ 2) with (m * m) in * by ring. lra. }
  assert ((b * t ^ 2 / x) ^ 2 + (b * x) ^ 2 - ((b * t ^ 2 / o) ^ 2 + (b * o) ^ 2) = b ^ 2 * ((x ^ 2 - o ^ 2) * ((x * o) ^ 2 - (t ^ 2) ^ 2)) * / (x * o) ^ 2) as E by (field; lra).
  assert (0 <= b ^ 2 * ((x ^ 2 - o ^ 2) * ((x * o) ^ 2 - (t ^ 2) ^ 2)) * / (x * o) ^ 2); [|lra].
  apply Rmult_le_pos; [apply Rmult_le_pos; [apply pow2_ge_0|exact K]|]. left. apply Rinv_0_lt_compat. apply pow_lt. apply Rmult_lt_0_compat; lra.
Qed.

(** The score of a rectangle is the least diagonal; it is not a number exactly for a
    rectangle without any extent. *)
Theorem C91_score a b m : 0 <= a -> 0 <= b -> (1 <= m)%nat ->
  (0 < a \/ 0 < b -> exists s, score a b m = Some s /\ least_diagonal a b (INR m) s) /\
  (a = 0 -> b = 0 -> score a b m = None).
Proof.
  intros Ha Hb Hm. assert (1 <= INR m) as Rm by (change 1 with (INR 1); now apply le_INR). split.
  - intros Hab. unfold score. destruct (Req_EM_T b 0) as [->|Nb].
    + destruct (Req_EM_T a 0); [lra|]. eexists. split; [reflexivity|]. unfold rect_cost, least_diagonal. split; [exists (INR m); split; [lra|reflexivity]|].
      intros x Hx. apply sqrt_le_1_alt. rewrite !Rmult_0_l. apply Rplus_le_compat_r. apply pow_incr. replace (a * INR m / INR m) with a by (field; lra).
      split; [lra|]. apply Rmult_le_reg_r with x; [lra|]. replace (a * INR m / x * x) with (a * INR m) by (field; lra). apply Rmult_le_compat_l; lra.
    + eexists. split; [reflexivity|]. unfold rect_cost, least_diagonal. set (o := Rmax 1 _). split.
      * exists o. split; [|reflexivity]. split; [apply Rmax_l|]. apply Rmax_lub; [lra|apply Rmin_l].
      * intros x Hx. apply sqrt_le_1_alt. assert (0 <= INR m * a / b) as T by (apply Rmult_le_pos; [apply Rmult_le_pos; lra|left; apply Rinv_0_lt_compat; lra]).
        apply best_side with (t := sqrt (INR m * a / b)) (m := INR m); auto; [lra|apply sqrt_pos|].
        rewrite pow2_sqrt by exact T. field. lra.
  - intros -> ->. unfold score. destruct (Req_EM_T 0 0); [|lra]. reflexivity.
Qed.

Lemma least_unique a b m s s' : least_diagonal a b m s -> least_diagonal a b m s' -> s = s'.
Proof. intros [(x & X & ->) L] [(y & Y & ->) M]. apply Rle_antisym; auto. Qed.

(** * The first of the least *)

Lemma argmin_from_first (g : nat -> R) n : forall bi i, (bi < i)%nat -> (forall j, (j < i)%nat -> g bi <= g j /\ (g j <= g bi -> (bi <= j)%nat)) ->
  exists k, argmin_from (Some (g bi)) bi i (map (fun k => Some (g k)) (seq i n)) = (k, Some (g k)) /\ (k < i + n)%nat /\
    forall j, (j < i + n)%nat -> g k <= g j /\ (g j <= g k -> (k <= j)%nat).
Proof.
  induction n as [|n IH]; intros bi i Bi H.
  - exists bi. split; [reflexivity|]. split; [lia|]. intros j Hj. apply H. lia.
  - cbn [seq map argmin_from]. destruct (Rlt_dec (g i) (g bi)) as [L|L].
    + destruct (IH i (S i)) as (k & E & B & K); [lia| |exists k; split; [exact E|split; [lia|]]; intros j Hj; apply K; lia].
      intros j Hj. destruct (Nat.eq_dec j i) as [->|N]; [split; [lra|lia]|]. destruct (H j ltac:(lia)). split; [lra|]. intros. exfalso. lra.
    + destruct (IH bi (S i)) as (k & E & B & K); [lia| |exists k; split; [exact E|split; [lia|]]; intros j Hj; apply K; lia].
      intros j Hj. destruct (Nat.eq_dec j i) as [->|N]; [split; [lra|lia]|]. apply H. lia.
Qed.
Lemma argmin_first (g : nat -> R) n : (0 < n)%nat ->
  exists k, argmin (map (fun k => Some (g k)) (seq 0 n)) = (k, Some (g k)) /\ (k < n)%nat /\ forall j, (j < n)%nat -> g k <= g j /\ (g j <= g k -> (k <= j)%nat).
Proof.
  destruct n as [|n]; [lia|]. intros _. cbn [seq map argmin]. destruct (argmin_from_first g n 0 1) as (k & E & B & K); [lia|intros j Hj; replace j with 0%nat by lia; split; [lra|lia]|].
  exists k. auto.
Qed.
Lemma argmin_from_nan (g : nat -> option R) n : forall best bi i k, best <> None -> (i <= k < i + n)%nat -> g k = None -> (forall j, (i <= j < k)%nat -> g j <> None) ->
  argmin_from best bi i (map g (seq i n)) = (k, None).
Proof.
  induction n as [|n IH]; intros best bi i k Nb Bk Ek Hj; [lia|]. cbn [seq map argmin_from]. destruct best as [v|]; [|congruence].
  destruct (Nat.eq_dec k i) as [->|N]; [now rewrite Ek|]. destruct (g i) as [w|] eqn:Ei; [|exfalso; apply (Hj i); [lia|exact Ei]].
  destruct (Rlt_dec w v); (apply IH; [congruence|lia|exact Ek|intros j B; apply Hj; lia]).
Qed.
Lemma argmin_nan (g : nat -> option R) n k : (k < n)%nat -> g k = None -> (forall j, (j < k)%nat -> g j <> None) -> argmin (map g (seq 0 n)) = (k, None).
Proof.
  destruct n as [|n]; [lia|]. intros Bk Ek Hj. cbn [seq map argmin]. destruct (Nat.eq_dec k 0) as [->|N].
  - rewrite Ek. destruct n; reflexivity.
  - apply argmin_from_nan; [apply Hj; lia|lia|exact Ek|intros j B; apply Hj; lia].
Qed.

(** * The cuts *)

Lemma Rsum_app l l' : Rsum (l ++ l') = Rsum l + Rsum l'.
Proof. unfold Rsum. induction l as [|a l IH]; cbn [app fold_right]; [lra|]. rewrite IH. ring. Qed.
Lemma lens_first cuts i : (i < length cuts)%nat -> Rsum (firstn i (lens cuts)) = Q2R (nth i cuts 0%Q) - Q2R (nth 0 cuts 0%Q).
Proof.
  intros Hi. unfold lens. rewrite firstn_map. assert (firstn i (seq 0 (length cuts - 1)) = seq 0 i) as ->.
  { replace (length cuts - 1)%nat with (i + (length cuts - 1 - i))%nat by lia. rewrite seq_app, firstn_app, seq_length, Nat.sub_diag, firstn_O, app_nil_r.
    rewrite <- (seq_length i 0) at 1. apply firstn_all. }
  clear Hi. induction i as [|i IH]; [cbn; ring|]. rewrite seq_S, map_app, Rsum_app, IH. unfold Rsum. cbn [map fold_right Nat.add]. ring.
Qed.
Lemma lens_sum cuts : (0 < length cuts)%nat -> Rsum (lens cuts) = Q2R (nth (length cuts - 1) cuts 0%Q) - Q2R (nth 0 cuts 0%Q).
Proof. intros H. rewrite <- lens_first by lia. now rewrite <- (lens_length cuts), firstn_all. Qed.
Lemma lens_rest cuts i : (i < length cuts)%nat -> Rsum (skipn i (lens cuts)) = Q2R (nth (length cuts - 1) cuts 0%Q) - Q2R (nth i cuts 0%Q).
Proof. intros H. pose proof (lens_first cuts i H). pose proof (lens_sum cuts ltac:(lia)) as S. rewrite <- (firstn_skipn i (lens cuts)), Rsum_app in S. lra. Qed.

Section Cuts.
  Context (pts : list (Z * Z)) (b : qbounds) (m : nat).
  Hypothesis Hm : (2 <= m <= length pts)%nat.
  Hypothesis Hin : inside b pts.

  Definition line (rows : bool) (i : nat) : R :=
    let n := (length pts / m)%nat in let z := sortZ (map (coord rows) pts) in IZR (nth (i * n - 1)%nat z 0%Z + nth (i * n)%nat z 0%Z) / 2.

  Lemma line_is rows i c : cut_line rows pts m i c <-> c = line rows i.
  Proof.
    split.
    - intros (z & Sz & Pz & E). assert (z = sortZ (map (coord rows) pts)) as ->; [|exact E].
      apply ConjStatsProofs.sorted_perm_eq; [exact Sz|apply sortZ_sorted|]. etransitivity; [exact Pz|]. apply Permutation_sym, sortZ_perm.
    - intros ->. exists (sortZ (map (coord rows) pts)). split; [apply sortZ_sorted|]. split; [apply sortZ_perm|]. reflexivity.
  Qed.

  Lemma per_tile : (1 <= length pts / m /\ m * (length pts / m) <= length pts)%nat.
  Proof using Hm. split; [apply Nat.div_le_lower_bound; lia|apply Nat.mul_div_le; lia]. Qed.

  Lemma line_inside rows i : (1 <= i < m)%nat -> from rows b <= line rows i <= upto rows b.
  Proof using Hm Hin.
    intros Bi. destruct per_tile as [N1 N2]. unfold line. set (n := (length pts / m)%nat) in *. set (z := sortZ _).
    assert (length z = length pts) as Lz by (unfold z; now rewrite sortZ_length, map_length).
    assert (i * n < m * n)%nat as Bn by (apply Nat.mul_lt_mono_pos_r; lia).
    assert (forall k, (k < length pts)%nat -> from rows b <= IZR (nth k z 0%Z) <= upto rows b) as K.
    { intros k Hk. assert (In (nth k z 0%Z) z) as I by (apply nth_In; lia). unfold z in I at 2. apply (proj1 (sortZ_In _ _)) in I. apply in_map_iff in I as (p & E & I).
      rewrite <- E. now apply Hin. }
    pose proof (K (i * n - 1)%nat ltac:(lia)). pose proof (K (i * n)%nat ltac:(lia)). rewrite plus_IZR. lra.
  Qed.

  Lemma cuts_of rows : exists cuts, get_splits (sortZ (map (coord rows) pts)) m (if rows then fst b else snd b) = Ok cuts /\ length cuts = S m /\
    Q2R (nth 0 cuts 0%Q) = from rows b /\ Q2R (nth m cuts 0%Q) = upto rows b /\ forall i, (1 <= i < m)%nat -> Q2R (nth i cuts 0%Q) = line rows i.
  Proof using Hm.
    destruct per_tile as [N1 N2]. unfold get_splits. rewrite sortZ_length, map_length. destruct (Nat.eqb_spec (length pts / m) 0) as [|_]; [lia|].
    eexists. split; [reflexivity|]. split; [cbn [length]; rewrite app_length, map_length, seq_length; cbn; lia|].
    split; [reflexivity|]. set (f := fun i : nat => _). split.
    - replace m with (S (m - 1)) at 1 by lia. cbn [nth]. rewrite app_nth2 by (rewrite map_length, seq_length; lia).
      rewrite map_length, seq_length, Nat.sub_diag. reflexivity.
    - intros i Bi. replace i with (S (i - 1)) at 1 by lia. cbn [nth]. rewrite app_nth1 by (rewrite map_length, seq_length; lia).
      rewrite (nth_indep _ 0%Q (f 0%nat)) by (rewrite map_length, seq_length; lia). rewrite map_nth, seq_nth by lia. unfold f, line.
      replace (0 + (i - 1))%nat with (i - 1)%nat by lia. replace (S (i - 1)) with i by lia.
      replace ((i - 1) * (length pts / m) + length pts / m - 1)%nat with (i * (length pts / m) - 1)%nat by nia.
      unfold Qdiv. rewrite Q2R_mult, Q2R_inject, Q2R_inv by (intros E; discriminate). replace (Q2R 2) with 2 by (unfold Q2R; cbn; lra). reflexivity.
  Qed.

  (** The scores of one direction. *)
  Definition extent (rows : bool) : R := upto rows b - from rows b.
  Definition part_cost (rows : bool) (i : nat) : option R :=
    plus_nan (score (line rows i - from rows b) (extent (negb rows)) i) (score (upto rows b - line rows i) (extent (negb rows)) (m - i)).

  Lemma scores_are rows cuts other : get_splits (sortZ (map (coord rows) pts)) m (if rows then fst b else snd b) = Ok cuts ->
    get_splits (sortZ (map (coord (negb rows)) pts)) m (if negb rows then fst b else snd b) = Ok other ->
    split_scores (lens cuts) (lens other) m = map (fun k => part_cost rows (S k)) (seq 0 (m - 1)).
  Proof using Hm.
    intros Ec Eo. destruct (cuts_of rows) as (c & E & L & A & B & C). rewrite Ec in E. injection E as <-.
    destruct (cuts_of (negb rows)) as (o & E & Lo & Ao & Bo & _). rewrite Eo in E. injection E as <-.
    unfold split_scores. rewrite lens_length, L. replace (S m - 1 - 1)%nat with (m - 1)%nat by lia. rewrite <- seq_shift, map_map.
    apply map_ext_in. intros k I. apply in_seq in I. unfold part_cost, extent.
    rewrite lens_first, lens_rest, lens_sum by lia. rewrite L, Lo. replace (S m - 1)%nat with m by lia. rewrite A, B, Ao, Bo, (C (S k)) by lia. reflexivity.
  Qed.

  Lemma pick_is : pick_scores pts b m =
    let '(xi, xs) := argmin (map (fun k => part_cost true (S k)) (seq 0 (m - 1))) in
    let '(yi, ys) := argmin (map (fun k => part_cost false (S k)) (seq 0 (m - 1))) in
    match xs, ys with
    | Some u, Some v => if Rle_dec u v then (true, (xi + 1)%nat) else (false, (yi + 1)%nat)
    | _, _ => (false, (yi + 1)%nat)
    end.
  Proof using Hm.
    unfold pick_scores. destruct (cuts_of true) as (cx & Ex & _). destruct (cuts_of false) as (cy & Ey & _).
    pose proof (scores_are true cx cy Ex Ey) as Sx. pose proof (scores_are false cy cx Ey Ex) as Sy.
    change (map (coord true) pts) with (map fst pts) in Ex. change (map (coord false) pts) with (map snd pts) in Ey. cbn iota in Ex, Ey.
    rewrite Ex, Ey. unfold find_best_split. rewrite Sx, Sy.
    destruct (argmin (map (fun k => part_cost true (S k)) _)) as [xi xs]. destruct (argmin (map (fun k => part_cost false (S k)) _)) as [yi ys]. reflexivity.
  Qed.

  (** ** Bounds with some extent in both directions *)
  Lemma cost_is rows i : 0 < extent (negb rows) -> (1 <= i < m)%nat -> exists s, part_cost rows i = Some s /\ forall s', cut_cost rows pts b m i s' <-> s' = s.
  Proof using Hm Hin.
    intros W Bi. pose proof (line_inside rows i Bi). unfold part_cost.
    destruct (proj1 (C91_score (line rows i - from rows b) (extent (negb rows)) i ltac:(lra) ltac:(lra) ltac:(lia)) ltac:(lra)) as (s1 & -> & L1).
    destruct (proj1 (C91_score (upto rows b - line rows i) (extent (negb rows)) (m - i) ltac:(lra) ltac:(lra) ltac:(lia)) ltac:(lra)) as (s2 & -> & L2).
    exists (s1 + s2). split; [reflexivity|]. intros s'. split.
    - intros (c & t1 & t2 & Hc & -> & T1 & T2). apply line_is in Hc. subst c. now rewrite (least_unique _ _ _ _ _ T1 L1), (least_unique _ _ _ _ _ T2 L2).
    - intros ->. exists (line rows i), s1, s2. split; [now apply line_is|]. auto.
  Qed.

  Lemma best_of rows : 0 < extent (negb rows) -> exists k s, argmin (map (fun k => part_cost rows (S k)) (seq 0 (m - 1))) = (k, Some s) /\ (k < m - 1)%nat /\
    cut_cost rows pts b m (k + 1) s /\ forall i s', (1 <= i < m)%nat -> cut_cost rows pts b m i s' -> s <= s' /\ (s' <= s -> (k + 1 <= i)%nat).
  Proof using Hm Hin.
    intros W. set (g := fun k => match part_cost rows (S k) with Some s => s | None => 0 end).
    assert (forall k, (k < m - 1)%nat -> part_cost rows (S k) = Some (g k)) as G.
    { intros k Bk. unfold g. destruct (cost_is rows (S k) W ltac:(lia)) as (s & -> & _). reflexivity. }
    assert (map (fun k => part_cost rows (S k)) (seq 0 (m - 1)) = map (fun k => Some (g k)) (seq 0 (m - 1))) as ->.
    { apply map_ext_in. intros k I. apply in_seq in I. apply G. lia. }
    destruct (argmin_first g (m - 1) ltac:(lia)) as (k & E & Bk & K). exists k, (g k). split; [exact E|]. split; [exact Bk|].
    assert (forall i s', (1 <= i < m)%nat -> cut_cost rows pts b m i s' <-> s' = g (i - 1)%nat) as C.
    { intros i s' Bi. destruct (cost_is rows i W Bi) as (s & Es & Cs). rewrite Cs. replace (g (i - 1)%nat) with s; [reflexivity|].
      unfold g. replace (S (i - 1)) with i by lia. now rewrite Es. }
    split; [apply C; [lia|]; f_equal; lia|]. intros i s' Bi Cs. apply C in Cs; [|exact Bi]. subst s'. destruct (K (i - 1)%nat ltac:(lia)) as [K1 K2].
    split; [exact K1|]. intros L. specialize (K2 L). lia.
  Qed.
End Cuts.

(** The cut of the density tiler is the cheapest of all candidates in both directions;
    of equally cheap ones it is the first, rows before columns. *)
Theorem C91_cheapest pts b m rows i : (2 <= m <= length pts)%nat -> inside b pts ->
  from true b < upto true b -> from false b < upto false b -> pick_scores pts b m = (rows, i) ->
  (1 <= i < m)%nat /\ exists s, cut_cost rows pts b m i s /\
    forall rows' i' s', (1 <= i' < m)%nat -> cut_cost rows' pts b m i' s' ->
      s <= s' /\ (s' <= s -> rows = true /\ rows' = false \/ rows' = rows /\ (i <= i')%nat).
Proof.
  intros Hm Hin Hx Hy. rewrite (pick_is pts b m Hm).
  destruct (best_of pts b m Hm Hin true) as (k & s & -> & Bk & Ck & K); [unfold extent; cbn; lra|].
  destruct (best_of pts b m Hm Hin false) as (k' & s' & -> & Bk' & Ck' & K'); [unfold extent; cbn; lra|].
  destruct (Rle_dec s s') as [L|L]; intros E; injection E as <- <-.
  - split; [lia|]. exists s. split; [exact Ck|]. intros [|] i t Bi Ct.
    + destruct (K i t Bi Ct) as [K1 K2]. split; [exact K1|]. auto.
    + destruct (K' i t Bi Ct) as [K1 K2]. split; [lra|]. auto.
  - split; [lia|]. exists s'. split; [exact Ck'|]. intros [|] i t Bi Ct.
    + destruct (K i t Bi Ct) as [K1 K2]. split; [lra|]. intros. exfalso. lra.
    + destruct (K' i t Bi Ct) as [K1 K2]. split; [exact K1|]. auto.
Qed.

(** ** Bounds that are flat in one direction *)

(** The direction without extent: every cut costs twice the other extent. *)
Lemma flat_own pts b m rows i : (2 <= m <= length pts)%nat -> inside b pts -> from rows b = upto rows b -> 0 < extent b (negb rows) -> (1 <= i < m)%nat ->
  part_cost pts b m rows i = Some (extent b (negb rows) + extent b (negb rows)).
Proof.
  intros Hm Hin F W Bi. pose proof (line_inside pts b m Hm Hin rows i Bi). unfold part_cost.
  replace (line pts m rows i - from rows b) with 0 by lra. replace (upto rows b - line pts m rows i) with 0 by lra. now rewrite !score_zero.
Qed.
(** The direction with extent: every cut costs this extent, or is not a number. *)
Lemma flat_other pts b m rows i : (2 <= m <= length pts)%nat -> inside b pts -> from (negb rows) b = upto (negb rows) b -> (1 <= i < m)%nat ->
  (on_border rows pts b m i -> part_cost pts b m rows i = None) /\
  (~ on_border rows pts b m i -> part_cost pts b m rows i = Some (extent b rows)).
Proof.
  intros Hm Hin F Bi. pose proof (line_inside pts b m Hm Hin rows i Bi) as I. unfold part_cost. replace (extent b (negb rows)) with 0 by (unfold extent; lra).
  unfold on_border. rewrite !line_is. split.
  - intros [E|E]; rewrite <- E.
    + rewrite (proj2 (C91_score (from rows b - from rows b) 0 i ltac:(lra) ltac:(lra) ltac:(lia))) by lra. reflexivity.
    + rewrite (proj2 (C91_score (upto rows b - upto rows b) 0 (m - i) ltac:(lra) ltac:(lra) ltac:(lia))) by lra. now destruct (score _ _ _).
  - intros N. assert (from rows b < line pts m rows i < upto rows b) as S by (split; apply Rnot_le_lt; intros L; apply N; [left|right]; lra).
    rewrite !score_flat by (lra || lia). cbn [plus_nan]. f_equal. unfold extent. lra.
Qed.
Lemma first_border (P : nat -> Prop) n : (forall k, (k < n)%nat -> P k \/ ~ P k) -> (exists k, (k < n)%nat /\ P k /\ forall j, (j < k)%nat -> ~ P j) \/ forall k, (k < n)%nat -> ~ P k.
Proof.
  induction n as [|n IH]; intros D; [right; lia|]. destruct IH as [(k & B & K)|N]; [intros; apply D; lia|left; exists k; split; [lia|exact K]|].
  destruct (D n ltac:(lia)) as [Y|Y]; [left; exists n; split; [lia|split; [exact Y|exact N]]|].
  right. intros k Bk. destruct (Nat.eq_dec k n) as [->|]; [exact Y|apply N; lia].
Qed.
Lemma border_dec rows pts b m i : on_border rows pts b m i \/ ~ on_border rows pts b m i.
Proof. unfold on_border. rewrite !line_is. destruct (Req_EM_T (from rows b) (line pts m rows i)), (Req_EM_T (upto rows b) (line pts m rows i)); tauto. Qed.

Lemma argmin_const (g : nat -> option R) n c : (0 < n)%nat -> (forall k, (k < n)%nat -> g k = Some c) -> argmin (map g (seq 0 n)) = (0%nat, Some c).
Proof.
  intros Hn G. assert (map g (seq 0 n) = map (fun k => Some ((fun _ => c) k)) (seq 0 n)) as -> by (apply map_ext_in; intros k I; apply in_seq in I; apply G; lia).
  destruct (argmin_first (fun _ => c) n Hn) as (k & -> & _ & K). destruct (K 0%nat Hn) as [_ K2]. specialize (K2 ltac:(lra)). now replace k with 0%nat by lia.
Qed.

(** Without extent in the rows the tiler cuts between columns: at the first cut on the
    border if there is one, at the first of all otherwise. *)
Theorem C91_flat_rows pts b m : (2 <= m <= length pts)%nat -> inside b pts -> from true b = upto true b -> from false b < upto false b ->
  exists i, pick_scores pts b m = (false, i) /\ (1 <= i < m)%nat /\
    (on_border false pts b m i /\ (forall j, (1 <= j < i)%nat -> ~ on_border false pts b m j) \/
     i = 1%nat /\ forall j, (1 <= j < m)%nat -> ~ on_border false pts b m j).
Proof.
  intros Hm Hin F W. rewrite (pick_is pts b m Hm).
  assert (0 < extent b false) as We by (unfold extent; lra).
  rewrite (argmin_const (fun k => part_cost pts b m true (S k)) (m - 1) (extent b false + extent b false)) by (lia || (intros k Bk; apply flat_own; auto; lia)).
  destruct (first_border (fun k => on_border false pts b m (S k)) (m - 1)) as [(k & Bk & Ok & Nk)|N].
  { intros k _. apply border_dec. }
  - rewrite (argmin_nan (fun k => part_cost pts b m false (S k)) (m - 1) k).
    + exists (k + 1)%nat. split; [reflexivity|]. split; [lia|]. left. split; [now rewrite Nat.add_1_r|]. intros j Bj. replace j with (S (j - 1)) by lia. apply Nk. lia.
    + exact Bk.
    + apply (flat_other pts b m false (S k)); auto. lia.
    + intros j Bj. rewrite (proj2 (flat_other pts b m false (S j) Hm Hin F ltac:(lia)) (Nk j Bj)). discriminate.
  - rewrite (argmin_const (fun k => part_cost pts b m false (S k)) (m - 1) (extent b false)).
    + destruct (Rle_dec _ _); [lra|]. exists 1%nat. split; [reflexivity|]. split; [lia|]. right. split; [reflexivity|]. intros j Bj. replace j with (S (j - 1)) by lia. apply N. lia.
    + lia.
    + intros k Bk. apply (flat_other pts b m false (S k)); auto. lia.
Qed.

(** Without extent in the columns it cuts between rows at the first cut, unless one of the
    cuts is on the border; then it takes a cut between columns, which has an empty side. *)
Theorem C91_flat_columns pts b m : (2 <= m <= length pts)%nat -> inside b pts -> from false b = upto false b -> from true b < upto true b ->
  ((forall j, (1 <= j < m)%nat -> ~ on_border true pts b m j) -> pick_scores pts b m = (true, 1%nat)) /\
  (forall j, (1 <= j < m)%nat -> on_border true pts b m j -> pick_scores pts b m = (false, 1%nat)).
Proof.
  intros Hm Hin F W. rewrite (pick_is pts b m Hm). assert (0 < extent b true) as We by (unfold extent; lra).
  rewrite (argmin_const (fun k => part_cost pts b m false (S k)) (m - 1) (extent b true + extent b true)) by (lia || (intros k Bk; apply flat_own; auto; lia)).
  split.
  - intros N. rewrite (argmin_const (fun k => part_cost pts b m true (S k)) (m - 1) (extent b true)).
    + destruct (Rle_dec _ _); [reflexivity|lra].
    + lia.
    + intros k Bk. apply (flat_other pts b m true (S k)); auto; [lia|]. apply N. lia.
  - intros j Bj Oj. destruct (first_border (fun k => on_border true pts b m (S k)) (m - 1)) as [(k & Bk & Ok & Nk)|N].
    { intros k _. apply border_dec. }
    + rewrite (argmin_nan (fun k => part_cost pts b m true (S k)) (m - 1) k).
      * reflexivity.
      * exact Bk.
      * apply (flat_other pts b m true (S k)); auto. lia.
      * intros i Bi. rewrite (proj2 (flat_other pts b m true (S i) Hm Hin F ltac:(lia)) (Nk i Bi)). discriminate.
    + exfalso. apply (N (j - 1)%nat); [lia|]. now replace (S (j - 1)) with j by lia.
Qed.

(** Different points on a line never give a cut on the border. *)
Lemma no_border pts b m rows j : (2 <= m <= length pts)%nat -> inside b pts -> NoDup pts -> from (negb rows) b = upto (negb rows) b -> (1 <= j < m)%nat -> ~ on_border rows pts b m j.
Proof.
  intros Hm Hin N F Bj. destruct (per_tile pts m Hm) as [N1 N2].
  assert (NoDup (sortZ (map (coord rows) pts))) as Nz.
  { eapply Permutation_NoDup; [apply Permutation_sym, sortZ_perm|]. clear Hm N1 N2. assert (forall p q, In p pts -> In q pts -> coord rows p = coord rows q -> p = q) as Inj.
    { intros p q Ip Iq E. pose proof (Hin p (negb rows) Ip). pose proof (Hin q (negb rows) Iq).
      assert (coord (negb rows) p = coord (negb rows) q) as E' by (apply eq_IZR; lra). destruct p, q, rows; cbn in *; congruence. }
    clear Hin. induction N as [|p l Np N IH]; [constructor|]. cbn [map]. constructor.
    - intros I. apply in_map_iff in I as (q & E & I). rewrite (Inj q p) in I; cbn; auto.
    - apply IH. intros q q' I I'. apply Inj; now right. }
  unfold on_border. rewrite !line_is. unfold line. set (n := (length pts / m)%nat) in *. set (z := sortZ _) in *.
  assert (length z = length pts) as Lz by (unfold z; now rewrite sortZ_length, map_length).
  assert (j * n < m * n)%nat as Bn by (apply Nat.mul_lt_mono_pos_r; lia). assert (1 <= j * n)%nat by nia.
  assert (forall k, (k < length pts)%nat -> from rows b <= IZR (nth k z 0%Z) <= upto rows b) as K.
  { intros k Hk. assert (In (nth k z 0%Z) z) as I by (apply nth_In; lia). unfold z in I at 2. apply (proj1 (sortZ_In _ _)) in I. apply in_map_iff in I as (p & E & I).
    rewrite <- E. now apply Hin. }
  pose proof (K (j * n - 1)%nat ltac:(lia)) as K1. pose proof (K (j * n)%nat ltac:(lia)) as K2. rewrite plus_IZR.
  intros E. assert (nth (j * n - 1) z 0%Z = nth (j * n) z 0%Z) as Eq by (apply eq_IZR; destruct E; lra).
  apply (proj1 (NoDup_nth z 0%Z) Nz) in Eq; lia.
Qed.

(** So for different points the direction with extent is cut, at its first cut. *)
Theorem C91_flat_distinct pts b m rows : (2 <= m <= length pts)%nat -> inside b pts -> NoDup pts ->
  from (negb rows) b = upto (negb rows) b -> from rows b < upto rows b -> pick_scores pts b m = (rows, 1%nat).
Proof.
  intros Hm Hin N F W. destruct rows.
  - apply (C91_flat_columns pts b m); auto. intros j Bj. now apply no_border.
  - destruct (C91_flat_rows pts b m Hm Hin F W) as (i & E & Bi & [[B _]|[-> _]]); [|exact E]. exfalso. revert B. now apply no_border.
Qed.

(** * Rows and columns exchanged *)

Lemma swap_coord rows pts : map (coord (negb rows)) (map swap pts) = map (coord rows) pts.
Proof. rewrite map_map. apply map_ext. intros [x y]. now destruct rows. Qed.
Lemma swap_from rows b : from (negb rows) (swap b) = from rows b.
Proof. destruct b as [x y]. now destruct rows. Qed.
Lemma swap_upto rows b : upto (negb rows) (swap b) = upto rows b.
Proof. destruct b as [x y]. now destruct rows. Qed.
Lemma swap_cost rows pts b m i s : cut_cost (negb rows) (map swap pts) (swap b) m i s <-> cut_cost rows pts b m i s.
Proof. unfold cut_cost, cut_line. now rewrite swap_coord, map_length, !swap_from, !swap_upto. Qed.
Lemma swap_inside pts b : inside b pts -> inside (swap b) (map swap pts).
Proof.
  intros H p rows I. apply in_map_iff in I as (q & <- & I). rewrite <- (negb_involutive rows), swap_from, swap_upto. specialize (H q (negb rows) I).
  now replace (coord (negb (negb rows)) (swap q)) with (coord (negb rows) q) by (destruct q, rows; reflexivity).
Qed.

(** The transposed image is cut at the same place in the other direction, unless the best
    cuts of both directions cost the same; then both are cut between rows. *)
Theorem C91_transposed pts b m rows i rows' i' : (2 <= m <= length pts)%nat -> inside b pts ->
  from true b < upto true b -> from false b < upto false b ->
  pick_scores pts b m = (rows, i) -> pick_scores (map swap pts) (swap b) m = (rows', i') ->
  rows' = negb rows /\ i' = i \/
  rows = true /\ rows' = true /\ exists s, cut_cost true pts b m i s /\ cut_cost false pts b m i' s.
Proof.
  intros Hm Hin Hx Hy E E'. destruct (C91_cheapest pts b m rows i Hm Hin Hx Hy E) as (Bi & s & C & K).
  destruct (C91_cheapest (map swap pts) (swap b) m rows' i') as (Bi' & s' & C' & K').
  - now rewrite map_length.
  - now apply swap_inside.
  - rewrite (swap_from false b : from true _ = _), (swap_upto false b : upto true _ = _). exact Hy.
  - rewrite (swap_from true b : from false _ = _), (swap_upto true b : upto false _ = _). exact Hx.
  - exact E'.
  - rewrite <- (negb_involutive rows') in C'. apply (proj1 (swap_cost _ _ _ _ _ _)) in C'. destruct (K (negb rows') i' s' Bi' C') as [K1 K2].
    destruct (K' (negb rows) i s Bi) as [K3 K4]; [now apply swap_cost|]. assert (s' = s) as -> by lra. specialize (K2 ltac:(lra)). specialize (K4 ltac:(lra)).
    destruct K2 as [[-> R]|[R L]].
    + right. destruct rows'; [|discriminate]. split; [reflexivity|]. split; [reflexivity|]. exists s. auto.
    + left. destruct K4 as [[-> R']|[R' L']]; [destruct rows; discriminate|]. split; [now rewrite <- R'|lia].
Qed.

(** * All cuts of a run *)

Lemma good_choice pts b m rows i : (2 <= m <= length pts)%nat -> inside b pts -> pick_scores pts b m = (rows, i) -> well_chosen pts b m rows i.
Proof.
  intros Hm Hin E. split.
  - intros Hx Hy. apply (C91_cheapest pts b m rows i Hm Hin Hx Hy E).
  - intros d N F W. rewrite (C91_flat_distinct pts b m d Hm Hin N F W) in E. injection E as <- <-. auto.
Qed.

Lemma in_parts rows c (pts : list (Z * Z)) :
  let mask := fun p => Qle_bool (inject_Z (axis rows p)) c in
  Permutation (filter mask pts ++ filter (fun p => negb (mask p)) pts) pts /\
  (forall p, In p (filter mask pts) -> IZR (coord rows p) <= Q2R c) /\
  (forall p, In p (filter (fun p => negb (mask p)) pts) -> Q2R c < IZR (coord rows p)).
Proof.
  cbv zeta. assert (forall p, axis rows p = coord rows p) as A by reflexivity. split; [|split].
  - induction pts as [|p pts IH]; [constructor|]. cbn [filter]. destruct (Qle_bool (inject_Z (axis rows p)) c); cbn [negb app].
    + now constructor.
    + apply Permutation_sym, Permutation_cons_app, Permutation_sym, IH.
  - intros p I. apply filter_In in I as [_ I]. apply Qle_bool_iff, Qle_Rle in I. now rewrite Q2R_inject in I.
  - intros p I. apply filter_In in I as [_ I]. rewrite A in I. rewrite <- Q2R_inject. apply Qlt_Rlt. apply Qnot_le_lt. intros L. apply Qle_bool_iff in L. now rewrite L in I.
Qed.

(** Every cut of the recursion is a good choice. *)
Theorem C91_split fuel : forall pts b m r, (1 <= m)%nat -> inside b pts -> split_rectangle pick_scores fuel pts b m = Ok r -> well_cut pts b m r.
Proof.
  induction fuel as [|fuel IH]; intros pts b m r Hm Hin E.
  - cbn [split_rectangle] in E. destruct (Nat.eqb_spec m 1) as [->|]; [|discriminate]. injection E as <-. constructor.
  - destruct (Nat.eq_dec m 1) as [->|N]; [cbn in E; injection E as <-; constructor|].
    destruct (split_rectangle_S _ _ _ _ _ _ N E) as (cuts & lo & hi & Ec & E1 & E2 & ->). destruct (pick_scores pts b m) as [rows i] eqn:Ep. cbn [fst snd] in *.
    assert (2 <= m <= length pts)%nat as Bm.
    { unfold get_splits in Ec. rewrite sortZ_length, map_length in Ec. destruct (Nat.eqb_spec (length pts / m) 0) as [|Z0]; [discriminate|].
      split; [lia|]. destruct (Nat.le_gt_cases m (length pts)) as [L|L]; [exact L|]. now rewrite (Nat.div_small _ _ L) in Z0. }
    pose proof (pick_scores_range pts b m ltac:(lia)) as Bi. rewrite Ep in Bi. cbn [snd] in Bi.
    destruct (cuts_of pts b m Bm rows) as (cuts' & Ec' & _ & _ & _ & C). change (map (axis rows) pts) with (map (coord rows) pts) in Ec. unfold side in Ec.
    rewrite Ec in Ec'. injection Ec' as <-. specialize (C i ltac:(lia)). set (c := nth i cuts 0%Q) in *.
    destruct (in_parts rows c pts) as (P1 & P2 & P3). pose proof (line_inside pts b m Bm Hin rows i ltac:(lia)) as Li. rewrite <- C in Li.
    eapply two_sides with (rows := rows) (i := i) (c := c).
    + lia.
    + now apply line_is.
    + now apply good_choice.
    + exact P1.
    + exact P2.
    + exact P3.
    + apply IH; [lia| |exact E1]. intros p d I. pose proof (P2 p I) as B. apply filter_In in I as [I _]. pose proof (Hin p d I) as K.
      clear - K B Li. clearbody c. destruct rows, d; unfold from, upto, before in *; cbn [fst snd coord] in *; lra.
    + apply IH; [lia| |exact E2]. intros p d I. pose proof (P3 p I) as B. apply filter_In in I as [I _]. pose proof (Hin p d I) as K.
      clear - K B Li. clearbody c. destruct rows, d; unfold from, upto, beyond in *; cbn [fst snd coord] in *; lra.
Qed.

(** The tiles of an image come from good choices all the way down, starting from the whole
    image, and take whole rows and columns. *)
Theorem C91_density pts sh mt t : (0 < fst sh)%Z -> (0 < snd sh)%Z -> points_in sh pts -> create_tiles_density pick_scores pts sh mt = Ok t ->
  exists parts, tiles t = map whole parts /\ well_cut pts ((0%Q, inject_Z (fst sh)), (0%Q, inject_Z (snd sh))) (ntiles t) parts.
Proof.
  intros Hr Hc Hin E. unfold create_tiles_density in E. destruct ((fst sh <=? 0) && (snd sh <=? 0))%Z; [discriminate|]. destruct (Z.leb_spec mt 0); [discriminate|].
  set (b := ((0%Q, inject_Z (fst sh)), (0%Q, inject_Z (snd sh)))) in *. set (m := Z.to_nat _) in *.
  assert (1 <= m)%nat as Hm. { pose proof (Z.sqrt_le_square mt 1 ltac:(lia) ltac:(lia)) as [A _]. assert (1 <= Z.sqrt mt)%Z by (apply A; lia). unfold m. nia. }
  destruct (Nat.eqb_spec m 1) as [_|N].
  - injection E as <-. exists [b]. split; [|constructor]. unfold whole, b. cbn [map fst snd]. rewrite !Qfloor_Z. reflexivity.
  - destruct (split_rectangle pick_scores m pts b m) as [r|] eqn:Er; [|discriminate]. cbn [bind] in E. injection E as <-.
    assert (inside b pts) as Ib.
    { intros p rows I. destruct (Hin p I) as [[A1 A2] [B1 B2]]. apply Z.lt_le_incl in A2, B2. apply IZR_le in A1, A2, B1, B2.
      destruct rows; unfold from, upto, b; cbn [fst snd coord]; rewrite Q2R_inject; replace (Q2R 0) with 0 by (unfold Q2R; cbn; lra); lra. }
    assert (qwf b) as Wb by (unfold qwf, b; cbn [fst snd]; split; change 0%Q with (inject_Z 0); rewrite <- Zle_Qle; lia).
    assert (qpoints b pts) as Qb.
    { intros p I. destruct (Hin p I) as [A B]. unfold b. cbn [fst snd]. change 0%Q with (inject_Z 0). rewrite <- !Zle_Qle. lia. }
    destruct (split_rectangle_sound _ _ _ _ _ _ pick_scores_range Hm Wb Qb Er) as (Lr & _ & F). exists r. cbn [tiles]. unfold ntiles. cbn [tiles]. rewrite map_length, Lr. split; [|now apply (C91_split m)].
    apply map_ext_in. intros a Ia. rewrite Forall_forall in F. destruct (F a Ia) as [(H1 & H2 & H3 & H4) [W1 W2]]. unfold b in *. cbn [fst snd] in *. unfold box_of_bounds, whole.
    rewrite !Q.max_r, !Q.min_r by assumption. rewrite !FloatProofs.qtrunc_nonneg; [reflexivity| | | |]; eauto using Qle_trans.
Qed.

(** * Cases *)

(** Four points along a diagonal of a wide area: the cut between columns is cheaper. *)
Definition wide : list (Z * Z) := [(0, 0); (1, 3); (2, 6); (3, 9)]%Z.
Definition wide_bounds : qbounds := ((0%Q, inject_Z 4), (0%Q, inject_Z 12)).
Lemma wide_ends : from true wide_bounds = 0 /\ upto true wide_bounds = 4 /\ from false wide_bounds = 0 /\ upto false wide_bounds = 12.
Proof. unfold from, upto, wide_bounds. cbn [fst snd]. rewrite !Q2R_inject. repeat split; unfold Q2R; cbn; lra. Qed.
Lemma wide_inside : inside wide_bounds wide.
Proof.
  destruct wide_ends as (A & B & C & D). intros p rows I. assert (0 <= coord rows p <= (if rows then 4 else 12))%Z as [L U].
  { cbn in I. destruct rows; repeat (destruct I as [<-|I]; [cbn; lia|]); destruct I. }
  apply IZR_le in L, U. destruct rows; rewrite ?A, ?B, ?C, ?D; lra.
Qed.
Lemma diagonal_ge a b m s : 0 <= b -> least_diagonal a b m s -> b <= s.
Proof.
  intros Hb [(x & X & ->) _]. apply sqrt_ge_abs; [exact Hb|]. pose proof (pow2_ge_0 (a * m / x)). assert (b ^ 2 <= (b * x) ^ 2); [|lra].
  apply pow_incr. split; [exact Hb|]. rewrite <- (Rmult_1_r b) at 1. apply Rmult_le_compat_l; lra.
Qed.
Example C91_cheapest_witness : pick_scores wide wide_bounds 2%nat = (false, 1%nat).
Proof.
  destruct (pick_scores wide wide_bounds 2%nat) as [rows i] eqn:E. destruct wide_ends as (A & B & C & D).
  assert (2 <= 2 <= length wide)%nat as Hm by (cbn; lia).
  destruct (C91_cheapest wide wide_bounds 2%nat rows i Hm wide_inside ltac:(lra) ltac:(lra) E) as (Bi & s & Cs & K). replace i with 1%nat by lia. f_equal.
  destruct rows; [exfalso|reflexivity]. replace i with 1%nat in * by lia.
  destruct (cost_is wide wide_bounds 2%nat Hm wide_inside false 1%nat) as (s' & _ & Cs'); [unfold extent; cbn [negb]; lra|lia|]. specialize (Cs' s'). destruct Cs' as [_ Cs']. specialize (Cs' eq_refl).
  destruct (K false 1%nat s' ltac:(lia) Cs') as [K1 _].
  destruct Cs as (c & s1 & s2 & _ & -> & L1 & L2). cbn [negb] in L1, L2. rewrite C, D in L1, L2. apply diagonal_ge in L1; [|lra]. apply diagonal_ge in L2; [|lra].
  destruct Cs' as (c' & t1 & t2 & Ec & -> & [_ M1] & [_ M2]). apply line_is in Ec. cbn [negb] in M1, M2. rewrite A, B, C, D in *.
  assert (c' = 9 / 2) as -> by (rewrite Ec; unfold line; cbn; lra).
  specialize (M1 1 ltac:(cbn; lra)). specialize (M2 1 ltac:(cbn; lra)). cbn [INR Nat.sub] in M1, M2.
  assert (sqrt (((9 / 2 - 0) * 1 / 1) ^ 2 + ((4 - 0) * 1) ^ 2) <= 7) by (apply sqrt_le_abs; lra).
  assert (sqrt (((12 - 9 / 2) * 1 / 1) ^ 2 + ((4 - 0) * 1) ^ 2) <= 9) by (apply sqrt_le_abs; lra). lra.
Qed.

Example C91_transposed_witness : pick_scores (map swap wide) (swap wide_bounds) 2%nat = (true, 1%nat).
Proof.
  destruct (pick_scores (map swap wide) (swap wide_bounds) 2%nat) as [rows i] eqn:E. destruct wide_ends as (A & B & C & D).
  destruct (C91_transposed wide wide_bounds 2%nat false 1%nat rows i ltac:(cbn; lia) wide_inside ltac:(lra) ltac:(lra) C91_cheapest_witness E) as [[-> ->]|[R _]]; [reflexivity|discriminate].
Qed.

(** Four points of one column, three tiles. *)
Definition narrow : qbounds := ((0%Q, inject_Z 4), (0%Q, 0%Q)).
Lemma narrow_ends : from true narrow = 0 /\ upto true narrow = 4 /\ from false narrow = 0 /\ upto false narrow = 0.
Proof. unfold from, upto, narrow. cbn [fst snd]. rewrite !Q2R_inject. repeat split; unfold Q2R; cbn; lra. Qed.
Lemma narrow_inside l : (forall p, In p l -> (0 <= fst p <= 4)%Z /\ snd p = 0%Z) -> inside narrow l.
Proof.
  destruct narrow_ends as (A & B & C & D). intros H p rows I. destruct (H p I) as [[L U] E]. apply IZR_le in L, U.
  destruct rows; cbn [coord]; rewrite ?A, ?B, ?C, ?D, ?E; lra.
Qed.
Example C91_flat_witness : pick_scores col4 narrow 3%nat = (true, 1%nat).
Proof.
  destruct narrow_ends as (A & B & C & D). apply C91_flat_distinct.
  - cbn; lia.
  - apply narrow_inside. intros p I. cbn in I. repeat (destruct I as [<-|I]; [cbn; lia|]). destruct I.
  - repeat constructor; cbn; intuition congruence.
  - cbn [negb]. lra.
  - lra.
Qed.
(** The same point twice at the border: the score is not a number, and the direction
    without extent is cut. *)
Example C91_border_witness : pick_scores [(0, 0); (0, 0); (4, 0)]%Z narrow 3%nat = (false, 1%nat).
Proof.
  destruct narrow_ends as (A & B & C & D). refine (proj2 (C91_flat_columns _ narrow 3%nat _ _ _ _) 1%nat _ _).
  - cbn; lia.
  - apply narrow_inside. intros p I. cbn in I. repeat (destruct I as [<-|I]; [cbn; lia|]). destruct I.
  - lra.
  - lra.
  - lia.
  - left. apply line_is. rewrite A. unfold line. cbn. lra.
Qed.

(** The points of [C68_column_witness] on four tiles. *)
Example C91_density_witness : exists t parts, create_tiles_density pick_scores col4 (4, 8)%Z 4 = Ok t /\ points_in (4, 8)%Z col4 /\
  tiles t = map whole parts /\ length parts = 4%nat /\ well_cut col4 ((0%Q, inject_Z 4), (0%Q, inject_Z 8)) 4 parts.
Proof.
  destruct col4_ok as (t & E). assert (points_in (4, 8)%Z col4) as P.
  { intros p I. cbn in I. repeat (destruct I as [<-|I]; [unfold in_image; cbn; lia|]). destruct I. }
  destruct (C91_density col4 (4, 8)%Z 4 t ltac:(cbn; lia) ltac:(cbn; lia) P E) as (parts & T & W). exists t, parts.
  assert (ntiles t = 4)%nat as N.
  { unfold create_tiles_density in E. change ((fst (4, 8)%Z <=? 0) && (snd (4, 8)%Z <=? 0))%Z with false in E. change (4 <=? 0)%Z with false in E.
    change (Z.to_nat (Z.sqrt 4 * Z.sqrt 4)) with 4%nat in E. cbn iota beta zeta in E. cbn [Nat.eqb] in E.
    destruct (split_rectangle pick_scores 4 col4 _ 4) as [r|] eqn:Er; [|discriminate]. cbn [bind] in E. injection E as <-. unfold ntiles. cbn [tiles]. rewrite map_length.
    apply split_rectangle_sound in Er as (L & _); [exact L|apply pick_scores_range|lia| |].
    - unfold qwf. cbn [fst snd]. split; discriminate.
    - intros p I. cbn in I. repeat (destruct I as [<-|I]; [cbn; repeat split; discriminate|]). destruct I. }
  rewrite N in W. split; [exact E|]. split; [exact P|]. split; [exact T|]. split; [|exact W]. unfold ntiles in N. now rewrite T, map_length in N.
Qed.

Print Assumptions C91_score.
Print Assumptions C91_cheapest.
Print Assumptions C91_flat_rows.
Print Assumptions C91_flat_columns.
Print Assumptions C91_flat_distinct.
Print Assumptions C91_transposed.
Print Assumptions C91_split.
Print Assumptions C91_density.
