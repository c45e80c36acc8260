(** Sums, broadcasting and trigonometry for Props_Links.v. *)
From Coq Require Import Reals.
From Verif Require Import Base BaseLemmas LinksModel LinksSpec.
From Coq Require Import Lra.
Import ListNotations.
Set Default Goal Selector "!".
Local Open Scope R_scope.

(** * Sums *)
Lemma big_ext n f g : (forall i, (i < n)%nat -> f i = g i) -> big n f = big n g.
Proof.
  induction n as [|n IH]; intros H; [reflexivity|]. cbn [big].
  rewrite IH by (intros i Hi; apply H; lia). rewrite H by lia. reflexivity.
Qed.
Lemma big_plus n f g : big n (fun i => f i + g i) = big n f + big n g.
Proof. induction n as [|n IH]; cbn [big]; [lra|]. rewrite IH. ring. Qed.
Lemma big_scal n c f : big n (fun i => c * f i) = c * big n f.
Proof. induction n as [|n IH]; cbn [big]; [lra|]. rewrite IH. ring. Qed.
Lemma big_zero n : big n (fun _ => 0) = 0.
Proof. induction n as [|n IH]; cbn [big]; [reflexivity|]. rewrite IH. ring. Qed.
Lemma big_le n f g : (forall i, (i < n)%nat -> f i <= g i) -> big n f <= big n g.
Proof.
  induction n as [|n IH]; intros H; cbn [big]; [lra|].
  assert (big n f <= big n g) by (apply IH; intros i Hi; apply H; lia). assert (f n <= g n) by (apply H; lia). lra.
Qed.
Lemma big_const n c : big n (fun _ => c) = INR n * c.
Proof. induction n as [|n IH]; [cbn; ring|]. cbn [big]. rewrite IH, S_INR. ring. Qed.
Lemma big_swap n m f : big n (fun i => big m (fun j => f i j)) = big m (fun j => big n (fun i => f i j)).
Proof.
  induction n as [|n IH]; cbn [big]; [symmetry; apply big_zero|]. rewrite IH. symmetry. apply big_plus.
Qed.
(** Termwise below with equal sums: termwise equal. *)
Lemma big_eq_terms n f g : (forall i, (i < n)%nat -> f i <= g i) -> big n f = big n g ->
  forall i, (i < n)%nat -> f i = g i.
Proof.
  induction n as [|n IH]; intros H E i Hi; [lia|]. cbn [big] in E.
  assert (big n f <= big n g) by (apply big_le; intros j Hj; apply H; lia). assert (f n <= g n) by (apply H; lia).
  destruct (Nat.eq_dec i n) as [->|Ne]; [lra|].
  apply IH; [intros j Hj; apply H; lia|lra|lia].
Qed.

Lemma big_shift n f : big (S n) f = f 0%nat + big n (fun i => f (S i)).
Proof.
  induction n as [|n IH]; [cbn; ring|].
  change (big (S n) f + f (S n) = f 0%nat + (big n (fun i => f (S i)) + f (S n))). rewrite IH. ring.
Qed.

Lemma sumR_big l : sumR l = big (length l) (elem l).
Proof.
  induction l as [|x l IH]; [reflexivity|]. cbn [length]. rewrite big_shift.
  cbn [sumR fold_right]. fold (sumR l). rewrite IH. reflexivity.
Qed.

Lemma elem_map f l i : (i < length l)%nat -> elem (map f l) i = f (elem l i).
Proof. intros H. apply map_nth'. exact H. Qed.

Lemma elem_map_any {A} (f : A -> R) l d i : (i < length l)%nat -> elem (map f l) i = f (nth i l d).
Proof. intros H. unfold elem. apply map_nth', H. Qed.

Lemma zip_elem f (a b : vec) i : length a = length b -> (i < length a)%nat ->
  elem (map (fun p => f (fst p) (snd p)) (combine a b)) i = f (elem a i) (elem b i).
Proof.
  intros L H. unfold elem. rewrite (map_nth' _ _ _ (0, 0)) by (rewrite combine_length; lia).
  rewrite combine_nth by exact L. reflexivity.
Qed.

Lemma bcast_same f a b : length a = length b ->
  exists r, bcast f a b = Ok r /\ length r = length a /\ forall i, (i < length a)%nat -> elem r i = f (elem a i) (elem b i).
Proof.
  intros L. unfold bcast. rewrite (proj2 (Nat.eqb_eq _ _) L). eexists. split; [reflexivity|]. split.
  - rewrite map_length, combine_length. lia.
  - intros i Hi. apply zip_elem; assumption.
Qed.

Lemma dotR_big a b : length a = length b -> dotR a b = big (length a) (fun k => elem a k * elem b k).
Proof.
  intros L. unfold dotR. rewrite sumR_big, map_length, combine_length.
  replace (Nat.min (length a) (length b)) with (length a) by lia. apply big_ext. intros i Hi.
  apply (zip_elem Rmult); assumption.
Qed.

Lemma shaped_row a j : shaped a -> (j < m_nrow a)%nat -> length (nth j (m_rows a) []) = m_ncol a.
Proof. unfold shaped. rewrite Forall_forall. intros H Hj. apply H, nth_In, Hj. Qed.

Lemma mat_dot_ok a x : shaped a -> length x = m_ncol a ->
  exists r, mat_dot a x = Ok r /\ length r = m_nrow a /\
    forall j, (j < m_nrow a)%nat -> elem r j = big (m_ncol a) (fun k => entry a j k * elem x k).
Proof.
  intros S L. unfold mat_dot. rewrite (proj2 (Nat.eqb_eq _ _) L). eexists. split; [reflexivity|].
  split; [apply map_length|]. intros j Hj. rewrite (elem_map_any (A := vec) _ _ []) by exact Hj.
  pose proof (shaped_row a j S Hj) as R. rewrite dotR_big by congruence. rewrite R. reflexivity.
Qed.

Lemma mat_t_dot_ok a y : length y = m_nrow a ->
  exists r, mat_t_dot a y = Ok r /\ length r = m_ncol a /\
    forall k, (k < m_ncol a)%nat -> elem r k = big (m_nrow a) (fun j => entry a j k * elem y j).
Proof.
  intros L. unfold mat_t_dot. rewrite (proj2 (Nat.eqb_eq _ _) L). eexists. split; [reflexivity|].
  split; [rewrite map_length; apply seq_length|]. intros k Hk.
  rewrite (elem_map_any _ _ O) by (rewrite seq_length; exact Hk). rewrite seq_nth by exact Hk.
  cbn [Nat.add]. rewrite dotR_big by (rewrite map_length; symmetry; exact L). rewrite map_length.
  apply big_ext. intros j Hj. rewrite (elem_map_any (A := vec) _ _ []) by exact Hj. reflexivity.
Qed.

Lemma residual_ok a x b : shaped a -> length x = m_ncol a -> length b = m_nrow a ->
  exists r, residual x a b = Ok r /\ length r = m_nrow a /\
    forall j, (j < m_nrow a)%nat -> elem r j = misfit a x b j.
Proof.
  intros S Lx Lb. unfold residual. destruct (mat_dot_ok a x S Lx) as (ax & -> & L & E). cbn [bind].
  destruct (bcast_same Rminus ax b) as (r & Er & Lr & G); [congruence|].
  exists r. split; [exact Er|]. split; [congruence|]. intros j Hj. rewrite G by (rewrite L; exact Hj).
  rewrite E by exact Hj. reflexivity.
Qed.

Lemma weigh_ok w v : per_observation w (length v) ->
  exists r, weigh w v = Ok r /\ length r = length v /\
    forall j, (j < length v)%nat -> elem r j = weight w j * elem v j.
Proof.
  destruct w as [c|l|m]; cbn [per_observation weigh weight]; intros H.
  - eexists. split; [reflexivity|]. split; [apply map_length|]. intros j Hj. apply elem_map, Hj.
  - destruct (bcast_same Rmult l v H) as (r & E & L & G). exists r. split; [exact E|]. split; [congruence|].
    intros j Hj. apply G. rewrite H. exact Hj.
  - destruct H.
Qed.

(** * Resultants *)
Lemma resultant_ext n w r w' r' :
  (forall j, (j < n)%nat -> w j = w' j) -> (forall j, (j < n)%nat -> cos (r j) = cos (r' j) /\ sin (r j) = sin (r' j)) ->
  resultant n w r = resultant n w' r'.
Proof.
  intros Hw Hr. unfold resultant. rewrite (big_ext n (fun j => w j * cos (r j)) (fun j => w' j * cos (r' j))),
    (big_ext n (fun j => w j * sin (r j)) (fun j => w' j * sin (r' j))); [reflexivity| |];
    intros j Hj; destruct (Hr j Hj) as [Ec Es]; rewrite Hw by exact Hj; congruence.
Qed.

Lemma resultant_bound_sq n w r :
  (big n (fun j => w j * cos (r j))) ^ 2 + (big n (fun j => w j * sin (r j))) ^ 2
  <= (big n (fun j => Rabs (w j))) ^ 2 /\ 0 <= big n (fun j => Rabs (w j)).
Proof.
  induction n as [|n [IH P]]; cbn [big]; [split; lra|].
  set (C := big n (fun j => w j * cos (r j))) in *. set (S := big n (fun j => w j * sin (r j))) in *.
  set (W := big n (fun j => Rabs (w j))) in *. clearbody C S W.
  pose proof (Rabs_pos (w n)) as A0. split; [|lra].
  pose proof (sin2_cos2 (r n)) as T. unfold Rsqr in T.
  set (c := cos (r n)) in *. set (s := sin (r n)) in *. set (u := w n) in *. clearbody c s u.
  assert (U : u * u = Rabs u * Rabs u) by (unfold Rabs; destruct (Rcase_abs u); ring).
  assert (D : Rabs (C * c + S * s) <= W).
  { apply Rsqr_incr_0_var; [|exact P]. rewrite <- Rsqr_abs. unfold Rsqr.
    assert (0 <= (C * s - S * c) * (C * s - S * c)) by apply Rle_0_sqr.
    assert ((C * c + S * s) * (C * c + S * s) + (C * s - S * c) * (C * s - S * c) = (C * C + S * S) * (s * s + c * c)) by ring.
    rewrite T in *. lra. }
  assert (M : u * (C * c + S * s) <= Rabs u * W).
  { eapply Rle_trans; [apply Rle_abs|]. rewrite Rabs_mult. apply Rmult_le_compat_l; [exact A0|exact D]. }
  assert (X : (C + u * c) ^ 2 + (S + u * s) ^ 2 = C ^ 2 + S ^ 2 + 2 * (u * (C * c + S * s)) + u * u * (s * s + c * c)) by ring.
  rewrite X, T, U.
  assert (Y : (W + Rabs u) ^ 2 = W ^ 2 + 2 * (Rabs u * W) + Rabs u * Rabs u) by ring. rewrite Y. lra.
Qed.

Lemma resultant_nonneg n w r : 0 <= resultant n w r.
Proof. apply sqrt_pos. Qed.

Lemma resultant_bound n w r : resultant n w r <= big n (fun j => Rabs (w j)).
Proof.
  destruct (resultant_bound_sq n w r) as [H P]. unfold resultant.
  rewrite <- (sqrt_pow2 _ P). apply sqrt_le_1_alt, H.
Qed.

Lemma resultant_sq n w r :
  resultant n w r ^ 2 = (big n (fun j => w j * cos (r j))) ^ 2 + (big n (fun j => w j * sin (r j))) ^ 2.
Proof. unfold resultant. apply pow2_sqrt. apply Rplus_le_le_0_compat; apply pow2_ge_0. Qed.

(** Turning every arrow by the same angle. *)
Lemma resultant_rotate n w r t : resultant n w (fun j => r j + t) = resultant n w r.
Proof.
  unfold resultant. f_equal.
  rewrite (big_ext n (fun j => w j * cos (r j + t)) (fun j => cos t * (w j * cos (r j)) + - sin t * (w j * sin (r j))))
    by (intros j _; rewrite cos_plus; ring).
  rewrite (big_ext n (fun j => w j * sin (r j + t)) (fun j => sin t * (w j * cos (r j)) + cos t * (w j * sin (r j))))
    by (intros j _; rewrite sin_plus; ring).
  rewrite !big_plus, !big_scal. pose proof (sin2_cos2 t) as T. unfold Rsqr in T.
  set (C := big n (fun j => w j * cos (r j))). set (S := big n (fun j => w j * sin (r j))).
  replace ((cos t * C + - sin t * S) ^ 2 + (sin t * C + cos t * S) ^ 2)
    with ((C ^ 2 + S ^ 2) * (sin t * sin t + cos t * cos t)) by ring. rewrite T. ring.
Qed.

(** Whole turns. *)
Lemma turn_cos_sin x k : cos (x + 2 * PI * IZR k) = cos x /\ sin (x + 2 * PI * IZR k) = sin x.
Proof.
  assert (N : forall n x, cos (x + 2 * PI * INR n) = cos x /\ sin (x + 2 * PI * INR n) = sin x).
  { intros n y. replace (y + 2 * PI * INR n) with (y + 2 * INR n * PI) by ring.
    split; [apply cos_period|apply sin_period]. }
  destruct (Z.le_gt_cases 0 k) as [H|H].
  - rewrite <- (Z2Nat.id k H), <- INR_IZR_INZ. apply N.
  - assert (E : IZR k = - INR (Z.to_nat (- k))).
    { rewrite INR_IZR_INZ, Z2Nat.id by lia. rewrite opp_IZR. ring. }
    destruct (N (Z.to_nat (- k)) (x + 2 * PI * IZR k)) as [A B]. rewrite <- A, <- B.
    rewrite E. split; f_equal; ring.
Qed.

Lemma cos_one x : cos x = 1 -> exists k, x = 2 * PI * IZR k.
Proof.
  intros H. assert (S : sin (x / 2) = 0).
  { assert (E : cos x = 1 - 2 * sin (x / 2) * sin (x / 2)) by (rewrite <- cos_2a_sin; f_equal; field).
    assert (Z : sin (x / 2) * sin (x / 2) = 0) by lra. apply Rmult_integral in Z. tauto. }
  apply sin_eq_0_0 in S as [k E]. exists k. lra.
Qed.

Lemma same_direction x y : cos x = cos y -> sin x = sin y -> exists k, x = y + 2 * PI * IZR k.
Proof.
  intros C S. destruct (cos_one (x - y)) as [k E].
  { rewrite cos_minus, C, S. pose proof (sin2_cos2 y) as T. unfold Rsqr in T. lra. }
  exists k. lra.
Qed.

(** Nonnegative weights: the resultant is full when all arrows of positive length
    point the same way, and only then. *)
Lemma resultant_aligned n w t : (forall j, (j < n)%nat -> 0 <= w j) -> resultant n w (fun _ => t) = big n w.
Proof.
  intros H. assert (P : 0 <= big n w) by (rewrite <- (big_zero n); apply big_le, H).
  unfold resultant.
  rewrite (big_ext n (fun j => w j * cos t) (fun j => cos t * w j)) by (intros; ring).
  rewrite (big_ext n (fun j => w j * sin t) (fun j => sin t * w j)) by (intros; ring).
  rewrite !big_scal. pose proof (sin2_cos2 t) as T. unfold Rsqr in T.
  replace ((cos t * big n w) ^ 2 + (sin t * big n w) ^ 2) with (big n w ^ 2 * (sin t * sin t + cos t * cos t)) by ring.
  rewrite T, Rmult_1_r. apply sqrt_pow2, P.
Qed.

Lemma resultant_full n w r : (forall j, (j < n)%nat -> 0 < w j) -> resultant n w r = big n w ->
  forall i j, (i < n)%nat -> (j < n)%nat -> exists k, r i = r j + 2 * PI * IZR k.
Proof.
  intros H E i j Hi Hj.
  set (C := big n (fun j => w j * cos (r j))). set (S := big n (fun j => w j * sin (r j))). set (W := big n w) in *.
  assert (Q : C ^ 2 + S ^ 2 = W ^ 2) by (rewrite <- E; symmetry; apply resultant_sq).
  assert (P : 0 < W).
  { unfold W. apply Rlt_le_trans with (w i); [apply H, Hi|].
    clear -H Hi. induction n as [|n IH]; [lia|]. cbn [big].
    assert (0 <= big n w) by (rewrite <- (big_zero n); apply big_le; intros k Hk; apply Rlt_le, H; lia).
    assert (0 < w n) by (apply H; lia). destruct (Nat.eq_dec i n) as [->|N]; [lra|].
    assert (w i <= big n w) by (apply IH; [intros k Hk; apply H; lia|lia]). lra. }
  (* Unit vector of the resultant. *)
  assert (U : (C / W) ^ 2 + (S / W) ^ 2 = 1).
  { replace ((C / W) ^ 2 + (S / W) ^ 2) with ((C ^ 2 + S ^ 2) / W ^ 2) by (field; lra). rewrite Q. field. lra. }
  set (c := C / W) in *. set (s := S / W) in *.
  assert (T : forall k, (k < n)%nat -> w k * (c * cos (r k) + s * sin (r k)) = w k).
  { apply big_eq_terms.
    - intros k Hk. rewrite <- (Rmult_1_r (w k)) at 2. apply Rmult_le_compat_l; [apply Rlt_le, H, Hk|].
      pose proof (sin2_cos2 (r k)) as X. unfold Rsqr in X.
      assert (0 <= (c - cos (r k)) ^ 2) by apply pow2_ge_0. assert (0 <= (s - sin (r k)) ^ 2) by apply pow2_ge_0. nra.
    - rewrite (big_ext n _ (fun k => c * (w k * cos (r k)) + s * (w k * sin (r k)))) by (intros; ring).
      rewrite big_plus, !big_scal. fold C S W. unfold c, s.
      replace (C / W * C + S / W * S) with ((C ^ 2 + S ^ 2) / W) by (field; lra). rewrite Q. field. lra. }
  assert (D : forall k, (k < n)%nat -> cos (r k) = c /\ sin (r k) = s).
  { intros k Hk. specialize (T k Hk). specialize (H k Hk).
    assert (V : c * cos (r k) + s * sin (r k) = 1).
    { apply Rmult_eq_reg_l with (w k); [rewrite Rmult_1_r; exact T|lra]. }
    pose proof (sin2_cos2 (r k)) as X. unfold Rsqr in X.
    assert (Z : (c - cos (r k)) ^ 2 + (s - sin (r k)) ^ 2 = 0) by nra.
    assert (Z1 : (c - cos (r k)) ^ 2 = 0) by (pose proof (pow2_ge_0 (c - cos (r k))); pose proof (pow2_ge_0 (s - sin (r k))); lra).
    assert (Z2 : (s - sin (r k)) ^ 2 = 0) by (pose proof (pow2_ge_0 (c - cos (r k))); pose proof (pow2_ge_0 (s - sin (r k))); lra).
    split.
    - assert (Y : (c - cos (r k)) * (c - cos (r k)) = 0) by lra. apply Rmult_integral in Y. lra.
    - assert (Y : (s - sin (r k)) * (s - sin (r k)) = 0) by lra. apply Rmult_integral in Y. lra. }
  destruct (D i Hi) as [Ci Si], (D j Hj) as [Cj Sj]. apply same_direction; congruence.
Qed.

(** * Derivatives *)
Lemma big_derivable n f f' t : (forall i, (i < n)%nat -> derivable_pt_lim (f i) t (f' i)) ->
  derivable_pt_lim (fun t => big n (fun i => f i t)) t (big n f').
Proof.
  induction n as [|n IH]; intros H; cbn [big].
  - apply derivable_pt_lim_const.
  - apply (derivable_pt_lim_plus (fun t => big n (fun i => f i t)) (f n)).
    + apply IH. intros i Hi. apply H. lia.
    + apply H. lia.
Qed.

Lemma line_derivable c p t : derivable_pt_lim (fun t => c + t * p) t p.
Proof.
  assert (H : derivable_pt_lim (fun t => c + t * p) t (0 + (1 * p + t * 0)));
    [|replace (0 + (1 * p + t * 0)) with p in H by ring; exact H].
  apply (derivable_pt_lim_plus (fun _ => c) (fun t => t * p)); [apply derivable_pt_lim_const|].
  apply (derivable_pt_lim_mult id (fun _ => p)); [apply derivable_pt_lim_id|apply derivable_pt_lim_const].
Qed.

Lemma wcos_derivable w c p t : derivable_pt_lim (fun t => w * cos (c + t * p)) t (w * (- sin (c + t * p) * p)).
Proof.
  apply (derivable_pt_lim_scal (fun t => cos (c + t * p))).
  apply (derivable_pt_lim_comp (fun t => c + t * p) cos); [apply line_derivable|apply derivable_pt_lim_cos].
Qed.
Lemma wsin_derivable w c p t : derivable_pt_lim (fun t => w * sin (c + t * p)) t (w * (cos (c + t * p) * p)).
Proof.
  apply (derivable_pt_lim_scal (fun t => sin (c + t * p))).
  apply (derivable_pt_lim_comp (fun t => c + t * p) sin); [apply line_derivable|apply derivable_pt_lim_sin].
Qed.

(** Turning each arrow at its own speed p. *)
Lemma resultant_derivable n w r p :
  resultant n w r <> 0 ->
  derivable_pt_lim (fun t => resultant n w (fun j => r j + t * p j)) 0
    ((big n (fun j => w j * cos (r j)) * big n (fun j => - (w j * sin (r j)) * p j)
      + big n (fun j => w j * sin (r j)) * big n (fun j => (w j * cos (r j)) * p j)) / resultant n w r).
Proof.
  intros NZ.
  set (C := fun t => big n (fun j => w j * cos (r j + t * p j))).
  set (S := fun t => big n (fun j => w j * sin (r j + t * p j))).
  assert (R0 : forall j, r j + 0 * p j = r j) by (intros; ring).
  assert (C0 : C 0 = big n (fun j => w j * cos (r j))) by (apply big_ext; intros j _; rewrite R0; reflexivity).
  assert (S0 : S 0 = big n (fun j => w j * sin (r j))) by (apply big_ext; intros j _; rewrite R0; reflexivity).
  set (C' := big n (fun j => - (w j * sin (r j)) * p j)). set (S' := big n (fun j => (w j * cos (r j)) * p j)).
  assert (DC : derivable_pt_lim C 0 C').
  { unfold C, C'. erewrite (big_ext n (fun j => - (w j * sin (r j)) * p j)).
    - apply (big_derivable n (fun j t => w j * cos (r j + t * p j))). intros j _. apply wcos_derivable.
    - intros j _. cbn beta. rewrite R0. ring. }
  assert (DS : derivable_pt_lim S 0 S').
  { unfold S, S'. erewrite (big_ext n (fun j => (w j * cos (r j)) * p j)).
    - apply (big_derivable n (fun j t => w j * sin (r j + t * p j))). intros j _. apply wsin_derivable.
    - intros j _. cbn beta. rewrite R0. ring. }
  assert (Q : resultant n w r = sqrt (C 0 ^ 2 + S 0 ^ 2)) by (rewrite C0, S0; reflexivity).
  rewrite <- C0, <- S0, Q. rewrite Q in NZ.
  assert (Pos : 0 < C 0 ^ 2 + S 0 ^ 2).
  { pose proof (pow2_ge_0 (C 0)). pose proof (pow2_ge_0 (S 0)).
    destruct (Rle_lt_or_eq_dec 0 (C 0 ^ 2 + S 0 ^ 2)) as [L|E]; [lra|exact L|].
    exfalso. apply NZ. rewrite <- E. apply sqrt_0. }
  assert (DQ : derivable_pt_lim (fun t => C t ^ 2 + S t ^ 2) 0 (2 * C 0 * C' + 2 * S 0 * S')).
  { apply (derivable_pt_lim_plus (fun t => C t ^ 2) (fun t => S t ^ 2)).
    - replace (2 * C 0 * C') with (INR 2 * C 0 ^ Nat.pred 2 * C') by (cbn; ring).
      apply (derivable_pt_lim_comp C (fun y => y ^ 2)); [exact DC|apply derivable_pt_lim_pow].
    - replace (2 * S 0 * S') with (INR 2 * S 0 ^ Nat.pred 2 * S') by (cbn; ring).
      apply (derivable_pt_lim_comp S (fun y => y ^ 2)); [exact DS|apply derivable_pt_lim_pow]. }
  assert (F : (C 0 * C' + S 0 * S') / sqrt (C 0 ^ 2 + S 0 ^ 2)
    = / (2 * sqrt (C 0 ^ 2 + S 0 ^ 2)) * (2 * C 0 * C' + 2 * S 0 * S')) by (field; exact NZ).
  rewrite F.
  apply (derivable_pt_lim_comp (fun t => C t ^ 2 + S t ^ 2) sqrt); [exact DQ|apply derivable_pt_lim_sqrt, Pos].
Qed.
