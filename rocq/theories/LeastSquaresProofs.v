(** Lemmas about least squares (normal equations).
    Code: /repo/src/spurt/utils/merge.py:93-240. *)
From Verif Require Import Base BaseLemmas GraphModel GraphSpec BulkModel DirichletModel DirichletSpec
  LaplacianProofs DirichletProofs.
From Coq Require Import List ZifyBool Lqa.
Import ListNotations.
Set Default Goal Selector "!".
Local Open Scope Q_scope.

(** ** Least squares *)
Lemma square_nonneg (q : Q) : 0 <= q * q.
Proof. nra. Qed.

Section LeastSquares.
  Variables (a : list (list Q)) (n : nat).
  Hypothesis Sq : forall row, In row a -> length row = n.
  Notation m := (length a).

  Lemma transpose_entry i j : (i < n)%nat -> (j < m)%nat -> entry (transpose n a) i j = entry a j i.
  Proof using.
    intros Hi Hj. unfold entry at 1, transpose. rewrite (map_nth' _ _ _ 0%nat) by (now rewrite seq_length). rewrite seq_nth by auto.
    rewrite (map_nth' _ _ _ 0%nat) by (now rewrite seq_length). now rewrite seq_nth.
  Qed.
  Lemma transpose_shape : length (transpose n a) = n /\ forall i, (i < n)%nat -> length (nth i (transpose n a) []) = m.
  Proof using.
    unfold transpose. split; [now rewrite map_length, seq_length|]. intros i Hi. rewrite (map_nth' _ _ _ 0%nat) by (now rewrite seq_length). now rewrite map_length, seq_length.
  Qed.
  (** [(A^T A)_ij] and [(A^T b)_i] *)
  Lemma normal_entry i j : (i < n)%nat -> (j < n)%nat ->
    entry (mat_mul n (transpose n a) a) i j == sumQ (map (fun k => entry a k i * entry a k j) (seq 0 m)).
  Proof using.
    intros Hi Hj. destruct transpose_shape as [L R]. unfold entry at 1, mat_mul. rewrite (map_nth' _ _ _ []) by lia. rewrite (map_nth' _ _ _ []) by lia.
    rewrite dot_nth by (now rewrite !R). rewrite R by auto. apply sumQ_map_ext. intros k Hk. apply in_seq in Hk.
    change (nth k (nth i (transpose n a) []) 0) with (entry (transpose n a) i k). change (nth k (nth j (transpose n a) []) 0) with (entry (transpose n a) j k).
    rewrite !transpose_entry by lia. reflexivity.
  Qed.
  Lemma normal_rhs b i : length b = m -> (i < n)%nat -> nth i (mat_vec (transpose n a) b) 0 == sumQ (map (fun k => entry a k i * nth k b 0) (seq 0 m)).
  Proof using.
    intros Hb Hi. destruct transpose_shape as [L R]. unfold mat_vec. rewrite (map_nth' _ _ _ []) by lia. rewrite dot_nth by (rewrite R; lia). rewrite Hb.
    apply sumQ_map_ext. intros k Hk. apply in_seq in Hk. change (nth k (nth i (transpose n a) []) 0) with (entry (transpose n a) i k). rewrite transpose_entry by lia. reflexivity.
  Qed.
  Lemma normal_shape : length (mat_mul n (transpose n a) a) = n /\ forall row, In row (mat_mul n (transpose n a) a) -> length row = n.
  Proof using.
    destruct transpose_shape as [L R]. unfold mat_mul. split; [now rewrite map_length|]. intros row I. apply in_map_iff in I as (r & <- & _). now rewrite map_length.
  Qed.
  Lemma apply_normal x i : length x = n -> (i < n)%nat ->
    applyQ (mat_mul n (transpose n a) a) x i == sumQ (map (fun k => entry a k i * applyQ a x k) (seq 0 m)).
  Proof using.
    intros Hx Hi. unfold applyQ at 1. rewrite Hx.
    rewrite (sumQ_map_ext _ (fun j => sumQ (map (fun k => entry a k i * (entry a k j * nth j x 0)) (seq 0 m)))).
    - rewrite sumQ_swap. apply sumQ_map_ext. intros k _. rewrite sumQ_map_mul. unfold applyQ. rewrite Hx. reflexivity.
    - intros j Hj. apply in_seq in Hj. change (nth j (nth i (mat_mul n (transpose n a) a) []) 0) with (entry (mat_mul n (transpose n a) a) i j). rewrite normal_entry by lia.
      rewrite Qmult_comm, <- sumQ_map_mul. apply sumQ_map_ext. intros k _. ring.
  Qed.
  (** [y . A^T w = A y . w] *)
  Lemma adjoint y w : length y = n ->
    sumQ (map (fun i => nth i y 0 * sumQ (map (fun k => entry a k i * w k) (seq 0 m))) (seq 0 n)) ==
    sumQ (map (fun k => applyQ a y k * w k) (seq 0 m)).
  Proof using.
    intros Hy. rewrite (sumQ_map_ext _ (fun i => sumQ (map (fun k => nth i y 0 * (entry a k i * w k)) (seq 0 m)))) by (intros i _; now rewrite sumQ_map_mul).
    rewrite sumQ_swap. apply sumQ_map_ext. intros k _. unfold applyQ. rewrite Hy, Qmult_comm, <- sumQ_map_mul. apply sumQ_map_ext. intros i _. unfold entry. ring.
  Qed.
  Lemma apply_diff x y k : length x = n -> length y = n ->
    applyQ a y k - applyQ a x k == applyQ a (map (fun i => nth i y 0 - nth i x 0) (seq 0 n)) k.
  Proof using.
    intros Hx Hy. unfold applyQ. rewrite map_length, seq_length, Hx, Hy, <- sumQ_map_sub. apply sumQ_map_ext. intros j Hj. apply in_seq in Hj.
    rewrite (map_nth' _ _ _ 0%nat) by (rewrite seq_length; lia). rewrite seq_nth by lia. cbn [Nat.add]. ring.
  Qed.
  Lemma normal_minimises b x : length b = m -> length x = n ->
    (forall i, (i < n)%nat -> sumQ (map (fun k => entry a k i * (applyQ a x k - nth k b 0)) (seq 0 m)) == 0) ->
    forall y, length y = n -> misfit a b x <= misfit a b y.
  Proof using.
    intros Hb Hx H y Hy. unfold misfit. rewrite Hb. set (d := map (fun i => nth i y 0 - nth i x 0) (seq 0 n)).
    assert (length d = n) as Hd by (unfold d; now rewrite map_length, seq_length).
    pose proof (adjoint d (fun k => applyQ a x k - nth k b 0) Hd) as A. cbn beta in A. rewrite sumQ_map_zero in A by (intros i Hi; apply in_seq in Hi; rewrite H by lia; ring).
    assert (sumQ (map (fun i => (applyQ a y i - nth i b 0) * (applyQ a y i - nth i b 0)) (seq 0 m)) ==
      sumQ (map (fun i => (applyQ a x i - nth i b 0) * (applyQ a x i - nth i b 0)) (seq 0 m)) +
      (sumQ (map (fun i => applyQ a d i * applyQ a d i) (seq 0 m)) + 2 * sumQ (map (fun i => applyQ a d i * (applyQ a x i - nth i b 0)) (seq 0 m)))) as ->.
    { rewrite <- sumQ_map_mul, <- !sumQ_map_add. apply sumQ_map_ext. intros k _. unfold d. rewrite <- apply_diff by auto. ring. }
    rewrite <- A. assert (0 <= sumQ (map (fun i => applyQ a d i * applyQ a d i) (seq 0 m))) as P; [|lra].
    apply sumQ_map_nonneg. intros k _. apply square_nonneg.
  Qed.
  Lemma normal_pos_def : injective_matrix n a -> pos_def (mat_mul n (transpose n a) a).
  Proof using.
    intros Inj. destruct normal_shape as [Ln Rn]. split.
    - intros i j. change (entry (mat_mul n (transpose n a) a) i j == entry (mat_mul n (transpose n a) a) j i).
      destruct (Nat.lt_ge_cases i n) as [Hi|Hi], (Nat.lt_ge_cases j n) as [Hj|Hj].
      + rewrite !normal_entry by auto. apply sumQ_map_ext. intros k _. ring.
      + rewrite !entry_oob; [reflexivity|left; lia|right; rewrite Ln; auto].
      + rewrite !entry_oob; [reflexivity|right; rewrite Ln; auto|left; lia].
      + rewrite !entry_oob; [reflexivity|left; lia|left; lia].
    - rewrite Ln. intros v Hv (i & Bi & Ni).
      rewrite (sumQ_map_ext _ (fun i => nth i v 0 * sumQ (map (fun k => entry a k i * applyQ a v k) (seq 0 m)))) by (intros j Hj; apply in_seq in Hj; rewrite apply_normal by lia; reflexivity).
      rewrite (adjoint v (fun k => applyQ a v k) Hv).
      assert (0 <= sumQ (map (fun k => applyQ a v k * applyQ a v k) (seq 0 m))) as P by (apply sumQ_map_nonneg; intros k _; apply square_nonneg).
      destruct (Qlt_le_dec 0 (sumQ (map (fun k => applyQ a v k * applyQ a v k) (seq 0 m)))) as [|Q0]; [auto|]. exfalso. apply Ni.
      apply Inj; [auto|]. intros k Hk.
      assert (applyQ a v k * applyQ a v k == 0) as Z.
      { apply (sumQ_nonneg_zero (fun k => applyQ a v k * applyQ a v k) (seq 0 m)); [intros; apply square_nonneg|lra|apply in_seq; lia]. }
      destruct (Qmult_integral _ _ Z); auto.
  Qed.
End LeastSquares.

Lemma symmetric_spec a : (forall row, In row a -> length row = length a) -> symmetric a = true -> sym a.
Proof.
  intros Sq H i j. change (entry a i j == entry a j i). unfold symmetric in H. rewrite forallb_forall in H.
  destruct (Nat.lt_ge_cases i (length a)) as [Hi|Hi], (Nat.lt_ge_cases j (length a)) as [Hj|Hj].
  - specialize (H i). rewrite forallb_forall in H. apply Qeq_bool_iff, H; apply in_seq; lia.
  - rewrite !entry_oob; [reflexivity|left; lia|right; auto].
  - rewrite !entry_oob; [reflexivity|right; auto|left; lia].
  - rewrite !entry_oob; [reflexivity|left; lia|left; lia].
Qed.

