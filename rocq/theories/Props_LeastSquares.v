(** Property C72: the least squares solvers [l2_min] and [l2_min_cg].
    Code: /repo/src/spurt/utils/merge.py:93-240. *)
From Verif Require Import Base BaseLemmas GraphSpec BulkModel DirichletModel DirichletSpec
  DirichletProofs LeastSquaresProofs.
From Coq Require Import List ZifyBool Lqa.
Import ListNotations.
Set Default Goal Selector "!".
Local Open Scope Q_scope.

(** A matrix with [n] columns. *)
Definition columns (n : nat) (a : list (list Q)) : Prop := forall row, In row a -> length row = n.
(** [cg] solves positive definite systems with [n] unknowns. *)
Definition cg_solves (cg : list (list Q) -> list Q -> list Q) (n : nat) : Prop :=
  forall m v, length m = n -> columns n m -> pos_def m -> length v = n -> solves m v (cg m v).

Lemma residual_ok a n b x : columns n a -> length x = n -> length a = length b -> residual_of a b x (subQ b (mat_vec a x)).
Proof.
  intros Hc Hx Hl. unfold residual_of, subQ, mat_vec. rewrite map_length, combine_length, map_length. split; [lia|]. intros i Hi.
  rewrite (map_nth' _ _ _ (0, 0)) by (rewrite combine_length, map_length; lia).
  rewrite (combine_nth' _ _ _ 0 0) by (rewrite map_length; lia). cbn [fst snd].
  change (map (fun row => dotQ row x) a) with (mat_vec a x).
  rewrite mat_vec_apply by (rewrite ?(Hc (nth i a [])) by (apply nth_In; lia); lia). reflexivity.
Qed.

Lemma zeros_ok a n b : length a = length b -> all_zero b = true ->
  minimises a n b (repeat 0 n) /\ residual_of a b (repeat 0 n) (repeat 0 (length a)).
Proof.
  intros L Z. split.
  - split; [apply repeat_length|]. intros y Hy. assert (misfit a b (repeat 0 n) == 0) as ->.
    + apply sumQ_map_zero. intros k _. rewrite applyQ_zeros, (all_zero_nth b k Z). ring.
    + apply sumQ_map_nonneg. intros; apply square_nonneg.
  - split; [now rewrite repeat_length|]. intros i Hi. rewrite nth_repeat, applyQ_zeros, (all_zero_nth b i Z). ring.
Qed.

Lemma injective_not_zero n a k : (0 < n)%nat -> columns n a -> injective_matrix n a -> size_zero k n a = false.
Proof.
  intros Hn Hc Inj. apply not_true_iff_false. intros E.
  assert (forall v i, applyQ a v i == 0) as Z.
  { intros v i. apply sumQ_map_zero. intros j _. destruct k; cbn [size_zero] in E.
    - rewrite forallb_forall in E. destruct (nth_in_or_default i a []) as [I|D]; [rewrite (all_zero_nth _ j (E _ I)); ring|rewrite D; destruct j; cbn; ring].
    - destruct a; [destruct i, j; cbn; ring|cbn [length] in E; lia]. }
  specialize (Inj (repeat 1 n) (repeat_length _ _) (fun i _ => Z _ i) 0%nat). destruct n; [lia|]. cbn in Inj. lra.
Qed.

(** ** [l2_min_cg] *)

(** When it returns at all, for a matrix without kernel (and positive definite if
    symmetric): a minimiser of [|A x - b|] and the residual [b - A x]. *)
Theorem C72_cg_partial cg ilu k logging maxiter n a b x r :
  cg_solves cg n -> (0 < n)%nat -> columns n a -> injective_matrix n a -> (length a = n -> sym a -> pos_def a) ->
  l2_min_cg cg ilu k logging maxiter n a b = Ok (x, r) ->
  minimises a n b x /\ residual_of a b x r.
Proof.
  intros Hcg Hn Hc Inj Hp. unfold l2_min_cg. destruct (Nat.eqb_spec (length a) (length b)) as [Lb|]; [|discriminate]. cbn [negb].
  rewrite injective_not_zero by auto.
  destruct (all_zero b) eqn:Zb. { intros H. injection H as <- <-. now apply zeros_ok. }
  assert (forall y, 0 <= misfit a b y) as Pos by (intros y; apply sumQ_map_nonneg; intros; apply square_nonneg).
  destruct (Nat.eqb_spec (length a) n) as [Ln|Ln]; cbn [andb].
  1: destruct (symmetric a) eqn:Sy.
  - destruct (ilu a); [|discriminate]. cbn [negb]. intros H.
    assert (Ok (cg a b, subQ b (mat_vec a (cg a b))) = Ok (x, r)) as E by (destruct maxiter, logging; auto; discriminate).
    injection E as <- <-. assert (pos_def a) as Pa. { apply Hp; [auto|]. apply symmetric_spec; [|auto]. rewrite Ln. exact Hc. }
    destruct (Hcg a b Ln Hc Pa ltac:(lia)) as [L S].
    split; [|apply (residual_ok a n); auto; lia]. split; [lia|]. intros y Hy. assert (misfit a b (cg a b) == 0) as ->; [|auto].
    apply sumQ_map_zero. intros i Hi. apply in_seq in Hi. rewrite S by lia. ring.
  - destruct (ilu _); [|discriminate]. cbn [negb]. destruct k; [discriminate|]. intros H. injection H as <- <-. set (m := mat_mul n (transpose n a) a). set (v := mat_vec (transpose n a) b).
    destruct (normal_shape a n) as [Lm Rm]. assert (length v = n) as Lv by (unfold v, mat_vec; rewrite map_length; apply transpose_shape).
    destruct (Hcg m v Lm Rm (normal_pos_def a n Inj) Lv) as [L S]. split; [|apply (residual_ok a n); auto; lia]. split; [lia|].
    apply normal_minimises; [lia|lia|]. intros i Hi.
    pose proof (S i ltac:(lia)) as Si. unfold m in Si at 1. rewrite apply_normal in Si by (auto; lia). unfold v in Si at 2. rewrite normal_rhs in Si by auto.
    rewrite (sumQ_map_ext _ (fun k => entry a k i * applyQ a (cg m v) k - entry a k i * nth k b 0)) by (intros; ring). rewrite sumQ_map_sub, Si. ring.
  - destruct (ilu _); [|discriminate]. cbn [negb]. destruct k; [discriminate|]. intros H. injection H as <- <-. set (m := mat_mul n (transpose n a) a). set (v := mat_vec (transpose n a) b).
    destruct (normal_shape a n) as [Lm Rm]. assert (length v = n) as Lv by (unfold v, mat_vec; rewrite map_length; apply transpose_shape).
    destruct (Hcg m v Lm Rm (normal_pos_def a n Inj) Lv) as [L S]. split; [|apply (residual_ok a n); auto; lia]. split; [lia|].
    apply normal_minimises; [lia|lia|]. intros i Hi.
    pose proof (S i ltac:(lia)) as Si. unfold m in Si at 1. rewrite apply_normal in Si by (auto; lia). unfold v in Si at 2. rewrite normal_rhs in Si by auto.
    rewrite (sumQ_map_ext _ (fun k => entry a k i * applyQ a (cg m v) k - entry a k i * nth k b 0)) by (intros; ring). rewrite sumQ_map_sub, Si. ring.
Qed.

(** When it returns. For a matrix that is neither empty nor, as an array, without
    entries, and a [b] that is not zero: only if it is square and symmetric, the
    incomplete factorisation succeeds and, with logging, a number of iterations
    was given; or if it is a dense array that is not square and symmetric. *)
Theorem C72_cg_returns cg ilu k logging maxiter n a b : columns n a ->
  ((exists xr, l2_min_cg cg ilu k logging maxiter n a b = Ok xr) <->
   length a = length b /\
   (size_zero k n a = true \/ (forall i, nth i b 0 == 0) \/
    (length a = n /\ sym a) /\ ilu a = true /\ (logging = true -> maxiter <> None) \/
    ~ (length a = n /\ sym a) /\ ilu (mat_mul n (transpose n a) a) = true /\ k = Dense)).
Proof.
  intros Hc. unfold l2_min_cg. destruct (Nat.eqb_spec (length a) (length b)) as [Lb|Nb]; cbn [negb]; [|split; [intros [? H]; discriminate|intros [? _]; easy]].
  destruct (size_zero k n a) eqn:Ez; [split; eauto|].
  assert (all_zero b = true <-> forall i, nth i b 0 == 0) as Az.
  { split; [intros Z i; now apply all_zero_nth|]. intros Z. apply all_zero_spec. intros v Iv. apply (In_nth _ _ 0) in Iv as (j & Bj & <-). apply Z. }
  destruct (all_zero b) eqn:Zb; [split; [intros _; split; [auto|right; left; now apply Az]|eauto]|].
  assert (~ forall i, nth i b 0 == 0) as Nz by (intros H; apply Az in H; discriminate).
  assert ((length a =? n)%nat && symmetric a = true <-> length a = n /\ sym a) as Sy.
  { rewrite andb_true_iff, Nat.eqb_eq. split; intros [E H]; (split; [exact E|]).
    - apply symmetric_spec; [|auto]. rewrite E. exact Hc.
    - unfold symmetric. apply forallb_forall. intros i _. apply forallb_forall. intros j _. apply Qeq_bool_iff, H. }
  destruct ((length a =? n)%nat && symmetric a) eqn:Es.
  - assert (length a = n /\ sym a) as P by now apply Sy. destruct (ilu a) eqn:Ei; cbn [negb].
    + split.
      * intros [xr H]. split; [auto|]. right. right. left. split; [auto|]. split; [auto|]. intros -> ->. discriminate.
      * intros [_ [E|[E|[(_ & _ & E)|(E & _)]]]]; [discriminate|easy| |easy].
        destruct maxiter; [eauto|]. destruct logging; [now destruct E|eauto].
    + split; [intros [? H]; discriminate|]. intros [_ [E|[E|[(_ & E & _)|(E & _)]]]]; easy.
  - assert (~ (length a = n /\ sym a)) as P by (intros H; apply Sy in H; discriminate). destruct (ilu (mat_mul _ _ _)) eqn:Ei; cbn [negb].
    + split.
      * intros [xr H]. split; [auto|]. right. right. right. split; [auto|]. split; [auto|]. destruct k; [discriminate|auto].
      * intros [_ [E|[E|[(E & _)|(_ & _ & ->)]]]]; [discriminate|easy|easy|eauto].
    + split; [intros [? H]; discriminate|]. intros [_ [E|[E|[(E & _)|(_ & E & _)]]]]; easy.
Qed.

(** The error is RuntimeError where the factorisation fails, AssertionError for a
    [b] of another length, and ValueError else. *)
Theorem C72_cg_error cg ilu k logging maxiter n a b e : l2_min_cg cg ilu k logging maxiter n a b = Err e ->
  (length a <> length b -> e = AssertionError) /\
  (length a = length b -> ilu a = true -> ilu (mat_mul n (transpose n a) a) = true -> e = ValueError) /\
  (length a = length b -> ilu a = false -> ilu (mat_mul n (transpose n a) a) = false -> e = RuntimeError).
Proof.
  unfold l2_min_cg. destruct (Nat.eqb_spec (length a) (length b)) as [Lb|Nb]; cbn [negb]; [|intros H; injection H as <-; repeat split; easy].
  intros H. split; [easy|]. split; intros _ E1 E2; rewrite E1, E2 in H; cbn [negb] in H.
  - destruct (size_zero _ _ _); [discriminate|]. destruct (all_zero b); [discriminate|]. destruct (_ && _); [destruct maxiter, logging; now inversion H|destruct k; now inversion H].
  - destruct (size_zero _ _ _); [discriminate|]. destruct (all_zero b); [discriminate|]. destruct (_ && _); now inversion H.
Qed.

(** Two by two, not symmetric. *)
Definition C72_cramer (m : list (list Q)) (r : list Q) : list Q :=
  match m with
  | [[p; q]; [s; t]] => let d := p * t - q * s in [(t * nth 0 r 0 - q * nth 1 r 0) / d; (p * nth 1 r 0 - s * nth 0 r 0) / d]
  | _ => map (fun _ => 0) r
  end.
(** A sparse matrix that is not symmetric: documented, and never solved. *)
Theorem C72_sparse_refuted : exists a b, columns 2 a /\ length a = 2%nat /\ injective_matrix 2 a /\
  (forall cg ilu logging maxiter xr, l2_min_cg cg ilu Sparse logging maxiter 2 a b <> Ok xr) /\
  exists cg x r, cg_solves cg 2 /\ (forall logging maxiter, l2_min_cg cg (fun _ => true) Dense logging maxiter 2 a b = Ok (x, r)) /\
    map Qred x = [1; 2].
Proof.
  exists [[1; 1]; [0; 1]], [3; 2]. split; [intros row [<-|[<-|[]]]; reflexivity|]. split; [reflexivity|]. split; [|split].
  - intros v Hv H. destruct v as [|v0 [|v1 [|]]]; try discriminate. pose proof (H 0%nat ltac:(cbn; lia)) as H0. pose proof (H 1%nat ltac:(cbn; lia)) as H1.
    cbn in H0, H1. assert (v1 == 0) as E1 by lra. assert (v0 == 0) as E0 by lra. intros [|[|[|i]]]; cbn; auto; reflexivity.
  - intros cg ilu logging maxiter xr. unfold l2_min_cg. cbn [length Nat.eqb negb size_zero forallb all_zero Qeq_bool andb].
    change (symmetric [[1; 1]; [0; 1]]) with false. cbn. destruct (ilu _); discriminate.
  - exists C72_cramer. eexists _, _. split; [|split; [intros [|] [|]; vm_compute; reflexivity|vm_compute; reflexivity]].
    intros [|p0 [|s0 [|]]] r L Cm [_ P] Hr; try discriminate.
    assert (length p0 = 2%nat /\ length s0 = 2%nat) as [Lp Ls] by (split; apply Cm; cbn; auto).
    destruct p0 as [|p [|q [|]]], s0 as [|s [|t [|]]]; try discriminate. cbn [C72_cramer]. destruct r as [|r0 [|r1 [|]]]; try discriminate.
    assert (~ p * t - q * s == 0) as D.
    { intros E. pose proof (P [1; 0] eq_refl) as P1. pose proof (P [q; - p] eq_refl) as P2. cbn in P1, P2.
      assert (0 < p) as Pp. { assert (0 < 1 * (p * 1 + (q * 0 + 0)) + (0 * (s * 1 + (t * 0 + 0)) + 0)) as K by (apply P1; exists 0%nat; split; [lia|cbn; lra]). lra. }
      assert (0 < q * (p * q + (q * - p + 0)) + (- p * (s * q + (t * - p + 0)) + 0)) as K by (apply P2; exists 1%nat; split; [lia|cbn; lra]). nra. }
    split; [reflexivity|]. intros i Hi. cbn [length] in Hi. destruct i as [|[|i]]; [| |lia]; unfold applyQ; cbn; field; auto.
Qed.

(** Switching logging on makes the solver raise, unless [maxiter] is given. *)
Theorem C72_logging_refuted : exists a b, columns 1 a /\ sym a /\ pos_def a /\
  (forall cg k, l2_min_cg cg (fun _ => true) k true None 1 a b = Err ValueError) /\
  (forall cg k, exists xr, l2_min_cg cg (fun _ => true) k false None 1 a b = Ok xr) /\
  (forall cg k m, exists xr, l2_min_cg cg (fun _ => true) k true (Some m) 1 a b = Ok xr).
Proof.
  exists [[2]], [2]. split; [intros row [<-|[]]; reflexivity|]. split; [intros [|i] [|j]; cbn; try destruct i; try destruct j; reflexivity|].
  split; [|split; [|split]].
  - split; [intros [|i] [|j]; cbn; try destruct i; try destruct j; reflexivity|]. intros [|v [|]] L (i & Bi & Ni); try discriminate. cbn [length] in Bi.
    assert (i = 0%nat) as -> by lia. cbn in *. assert (0 < v * v) by (destruct (Q_dec v 0) as [[?|?]|?]; [nra|nra|easy]). lra.
  - intros cg [|]; reflexivity.
  - intros cg [|]; cbn; eauto.
  - intros cg [|] m; cbn; eauto.
Qed.

(** ** [l2_min] *)

(** With solvers that return a minimiser, for a matrix that is not empty. *)
Theorem C72_l2_partial lsq lsqr k n a b x r : columns n a -> size_zero k n a = false ->
  (length a = length b -> minimises a n b (lsq a b) /\ minimises a n b (lsqr a b)) ->
  l2_min_full lsq lsqr k n a b = Ok (x, r) ->
  minimises a n b x /\ residual_of a b x r.
Proof.
  intros Hc Hz Hs. unfold l2_min_full. rewrite Hz. destruct (Nat.eqb_spec (length a) (length b)) as [Lb|]; [|discriminate]. cbn [negb]. destruct (Hs Lb) as [H1 H2].
  intros E. injection E as <- <-. destruct k.
  - split; [auto|]. apply (residual_ok a n); auto. apply H2.
  - split; [auto|]. apply (residual_ok a n); auto. apply H1.
Qed.
Theorem C72_l2_returns lsq lsqr k n a b :
  (size_zero k n a = true \/ length a = length b -> exists xr, l2_min_full lsq lsqr k n a b = Ok xr) /\
  (size_zero k n a = false -> length a <> length b -> l2_min_full lsq lsqr k n a b = Err AssertionError).
Proof.
  unfold l2_min_full. destruct (Nat.eqb_spec (length a) (length b)) as [Lb|]; destruct (size_zero k n a); cbn [negb]; split; intros; eauto; try easy.
  destruct H; easy.
Qed.

(** The tile offsets use it with a non-empty array. *)
Theorem C72_l2_bulk lsq lsqr n a b : a <> [] -> (0 < n)%nat -> l2_min_full lsq lsqr Dense n a b = l2_min lsq a b.
Proof. intros Ha Hn. unfold l2_min_full, l2_min. destruct a; [easy|]. cbn [size_zero length]. destruct (n =? 0)%nat eqn:E; [lia|]. reflexivity. Qed.

(** A matrix without entries: zeros are returned for the residual, whatever [b]
    is; [l2_min] accepts even a [b] of another length. *)
Theorem C72_empty_refuted : exists n a b, columns n a /\ length a = length b /\
  (forall lsq lsqr cg ilu logging maxiter x r,
     l2_min_full lsq lsqr Sparse n a b = Ok (x, r) \/ l2_min_cg cg ilu Sparse logging maxiter n a b = Ok (x, r) ->
     ~ residual_of a b x r /\ ~ residual_of a (map Qopp b) x r) /\
  (forall lsq lsqr, l2_min_full lsq lsqr Sparse n a [1; 2; 3] = l2_min_full lsq lsqr Sparse n a b) /\
  (exists xr, forall cg ilu logging maxiter, l2_min_cg cg ilu Sparse logging maxiter n a b = Ok xr).
Proof.
  exists 1%nat, [[0]; [0]], [1; 1]. split; [intros row [<-|[<-|[]]]; reflexivity|]. split; [reflexivity|]. split; [|split].
  - intros lsq lsqr cg ilu logging maxiter x r H. assert (x = [0] /\ r = [0; 0]) as [-> ->] by (destruct H as [H|H]; cbn in H; now injection H as <- <-).
    split; intros [_ H0]; specialize (H0 0%nat ltac:(cbn; lia)); cbn in H0; lra.
  - reflexivity.
  - eexists. intros. cbn. reflexivity.
Qed.

(** The second result is [b - A x]; the docstrings say [A x - b]. *)
Theorem C72_sign_refuted : exists lsq a b x r, columns 1 a /\ minimises a 1 b (lsq a b) /\
  (forall lsqr, l2_min_full lsq lsqr Dense 1 a b = Ok (x, r)) /\
  exists i, (i < length b)%nat /\ ~ nth i r 0 == applyQ a x i - nth i b 0.
Proof.
  exists (fun _ _ => [1]), [[1]; [1]], [0; 2]. eexists _, _. split; [intros row [<-|[<-|[]]]; reflexivity|]. split; [|split].
  - split; [reflexivity|]. intros [|y [|]] L; try discriminate. unfold misfit, applyQ. cbn. pose proof (square_nonneg (y - 1)). lra.
  - intros lsqr. cbn; reflexivity.
  - exists 0%nat. split; [cbn; lia|]. cbn. lra.
Qed.

(** Three equations for two unknowns, as an array: the normal equations. *)
Definition C72_a : list (list Q) := [[1; 0]; [1; 1]; [1; 2]].
Example C72_witness : columns 2 C72_a /\ injective_matrix 2 C72_a /\ length C72_a <> 2%nat /\
  exists x r, l2_min_cg C72_cramer (fun _ => true) Dense true None 2 C72_a [1; 2; 6] = Ok (x, r) /\
    map Qred x = [1 # 2; 5 # 2] /\ map Qred r = [1 # 2; -1; 1 # 2].
Proof.
  split; [intros row [<-|[<-|[<-|[]]]]; reflexivity|]. split; [|split; [discriminate|]].
  - intros v Hv H. destruct v as [|v0 [|v1 [|]]]; try discriminate. pose proof (H 0%nat ltac:(cbn; lia)) as H0. pose proof (H 1%nat ltac:(cbn; lia)) as H1.
    cbn in H0, H1. assert (v0 == 0) as E0 by lra. assert (v1 == 0) as E1 by lra. intros [|[|[|i]]]; cbn; auto; reflexivity.
  - eexists _, _. split; [vm_compute; reflexivity|]. split; vm_compute; reflexivity.
Qed.

Print Assumptions C72_cg_partial.
Print Assumptions C72_cg_returns.
Print Assumptions C72_cg_error.
Print Assumptions C72_sparse_refuted.
Print Assumptions C72_logging_refuted.
Print Assumptions C72_l2_partial.
Print Assumptions C72_l2_returns.
Print Assumptions C72_l2_bulk.
Print Assumptions C72_empty_refuted.
Print Assumptions C72_sign_refuted.
