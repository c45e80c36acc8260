(** C52-C54 and C57: temporal coherence, its Jacobian, and the link models. *)
From Coq Require Import Reals.
From Verif Require Import Base BaseLemmas EmcfModel PoolProofs LinksModel LinksSpec LinksProofs.
From Coq Require Import Lra ZifyBool.
Import ListNotations.
Set Default Goal Selector "!".
Local Open Scope R_scope.

(** * C52 *)

(** The value is minus the length of the weighted sum of phasors. *)
Theorem C52_value a x b w : matching a x b w ->
  neg_temporal_coherence x a b w = Ok (- coherence a x b w).
Proof.
  intros (S & Lx & Lb & P). unfold neg_temporal_coherence.
  destruct (residual_ok a x b S Lx Lb) as (r & -> & Lr & Er). cbn [bind].
  destruct (weigh_ok w (map cos r)) as (re & -> & L1 & E1); [rewrite map_length, Lr; exact P|]. cbn [bind].
  destruct (weigh_ok w (map sin r)) as (im & -> & L2 & E2); [rewrite map_length, Lr; exact P|]. cbn [bind].
  rewrite map_length in L1, L2, E1, E2. unfold coherence, resultant. do 3 f_equal. rewrite !sumR_big, L1, L2, Lr.
  f_equal; f_equal; apply big_ext; intros j Hj.
  - rewrite E1 by (rewrite Lr; exact Hj). rewrite elem_map by (rewrite Lr; exact Hj). rewrite Er by exact Hj. reflexivity.
  - rewrite E2 by (rewrite Lr; exact Hj). rewrite elem_map by (rewrite Lr; exact Hj). rewrite Er by exact Hj. reflexivity.
Qed.

Theorem C52_bounds a x b w : matching a x b w ->
  exists v, neg_temporal_coherence x a b w = Ok v /\
    - big (m_nrow a) (fun j => Rabs (weight w j)) <= v <= 0.
Proof.
  intros M. rewrite (C52_value _ _ _ _ M). eexists. split; [reflexivity|].
  pose proof (resultant_nonneg (m_nrow a) (weight w) (misfit a x b)).
  pose proof (resultant_bound (m_nrow a) (weight w) (misfit a x b)). unfold coherence. lra.
Qed.

(** Whole cycles and a common constant in the data make no difference. *)
Theorem C52_periodic a x b b' w t k : matching a x b w -> length b' = m_nrow a ->
  (forall j, (j < m_nrow a)%nat -> elem b' j = elem b j + t + 2 * PI * IZR (k j)) ->
  neg_temporal_coherence x a b' w = neg_temporal_coherence x a b w.
Proof.
  intros M L H. destruct M as (S & Lx & Lb & P).
  rewrite !C52_value by (split; [|split; [|split]]; assumption). do 2 f_equal. unfold coherence.
  rewrite <- (resultant_rotate _ _ (misfit a x b) (- t)). apply resultant_ext; [reflexivity|].
  intros j Hj. unfold misfit. rewrite (H j Hj). set (y := big _ _).
  destruct (turn_cos_sin (y - (elem b j + t + 2 * PI * IZR (k j))) (k j)) as [A B]. rewrite <- A, <- B.
  split; f_equal; ring.
Qed.

(** The model explains the data up to a common constant and whole cycles. *)
Definition explains (a : mat) (x b : vec) : Prop :=
  exists t (k : nat -> Z), forall j, (j < m_nrow a)%nat ->
    big (m_ncol a) (fun i => entry a j i * elem x i) = elem b j + t + 2 * PI * IZR (k j).

Theorem C52_perfect a x b w : matching a x b w ->
  (forall j, (j < m_nrow a)%nat -> 0 <= weight w j) -> explains a x b ->
  neg_temporal_coherence x a b w = Ok (- big (m_nrow a) (weight w)).
Proof.
  intros M H (t & k & E). rewrite (C52_value _ _ _ _ M). do 2 f_equal. unfold coherence.
  rewrite <- (resultant_aligned _ _ t H). apply resultant_ext; [reflexivity|]. intros j Hj.
  unfold misfit. rewrite (E j Hj). destruct (turn_cos_sin t (k j)) as [A B]. rewrite <- A, <- B.
  split; f_equal; ring.
Qed.

(** With positive weights, only a perfect model reaches the maximum. *)
Theorem C52_perfect_only a x b w : matching a x b w ->
  (forall j, (j < m_nrow a)%nat -> 0 < weight w j) ->
  neg_temporal_coherence x a b w = Ok (- big (m_nrow a) (weight w)) -> explains a x b.
Proof.
  intros M H E. rewrite (C52_value _ _ _ _ M) in E.
  assert (F : resultant (m_nrow a) (weight w) (misfit a x b) = big (m_nrow a) (weight w)).
  { injection E as E. unfold coherence in E. lra. }
  destruct (m_nrow a) as [|n] eqn:En; [exists 0, (fun _ => 0%Z); intros j Hj; lia|].
  pose proof (resultant_full _ _ _ H F) as D.
  assert (K : forall j, exists k, (j < S n)%nat -> misfit a x b j = misfit a x b 0%nat + 2 * PI * IZR k).
  { intros j. destruct (lt_dec j (S n)) as [Hj|Hj]; [|exists 0%Z; intros; lia].
    destruct (D j O) as [k Hk]; [lia|lia|]. exists k. intros _. exact Hk. }
  assert (KK : exists kf : nat -> Z, forall j, (j < S n)%nat -> misfit a x b j = misfit a x b 0%nat + 2 * PI * IZR (kf j)).
  { clear -K. induction (S n) as [|m IH]; [exists (fun _ => 0%Z); intros j Hj; lia|].
    destruct IH as [kf Hkf]; [intros j; destruct (K j) as [k Hk]; exists k; intros Hj; apply Hk; lia|].
    destruct (K m) as [k Hk]. exists (fun j => if Nat.eq_dec j m then k else kf j). intros j Hj.
    destruct (Nat.eq_dec j m) as [->|N]; [apply Hk; lia|apply Hkf; lia]. }
  destruct KK as [kf Hkf]. exists (misfit a x b 0%nat), kf. rewrite En. intros j Hj. specialize (Hkf j Hj).
  unfold misfit at 1 in Hkf. lra.
Qed.

(** * C53 *)

(** x + t d *)
Definition move (x : vec) (t : R) (d : vec) : vec := map (fun p => fst p + t * snd p) (combine x d).

Lemma move_elem x t d i : length x = length d -> (i < length x)%nat -> elem (move x t d) i = elem x i + t * elem d i.
Proof. intros L H. apply (zip_elem (fun u v => u + t * v)); assumption. Qed.

Lemma misfit_move a x b t d j : length x = m_ncol a -> length d = m_ncol a ->
  misfit a (move x t d) b j = misfit a x b j + t * big (m_ncol a) (fun k => entry a j k * elem d k).
Proof.
  intros Lx Ld. unfold misfit.
  rewrite (big_ext (m_ncol a) (fun k => entry a j k * elem (move x t d) k)
    (fun k => entry a j k * elem x k + t * (entry a j k * elem d k))).
  - rewrite big_plus, big_scal. ring.
  - intros k Hk. rewrite move_elem by lia. ring.
Qed.

Lemma matching_move a x b w t d : matching a x b w -> length d = m_ncol a -> matching a (move x t d) b w.
Proof.
  intros (S & Lx & Lb & P) Ld. split; [exact S|]. split; [|split; assumption].
  unfold move. rewrite map_length, combine_length. lia.
Qed.

(** The second component is the derivative along every direction. *)
Theorem C53_jacobian a x b w : matching a x b w -> coherence a x b w <> 0 ->
  exists v g, neg_temporal_coherence_with_jacobian x a b w = Ok (v, g) /\
    neg_temporal_coherence x a b w = Ok v /\ length g = m_ncol a /\
    forall d, length d = m_ncol a ->
      exists F, (forall t, neg_temporal_coherence (move x t d) a b w = Ok (F t)) /\ F 0 = v /\
        derivable_pt_lim F 0 (big (m_ncol a) (fun k => elem g k * elem d k)).
Proof.
  intros M NZ. pose proof M as (S & Lx & Lb & P).
  pose proof (C52_value _ _ _ _ M) as V. unfold neg_temporal_coherence in V. unfold neg_temporal_coherence_with_jacobian.
  destruct (residual_ok a x b S Lx Lb) as (r & Hr & Lr & Er). rewrite Hr in V |- *. cbn [bind] in V |- *.
  destruct (weigh_ok w (map cos r)) as (re & Hre & L1 & E1); [rewrite map_length, Lr; exact P|]. rewrite Hre in V |- *. cbn [bind] in V |- *.
  destruct (weigh_ok w (map sin r)) as (im & Him & L2 & E2); [rewrite map_length, Lr; exact P|]. rewrite Him in V |- *. cbn [bind] in V |- *.
  rewrite map_length in L1, L2, E1, E2.
  assert (Ere : forall j, (j < m_nrow a)%nat -> elem re j = weight w j * cos (misfit a x b j)).
  { intros j Hj. rewrite E1 by lia. rewrite elem_map by lia. rewrite Er by exact Hj. reflexivity. }
  assert (Eim : forall j, (j < m_nrow a)%nat -> elem im j = weight w j * sin (misfit a x b j)).
  { intros j Hj. rewrite E2 by lia. rewrite elem_map by lia. rewrite Er by exact Hj. reflexivity. }
  set (t1 := sumR re) in *. set (t2 := sumR im) in *.
  assert (T1 : t1 = big (m_nrow a) (fun j => weight w j * cos (misfit a x b j))).
  { unfold t1. rewrite sumR_big, L1, Lr. apply big_ext, Ere. }
  assert (T2 : t2 = big (m_nrow a) (fun j => weight w j * sin (misfit a x b j))).
  { unfold t2. rewrite sumR_big, L2, Lr. apply big_ext, Eim. }
  assert (RV : - sqrt (t1 ^ 2 + t2 ^ 2) = - coherence a x b w) by congruence. rewrite RV. clear V.
  destruct (mat_t_dot_ok a (map (fun s => 2 * - s) im)) as (u & -> & Lu & Eu); [rewrite map_length; lia|]. cbn [bind].
  destruct (mat_t_dot_ok a (map (fun c => 2 * c) re)) as (q & -> & Lq & Eq); [rewrite map_length; lia|]. cbn [bind].
  destruct (bcast_same Rplus (map (Rmult t1) u) (map (Rmult t2) q)) as (s & -> & Ls & Es);
    [rewrite !map_length; lia|]. cbn [bind]. rewrite map_length in Ls, Es.
  eexists _, _. split; [reflexivity|]. split; [apply (C52_value _ _ _ _ M)|].
  split; [rewrite map_length; lia|]. intros d Ld.
  set (p := fun j => big (m_ncol a) (fun k => entry a j k * elem d k)).
  exists (fun t => - resultant (m_nrow a) (weight w) (fun j => misfit a x b j + t * p j)). split; [|split].
  - intros t. rewrite (C52_value _ _ _ _ (matching_move _ _ _ _ t d M Ld)). do 2 f_equal. unfold coherence.
    apply resultant_ext; [reflexivity|]. intros j _. rewrite misfit_move by assumption. split; reflexivity.
  - f_equal. apply resultant_ext; [reflexivity|]. intros j _. rewrite Rmult_0_l, Rplus_0_r. split; reflexivity.
  - assert (D := resultant_derivable (m_nrow a) (weight w) (misfit a x b) p NZ).
    rewrite <- T1, <- T2 in D. fold (coherence a x b w) in D.
    match type of D with derivable_pt_lim ?F _ ?l => set (L := l) in D;
      assert (D' : derivable_pt_lim (fun t => - F t) 0 (- L)) by (apply (derivable_pt_lim_opp F); exact D) end.
    match goal with |- derivable_pt_lim _ _ ?g => replace g with (- L); [exact D'|] end.
    set (co := coherence a x b w) in *.
    assert (G : forall k, (k < m_ncol a)%nat ->
      elem (map (Rmult (1 / (2 * - co))) s) k * elem d k
      = - / co * (t1 * (big (m_nrow a) (fun j => entry a j k * elem d k * - elem im j))
                  + t2 * (big (m_nrow a) (fun j => entry a j k * elem d k * elem re j)))).
    { intros k Hk. rewrite elem_map by lia. rewrite Es by lia. rewrite !elem_map by lia. rewrite Eu, Eq by exact Hk.
      rewrite (big_ext (m_nrow a) (fun j => entry a j k * elem (map (fun s => 2 * - s) im) j) (fun j => 2 * (entry a j k * - elem im j)))
        by (intros j Hj; rewrite elem_map by lia; ring).
      rewrite (big_ext (m_nrow a) (fun j => entry a j k * elem (map (fun c => 2 * c) re) j) (fun j => 2 * (entry a j k * elem re j)))
        by (intros j Hj; rewrite elem_map by lia; ring).
      rewrite (big_ext (m_nrow a) (fun j => entry a j k * elem d k * - elem im j) (fun j => elem d k * (entry a j k * - elem im j)))
        by (intros; ring).
      rewrite (big_ext (m_nrow a) (fun j => entry a j k * elem d k * elem re j) (fun j => elem d k * (entry a j k * elem re j)))
        by (intros; ring).
      rewrite !big_scal. field. exact NZ. }
    rewrite (big_ext _ _ _ G). rewrite big_scal, big_plus, !big_scal.
    rewrite (big_swap (m_ncol a) (m_nrow a) (fun k j => entry a j k * elem d k * - elem im j)).
    rewrite (big_swap (m_ncol a) (m_nrow a) (fun k j => entry a j k * elem d k * elem re j)).
    unfold L, Rdiv. rewrite (big_ext (m_nrow a) (fun j => - (weight w j * sin (misfit a x b j)) * p j)
      (fun j => big (m_ncol a) (fun k => entry a j k * elem d k * - elem im j))).
    2:{ intros j Hj. rewrite <- (Eim j Hj). unfold p. rewrite <- big_scal. apply big_ext. intros; ring. }
    rewrite (big_ext (m_nrow a) (fun j => weight w j * cos (misfit a x b j) * p j)
      (fun j => big (m_ncol a) (fun k => entry a j k * elem d k * elem re j))).
    2:{ intros j Hj. rewrite <- (Ere j Hj). unfold p. rewrite <- big_scal. apply big_ext. intros; ring. }
    ring.
Qed.

(** In particular its k-th entry is the k-th partial derivative. *)
Theorem C53_each_parameter a x b w v g k : matching a x b w -> coherence a x b w <> 0 ->
  neg_temporal_coherence_with_jacobian x a b w = Ok (v, g) -> (k < m_ncol a)%nat ->
  exists F, (forall t, neg_temporal_coherence (upd x k (elem x k + t)) a b w = Ok (F t)) /\
    derivable_pt_lim F 0 (elem g k).
Proof.
  intros M NZ E Hk. destruct (C53_jacobian a x b w M NZ) as (v' & g' & E' & _ & Lg & D).
  assert (g' = g) as -> by congruence.
  set (d := map (fun i => if (i =? k)%nat then 1 else 0) (seq 0 (m_ncol a))).
  assert (Ld : length d = m_ncol a) by (unfold d; rewrite map_length; apply seq_length).
  assert (Ed : forall i, (i < m_ncol a)%nat -> elem d i = if (i =? k)%nat then 1 else 0).
  { intros i Hi. unfold d. rewrite (elem_map_any _ _ O) by (rewrite seq_length; exact Hi). rewrite seq_nth by exact Hi. reflexivity. }
  destruct (D d Ld) as (F & HF & _ & DF). exists F. split.
  - intros t. rewrite <- HF. f_equal. destruct M as (_ & Lx & _).
    apply (nth_ext _ _ 0 0).
    + rewrite upd_length. unfold move. rewrite map_length, combine_length. lia.
    + intros i Hi. rewrite upd_length in Hi. change (nth i (move x t d) 0) with (elem (move x t d) i).
      rewrite move_elem by lia. rewrite Ed by lia.
      destruct (Nat.eqb_spec i k) as [->|N].
      * rewrite nth_upd_eq by lia. ring.
      * rewrite nth_upd_neq by auto. unfold elem. ring.
  - assert (Z : big (m_ncol a) (fun i => elem g i * elem d i) = elem g k).
    { rewrite (big_ext _ _ (fun i => if (i =? k)%nat then elem g i else 0))
        by (intros i Hi; rewrite Ed by exact Hi; destruct (i =? k)%nat; ring).
      clear -Hk. induction (m_ncol a) as [|n IH]; [lia|]. cbn [big]. destruct (Nat.eqb_spec n k) as [->|N].
      - rewrite (big_ext k _ (fun _ => 0)), big_zero; [ring|]. intros i Hi. destruct (Nat.eqb_spec i k); [lia|reflexivity].
      - rewrite IH by lia. ring. }
    rewrite Z in DF. exact DF.
Qed.

(** * C54 *)
Section Many.
  Context {range : Type} (brute : mat -> list range -> vec -> weights -> res (vec * R)).
  Local Open Scope nat_scope.

  Notation many := (estimate_model_many brute).
  Notation one := (estimate_model brute).

  (** Weights that are the same for every input. *)
  Definition shared (w : option weights) (n : nat) : Prop :=
    match w with None => True | Some w => per_observation w n end.

  Lemma many_unfold sched cpu m data w wc : m_nrow data = nobs m -> 0 < nobs m -> shared w (nobs m) ->
    (forall l, Permutation (sched l) l) ->
    exists order, Permutation order (seq 0 (m_ncol data)) /\
      many sched cpu m data w wc
      = (do rs <- map_res (fun ii => do r <- one m (column data ii) w; Ok (ii, r)) order;
         Ok (set_rows (repeat (repeat 0%R (ndim m), 0%R) (m_ncol data)) rs)).
  Proof.
    intros Ln Pn Sw Hs. unfold estimate_model_many. rewrite Ln, Nat.eqb_refl. cbn [negb].
    assert (Lc : forall ii, length (column data ii) = nobs m) by (intros ii; unfold column; rewrite map_length; exact Ln).
    assert (Dw : default_weights m = Ok (W0 (/ INR (nobs m)))).
    { unfold default_weights. destruct (Nat.eqb_spec (nobs m) 0); [lia|reflexivity]. }
    set (w' := match w with None => _ | Some _ => _ end).
    assert (W : exists x, w' = Ok x /\ (forall ii, one m (column data ii) w = one m (column data ii) (Some x)) /\
      (forall ii, solve brute (lm_matrix m) (lm_ranges m) (column data ii) x = one m (column data ii) w)).
    { unfold w', estimate_model. destruct w as [[c|l|q]|]; cbn [shared per_observation] in Sw.
      - eexists. split; [reflexivity|]. split; reflexivity.
      - rewrite Sw, Nat.eqb_refl. eexists. split; [reflexivity|]. split; [reflexivity|].
        intros ii. cbn [bind]. rewrite Sw, Lc, Nat.eqb_refl. reflexivity.
      - destruct Sw.
      - rewrite Dw. eexists. split; [reflexivity|]. split; reflexivity. }
    destruct W as (x & -> & E1 & E2). cbn [bind].
    destruct (time_workers wc cpu =? 1)%Z.
    - exists (seq 0 (m_ncol data)). split; [reflexivity|]. f_equal. apply map_res_ext. intros ii _. rewrite E1. reflexivity.
    - exists (sched (seq 0 (m_ncol data))). split; [apply Hs|]. f_equal. apply map_res_ext. intros ii _. rewrite E2. reflexivity.
  Qed.

  (** Every column is the estimate of its own data, and an error of the batch is
      an error of some column. *)
  Theorem C54_columns_partial sched cpu m data w wc :
    m_nrow data = nobs m -> 0 < nobs m -> shared w (nobs m) -> (forall l, Permutation (sched l) l) ->
    (forall F, many sched cpu m data w wc = Ok F <->
       length F = m_ncol data /\ forall i, i < m_ncol data -> one m (column data i) w = Ok (nth i F ([], 0%R))) /\
    (forall e, many sched cpu m data w wc = Err e ->
       exists i, i < m_ncol data /\ one m (column data i) w = Err e).
  Proof.
    intros Ln Pn Sw Hs. destruct (many_unfold sched cpu m data w wc Ln Pn Sw Hs) as (order & Po & ->).
    set (f := fun ii => one m (column data ii) w).
    change (map_res _ order) with (map_res (fun ii => do a <- f ii; Ok (ii, a)) order).
    set (init := repeat _ _). assert (Li : length init = m_ncol data) by apply repeat_length.
    assert (B : forall i, In i (seq 0 (m_ncol data)) -> i < length init) by (intros i Hi; apply in_seq in Hi; lia).
    split.
    - intros F. split.
      + destruct (map_res _ order) as [rs|] eqn:E; cbn [bind]; [|discriminate]. intros [= <-].
        destruct (gather_ok f order _ Po (seq_NoDup _ _) init rs ([], 0%R) B E) as (L & G & _).
        split; [etransitivity; [exact L|exact Li]|]. intros i Hi. apply G, in_seq. lia.
      + intros [LF HF].
        destruct (gather_total f order _ Po) as [rs E].
        { intros i Hi. apply in_seq in Hi. exists (nth i F ([], 0%R)). apply HF. lia. }
        rewrite E. cbn [bind]. destruct (gather_ok f order _ Po (seq_NoDup _ _) init rs ([], 0%R) B E) as (L & G & _).
        f_equal. apply (nth_ext _ _ ([], 0%R) ([], 0%R)); [etransitivity; [exact L|etransitivity; [exact Li|symmetry; exact LF]]|].
        intros i Hi. assert (Hi' : i < m_ncol data) by (eapply Nat.lt_le_trans; [exact Hi|apply Nat.eq_le_incl; etransitivity; [exact L|exact Li]]).
        assert (H1 := G i). assert (H2 := HF i). unfold f in H1. rewrite H2 in H1 by lia.
        assert (X : Ok (nth i F ([], 0%R)) = Ok (nth i (set_rows init rs) ([], 0%R))) by (apply H1, in_seq; lia).
        injection X as X. symmetry. exact X.
    - intros e. destruct (map_res _ order) as [rs|e'] eqn:E; cbn [bind]; [discriminate|]. intros [= <-].
      apply (gather_err f order _ Po) in E as (i & Hi & E). apply in_seq in Hi. exists i. split; [lia|exact E].
  Qed.

  (** The number of workers and the order in which they finish do not matter. *)
  Theorem C54_workers_partial sched sched' cpu cpu' m data w wc wc' F :
    m_nrow data = nobs m -> 0 < nobs m -> shared w (nobs m) ->
    (forall l, Permutation (sched l) l) -> (forall l, Permutation (sched' l) l) ->
    many sched cpu m data w wc = Ok F -> many sched' cpu' m data w wc' = Ok F.
  Proof.
    intros Ln Pn Sw H H' E.
    apply (proj1 (C54_columns_partial sched' cpu' m data w wc' Ln Pn Sw H')).
    apply (proj1 (C54_columns_partial sched cpu m data w wc Ln Pn Sw H)). exact E.
  Qed.

  (** Shapes that are rejected whatever the number of inputs. *)
  Theorem C54_bad_shape sched cpu m data w wc :
    (m_nrow data <> nobs m -> many sched cpu m data w wc = Err ValueError) /\
    (forall l, w = Some (W1 l) -> length l <> nobs m -> many sched cpu m data w wc = Err ValueError) /\
    (forall q, w = Some (W2 q) -> m_nrow q <> m_nrow data \/ m_ncol q <> m_ncol data ->
       many sched cpu m data w wc = Err ValueError).
  Proof.
    unfold estimate_model_many. destruct (Nat.eqb_spec (m_nrow data) (nobs m)) as [E|E]; cbn [negb].
    2:{ repeat split; reflexivity. }
    split; [contradiction|]. split.
    - intros l -> N. destruct (Nat.eqb_spec (length l) (nobs m)); [contradiction|]. reflexivity.
    - intros q -> N. destruct (Nat.eqb_spec (m_nrow q) (m_nrow data)); [|reflexivity].
      destruct (Nat.eqb_spec (m_ncol q) (m_ncol data)); [|reflexivity]. tauto.
  Qed.

  (** One set of weights per input: with a single worker every such call raises. *)
  Theorem C54_per_input_serial_refuted sched cpu m data q wc :
    time_workers wc cpu = 1%Z -> 0 < m_ncol data ->
    many sched cpu m data (Some (W2 q)) wc = Err ValueError.
  Proof.
    intros Hw Hn. unfold estimate_model_many.
    destruct (m_nrow data =? nobs m); [|reflexivity]. cbn [negb].
    destruct (negb _); [reflexivity|]. destruct (m_nrow q =? nobs m); [|reflexivity]. cbn [bind].
    rewrite Hw. cbn [Z.eqb Pos.eqb]. destruct (m_ncol data) as [|n]; [lia|]. reflexivity.
  Qed.
End Many.

(** The documented result for one set of weights per input. *)
Definition own_weights {range} (brute : mat -> list range -> vec -> weights -> res (vec * R))
    (m : link_model range) (data q : mat) (i : nat) : res (vec * R) :=
  estimate_model brute m (column data i) (Some (W1 (column q i))).

(** With several workers all weights are used for every input: two observations,
    two inputs, all weights one, a constant model and zero data give a "coherence"
    of 4 instead of 2, for any grid search that evaluates its objective. *)
Theorem C54_per_input_pool_refuted :
  exists (m : link_model unit) data q, m_nrow data = nobs m /\ m_nrow q = nobs m /\ m_ncol q = m_ncol data /\
    forall on_grid brute sched cpu, brute_contract on_grid brute -> (forall l, Permutation (sched l) l) ->
    forall F, estimate_model_many brute sched cpu m data (Some (W2 q)) (Some 2%Z) = Ok F ->
    forall i r, (i < 2)%nat -> own_weights brute m data q i = Ok r ->
      snd (nth i F ([], 0)) = 4 /\ snd r = 2.
Proof.
  set (a := Mat [[0]; [0]] 1). set (z := Mat [[0; 0]; [0; 0]] 2). set (q := Mat [[1; 1]; [1; 1]] 2).
  exists (LinkModel a [tt]), z, q. split; [reflexivity|]. split; [reflexivity|]. split; [reflexivity|].
  intros on_grid brute sched cpu C Hs F E i r Hi Er.
  assert (Col : column z i = [0; 0]) by (destruct i as [|[|i]]; [reflexivity|reflexivity|lia]).
  assert (Cq : column q i = [1; 1]) by (destruct i as [|[|i]]; [reflexivity|reflexivity|lia]).
  unfold own_weights, estimate_model in Er. rewrite Cq in Er. cbn [bind] in Er.
  rewrite Col in Er. cbn [length Nat.eqb lm_matrix lm_ranges] in Er. unfold solve in Er.
  destruct (brute a [tt] [0; 0] (W1 [1; 1])) as [[x v]|] eqn:B1; [|discriminate]. cbn [bind fst snd] in Er.
  injection Er as <-. cbn [snd]. destruct (C _ _ _ _ _ _ B1) as (Lx & V & _).
  destruct x as [|x [|]]; [discriminate| |discriminate].
  assert (Z0 : 0 * x + 0 - 0 = 0) by ring.
  assert (V1 : v = -2).
  { unfold neg_temporal_coherence, residual, mat_dot, a in V. cbn in V. unfold dotR in V. cbn in V.
    rewrite Z0, cos_0, sin_0 in V.
    assert (Q : v = - sqrt ((1 * 1 + (1 * 1 + 0)) * ((1 * 1 + (1 * 1 + 0)) * 1) + (1 * 0 + (1 * 0 + 0)) * ((1 * 0 + (1 * 0 + 0)) * 1))) by congruence.
    rewrite Q. replace (_ + _) with (2 * 2) by ring. rewrite sqrt_square by lra. reflexivity. }
  split; [|lra].
  unfold estimate_model_many in E. cbn [m_nrow m_rows length nobs lm_matrix a z q m_ncol Nat.eqb negb andb bind time_workers Z.leb Z.compare Z.eqb Pos.eqb] in E.
  change (negb (m_nrow z =? nobs (LinkModel a [tt]))%nat) with false in E. cbn iota in E.
  change (nobs (LinkModel a [tt])) with 2%nat in E. cbn [m_nrow m_rows length Nat.eqb negb andb bind] in E.
  set (f := fun ii => solve brute a [tt] (column z ii) (W2 q)).
  match type of E with context [map_res ?g ?o] =>
    change (map_res g o) with (map_res (fun ii => do x <- f ii; Ok (ii, x)) (sched (seq 0 2))) in E end.
  destruct (map_res _ (sched (seq 0 2))) as [rs|] eqn:M; [|discriminate]. cbn [bind] in E. injection E as <-.
  match goal with |- context [set_rows ?i _] => set (init := i) end.
  destruct (gather_ok f (sched (seq 0 2)) (seq 0 2) (Hs _) (seq_NoDup _ _) init rs ([], 0)) as (_ & G & _).
  { intros k Hk. apply in_seq in Hk. exact (proj2 Hk). }
  { exact M. }
  specialize (G i). unfold f, solve in G. rewrite Col in G.
  destruct (brute a [tt] [0; 0] (W2 q)) as [[y u]|] eqn:B2.
  2:{ exfalso. assert (X : Err e = Ok (nth i (set_rows init rs) ([], 0))) by (apply G, in_seq; lia). discriminate. }
  cbn [bind fst snd] in G.
  assert (X : Ok (y, - u) = Ok (nth i (set_rows init rs) ([], 0))) by (apply G, in_seq; lia).
  injection X as X. transitivity (snd (y, - u)); [apply f_equal; symmetry; exact X|]. cbn [snd]. destruct (C _ _ _ _ _ _ B2) as (Ly & U & _).
  destruct y as [|y [|]]; [discriminate| |discriminate].
  assert (Z1 : 0 * y + 0 - 0 = 0) by ring.
  unfold neg_temporal_coherence, residual, mat_dot, a, q in U. cbn in U. unfold dotR in U. cbn in U.
  rewrite Z1, cos_0, sin_0 in U.
  match type of U with Ok (- sqrt ?e) = _ => assert (Q : u = - sqrt e) by congruence; rewrite Q; replace e with (4 * 4) by ring end.
  rewrite sqrt_square by lra. lra.
Qed.

(** Such a search exists and the calls return. *)
Example C54_pool_witness :
  let brute := fun (a : mat) (_ : list unit) b w =>
    do v <- neg_temporal_coherence (repeat 0 (m_ncol a)) a b w; Ok (repeat 0 (m_ncol a), v) in
  brute_contract (fun _ _ => False) brute /\
  let m := LinkModel (Mat [[0]; [0]] 1) [tt] in let z := Mat [[0; 0]; [0; 0]] 2 in let q := Mat [[1; 1]; [1; 1]] 2 in
  (exists F, estimate_model_many brute (@rev nat) 4 m z (Some (W2 q)) (Some 2%Z) = Ok F) /\
  exists r, own_weights brute m z q 1 = Ok r.
Proof.
  intros brute. split.
  - intros a rg b w x v. unfold brute. destruct (neg_temporal_coherence _ a b w) as [u|] eqn:E; [|discriminate].
    cbn [bind]. intros [= <- <-]. split; [apply repeat_length|]. split; [exact E|]. intros g u' [].
  - intros m z q. split; eexists; reflexivity.
Qed.

(** * C57 *)
Section Estimate.
  Context {range : Type} (on_grid : list range -> vec -> Prop)
    (brute : mat -> list range -> vec -> weights -> res (vec * R)).

  (** The weights in use. *)
  Definition effective (m : link_model range) (w : option weights) : weights :=
    match w with None => W0 (/ INR (nobs m)) | Some w => w end.

  Lemma estimate_model_solve m b w r : estimate_model brute m b w = Ok r -> length b = nobs m ->
    per_observation (effective m w) (nobs m) /\
    exists x v, brute (lm_matrix m) (lm_ranges m) b (effective m w) = Ok (x, v) /\ r = (x, - v).
  Proof.
    intros E Lb. unfold estimate_model in E.
    assert (S : forall w', solve brute (lm_matrix m) (lm_ranges m) b w' = Ok r ->
      exists x v, brute (lm_matrix m) (lm_ranges m) b w' = Ok (x, v) /\ r = (x, - v)).
    { intros w' H. unfold solve in H. destruct (brute _ _ _ _) as [[x v]|]; [|discriminate]. cbn in H.
      injection H as <-. eauto. }
    destruct w as [[c|l|q]|]; cbn [bind effective] in *.
    - split; [exact I|]. apply S, E.
    - destruct (Nat.eqb_spec (length l) (length b)) as [L|L]; [|discriminate]. split; [cbn; congruence|]. apply S, E.
    - discriminate.
    - unfold default_weights in E. destruct (nobs m =? 0)%nat; [discriminate|]. cbn [bind] in E.
      split; [exact I|]. apply S, E.
  Qed.

  (** The estimate is never worse than any grid point and its quality is its
      temporal coherence, at most the sum of the weights. *)
  Theorem C57_quality m b w r : brute_contract on_grid brute -> shaped (lm_matrix m) -> length b = nobs m ->
    estimate_model brute m b w = Ok r ->
    length (fst r) = ndim m /\ snd r = coherence (lm_matrix m) (fst r) b (effective m w) /\
    0 <= snd r <= big (nobs m) (fun j => Rabs (weight (effective m w) j)) /\
    forall g, on_grid (lm_ranges m) g -> length g = ndim m ->
      coherence (lm_matrix m) g b (effective m w) <= snd r.
  Proof.
    intros C S Lb E. destruct (estimate_model_solve m b w r E Lb) as (P & x & v & B & ->). cbn [fst snd].
    destruct (C _ _ _ _ _ _ B) as (Lx & V & Min).
    assert (M : forall y, length y = ndim m -> matching (lm_matrix m) y b (effective m w)).
    { intros y Ly. split; [exact S|]. split; [exact Ly|]. split; [exact Lb|exact P]. }
    rewrite (C52_value _ _ _ _ (M x Lx)) in V.
    assert (Ev : - v = coherence (lm_matrix m) x b (effective m w)) by (injection V as V; lra).
    split; [exact Lx|]. split; [exact Ev|]. split.
    - rewrite Ev. split; [apply resultant_nonneg|apply resultant_bound].
    - intros g Hg Lg. specialize (Min g _ Hg (C52_value _ _ _ _ (M g Lg))). lra.
  Qed.

  (** If some grid point explains the data, the estimate does, with full quality
      (1 for the default weights). *)
  Theorem C57_recovers m b w r g : brute_contract on_grid brute -> shaped (lm_matrix m) -> length b = nobs m ->
    (forall j, (j < nobs m)%nat -> 0 < weight (effective m w) j) ->
    on_grid (lm_ranges m) g -> length g = ndim m -> explains (lm_matrix m) g b ->
    estimate_model brute m b w = Ok r ->
    explains (lm_matrix m) (fst r) b /\ snd r = big (nobs m) (weight (effective m w)) /\
    (w = None -> snd r = 1).
  Proof.
    intros C S Lb Pw Hg Lg X E. destruct (estimate_model_solve m b w r E Lb) as (P & _).
    destruct (C57_quality m b w r C S Lb E) as (Lx & Ev & [_ Hi] & Min). specialize (Min g Hg Lg).
    assert (M : forall y, length y = ndim m -> matching (lm_matrix m) y b (effective m w)).
    { intros y Ly. split; [exact S|]. split; [exact Ly|]. split; [exact Lb|exact P]. }
    assert (Fg : coherence (lm_matrix m) g b (effective m w) = big (nobs m) (weight (effective m w))).
    { pose proof (C52_perfect _ _ _ _ (M g Lg) (fun j Hj => Rlt_le _ _ (Pw j Hj)) X) as Q.
      rewrite (C52_value _ _ _ _ (M g Lg)) in Q. unfold nobs. injection Q as Q. lra. }
    rewrite (big_ext (nobs m) (fun j => Rabs (weight (effective m w) j)) (weight (effective m w))) in Hi
      by (intros j Hj; apply Rabs_right; specialize (Pw j Hj); lra).
    assert (F : snd r = big (nobs m) (weight (effective m w))) by lra.
    split; [|split; [exact F|]].
    - apply (C52_perfect_only _ _ _ _ (M _ Lx) Pw). rewrite (C52_value _ _ _ _ (M _ Lx)), <- Ev, F. reflexivity.
    - intros ->. rewrite F. change (big (nobs m) (fun _ => / INR (nobs m)) = 1). rewrite big_const. apply Rinv_r.
      unfold estimate_model, default_weights in E. destruct (Nat.eqb_spec (nobs m) 0); [discriminate|].
      apply not_0_INR. assumption.
  Qed.
End Estimate.

(** * Concrete cases *)

(** One parameter, two observations, one cycle and a constant off. *)
Example C52_witness :
  let a := Mat [[1]; [2]] 1 in let x := [3] in let b := [2; 5 + 2 * PI] in let w := W1 [1; 3] in
  matching a x b w /\ explains a x b /\ neg_temporal_coherence x a b w = Ok (-4).
Proof.
  intros a x b w.
  assert (M : matching a x b w) by (repeat split; repeat constructor).
  assert (X : explains a x b).
  { exists 1, (fun j => if (j =? 1)%nat then -1 else 0)%Z. intros [|[|j]] Hj; cbn; [lra|lra|cbn in Hj; lia]. }
  split; [exact M|]. split; [exact X|]. rewrite (C52_perfect _ _ _ _ M).
  - f_equal. cbn. lra.
  - intros [|[|j]] Hj; cbn; [lra|lra|cbn in Hj; lia].
  - exact X.
Qed.

(** A slope that is not zero: derivative at a quarter turn. *)
Example C53_witness :
  let a := Mat [[1]; [0]] 1 in let x := [PI / 2] in let b := [0; 0] in
  matching a x b (W0 1) /\ coherence a x b (W0 1) = sqrt 2 /\ coherence a x b (W0 1) <> 0 /\
  exists v g, neg_temporal_coherence_with_jacobian x a b (W0 1) = Ok (v, g) /\ elem g 0 = / sqrt 2.
Proof.
  intros a x b.
  assert (M : matching a x b (W0 1)) by (repeat split; repeat constructor).
  assert (r0 : 0 + 1 * (PI / 2) - 0 = PI / 2) by lra. assert (r1 : 0 + 0 * (PI / 2) - 0 = 0) by lra.
  assert (Co : coherence a x b (W0 1) = sqrt 2).
  { unfold coherence, resultant, misfit. cbn. unfold entry, elem. cbn. rewrite r0, r1, cos_PI2, sin_PI2, cos_0, sin_0.
    f_equal. ring. }
  assert (P : sqrt 2 > 0) by (apply sqrt_lt_R0; lra).
  split; [exact M|]. split; [exact Co|]. split; [rewrite Co; lra|].
  unfold neg_temporal_coherence_with_jacobian, residual, mat_dot, mat_t_dot, bcast, m_nrow, a. cbn.
  unfold dotR. cbn. do 2 eexists. split; [reflexivity|]. unfold elem. cbn.
  assert (R0 : 1 * (PI / 2) + 0 - 0 = PI / 2) by lra. assert (R1 : 0 * (PI / 2) + 0 - 0 = 0) by lra.
  rewrite R0, R1, cos_PI2, sin_PI2, cos_0, sin_0.
  match goal with |- context [sqrt ?e] => replace e with 2 by ring end.
  field. lra.
Qed.

(** Two inputs, two workers finishing in reverse order. *)
Example C54_witness :
  let brute := fun (_ : mat) (_ : list unit) (b : vec) (_ : weights) => Ok ([elem b 0], - elem b 1) in
  let m := LinkModel (Mat [[1]; [2]] 1) [tt] in let data := Mat [[5; 6]; [7; 8]] 2 in
  m_nrow data = nobs m /\ (0 < nobs m)%nat /\
  estimate_model_many brute (@rev nat) 8 m data None (Some 2%Z) = Ok [([5], - - 7); ([6], - - 8)].
Proof.
  intros brute m data. split; [reflexivity|]. split; [cbn; lia|].
  unfold estimate_model_many, default_weights. cbn. reflexivity.
Qed.

(** A search over a two-point grid that evaluates both. *)
Example C57_witness :
  exists (brute : mat -> list unit -> vec -> weights -> res (vec * R)),
    brute_contract (fun _ g => g = [0] \/ g = [3]) brute /\
    let m := LinkModel (Mat [[1]; [2]] 1) [tt] in
    exists r, estimate_model brute m [3; 6] None = Ok r /\ explains (lm_matrix m) [3] [3; 6].
Proof.
  exists (fun a _ b w =>
    match neg_temporal_coherence [0] a b w, neg_temporal_coherence [3] a b w with
    | Ok u, Ok v => if (m_ncol a =? 1)%nat then if Rle_dec u v then Ok ([0], u) else Ok ([3], v) else Err ValueError
    | _, _ => Err ValueError
    end).
  split.
  - intros a rg b w x v. destruct (neg_temporal_coherence [0] a b w) as [u0|] eqn:E0; [|discriminate].
    destruct (neg_temporal_coherence [3] a b w) as [u3|] eqn:E3; [|discriminate].
    destruct (Nat.eqb_spec (m_ncol a) 1) as [N|N]; [|discriminate].
    destruct (Rle_dec u0 u3) as [L|L]; intros [= <- <-].
    + split; [rewrite N; reflexivity|]. split; [exact E0|]. intros g u [->| ->] Eu; [rewrite E0 in Eu|rewrite E3 in Eu]; injection Eu as <-; lra.
    + split; [rewrite N; reflexivity|]. split; [exact E3|]. intros g u [->| ->] Eu; [rewrite E0 in Eu|rewrite E3 in Eu]; injection Eu as <-; lra.
  - intros m.
    assert (M : forall z, matching (lm_matrix m) [z] [3; 6] (W0 (/ 2))) by (intros; repeat split; repeat constructor).
    unfold estimate_model, default_weights, solve. cbn [nobs m_nrow lm_matrix m m_rows length Nat.eqb bind INR].
    change (INR (nobs m)) with (INR 2). replace (INR 2) with 2 by (cbn; lra).
    rewrite !(C52_value _ _ _ _ (M _)). cbn [m_ncol Nat.eqb].
    assert (Xp : explains (lm_matrix m) [3] [3; 6]); [|destruct (Rle_dec _ _); cbn [bind]; eexists; split; [reflexivity|exact Xp|reflexivity|exact Xp]].
    exists 0, (fun _ => 0%Z). intros [|[|j]] Hj; cbn; [lra|lra|cbn in Hj; lia].
Qed.

Print Assumptions C52_value.
Print Assumptions C52_bounds.
Print Assumptions C52_periodic.
Print Assumptions C52_perfect.
Print Assumptions C52_perfect_only.
Print Assumptions C53_jacobian.
Print Assumptions C53_each_parameter.
Print Assumptions C54_columns_partial.
Print Assumptions C54_workers_partial.
Print Assumptions C54_bad_shape.
Print Assumptions C54_per_input_serial_refuted.
Print Assumptions C54_per_input_pool_refuted.
Print Assumptions C57_quality.
Print Assumptions C57_recovers.
