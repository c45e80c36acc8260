(** Property C38: the Dirichlet solvers used to blend tiles.
    Code: /repo/src/spurt/utils/merge.py:133-371,
    /repo/src/spurt/graph/utils.py:36-50. *)
From Verif Require Import Base BaseLemmas GraphModel GraphSpec BulkModel DirichletModel DirichletSpec
  LaplacianProofs DirichletProofs.
From Coq Require Import List ZifyBool Lqa.
Import ListNotations.
Set Default Goal Selector "!".
Local Open Scope Q_scope.

(** The Laplacian as passed to the solvers. *)
Definition as_rationals (L : list (list Z)) : list (list Q) := map (map inject_Z) L.

Lemma lap_is links L : links <> [] -> graph_laplacian links = Ok L -> as_rationals L = lapQ links.
Proof.
  intros Hl H. rewrite laplacian_ok in H by auto.
  assert (L = map (fun i => map (lap_entry links i) (seq 0 (lap_n links))) (seq 0 (lap_n links))) as -> by congruence.
  unfold as_rationals, lapQ.
  rewrite map_map. apply map_ext. intros i. now rewrite map_map.
Qed.

(** Whatever [cg] returns, for any matrix: the fixed values come back
    unchanged, and the second result is the residual of the first. *)
Theorem C38_dirichlet_fixed cg ilu k logging amat b xf mask x r : length xf = length mask ->
  dirichlet cg ilu k logging amat b xf mask = Ok (x, r) ->
  length x = length xf /\ (forall i, masked mask i -> nth i x 0 = nth i xf 0) /\
  r = subQ b (mat_vec amat x).
Proof.
  intros Hl H. destruct (dirichlet_fixed _ _ _ _ _ _ _ _ _ _ Hl H) as (A & B & C). split; [congruence|]. split; auto.
Qed.

Theorem C38_graph_fixed cg ilu logging amat xf mask c :
  (forall row, In row xf -> length row = length mask) ->
  dirichlet_graph cg ilu logging amat (length mask) xf mask = Ok c ->
  length c = length xf /\
  forall k, (k < length xf)%nat -> length (nth k c []) = length mask /\
    forall i, masked mask i -> nth i (nth k c []) 0 = nth i (nth k xf []) 0.
Proof.
  intros Hl H. apply graph_ok in H as (_ & _ & Lc & H). split; [auto|]. intros k Hk.
  destruct (row_ok _ _ _ _ _ _ (Hl _ (nth_In _ [] Hk)) (H k Hk)) as (A & B & _). auto.
Qed.

(** With the Laplacian of a graph whose points can all reach a fixed one, and
    a [cg] that solves its system: free points are balanced with their
    neighbours, the values lie between those of the fixed points, and the
    result is the only one that is balanced and has the fixed values. *)
Definition dirichlet_solution (links : list (nat * nat)) (mask : list bool) (xf x : list Q) : Prop :=
  harmonic_off links x mask /\
  (forall lo hi, (forall m, masked mask m -> lo <= nth m xf 0 <= hi) ->
     forall i, (i < length mask)%nat -> lo <= nth i x 0 <= hi) /\
  (forall y, length y = length mask -> (forall m, masked mask m -> nth m y 0 == nth m xf 0) ->
     harmonic_off links y mask -> forall i, (i < length mask)%nat -> nth i y 0 == nth i x 0).

Lemma links_in links (mask : list bool) : length mask = lap_n links ->
  forall p, In p links -> (fst p < length mask)%nat /\ (snd p < length mask)%nat.
Proof. intros E [a b] H. apply lap_n_bound in H. cbn. lia. Qed.

Lemma solution links mask xf x : length mask = lap_n links -> anchored links mask ->
  length x = length mask -> (forall i, masked mask i -> nth i x 0 = nth i xf 0) ->
  harmonic_off links x mask -> dirichlet_solution links mask xf x.
Proof.
  intros Hn Ha Lx Hm Hh. pose proof (links_in links mask Hn) as Hin. split; [auto|]. split.
  - intros lo hi Hb i Hi. split.
    + eapply min_principle; eauto. intros m Mm. rewrite Hm by auto. now apply Hb.
    + eapply max_principle; eauto. intros m Mm. rewrite Hm by auto. now apply Hb.
  - intros y Ly Ey Hy. eapply harmonic_unique; eauto. intros m Mm. rewrite Ey, Hm by auto. reflexivity.
Qed.

Theorem C38_graph_harmonic cg ilu logging links L xf mask c : links <> [] ->
  graph_laplacian links = Ok L -> let amat := as_rationals L in
  anchored links mask ->
  (forall row, In row xf -> length row = length mask) ->
  (forall r, length r = length (free_block mask amat) ->
     solves (free_block mask amat) r (cg (free_block mask amat) r)) ->
  dirichlet_graph cg ilu logging amat (length mask) xf mask = Ok c ->
  forall k, (k < length xf)%nat -> dirichlet_solution links mask (nth k xf []) (nth k c []).
Proof.
  intros Hl HL amat Ha Hx Hcg H. assert (amat = lapQ links) as EA by now apply lap_is.
  clearbody amat. subst amat. pose proof (C38_graph_fixed _ _ _ _ _ _ _ Hx H) as [_ Hf].
  apply graph_ok in H as (Hsq & En & Lc & H). rewrite lapQ_length in En.
  intros k Hk. destruct (Hf k Hk) as [Lk Mk]. apply solution; auto.
  assert (length mask = length (lapQ links)) as Lm by (rewrite lapQ_length; lia).
  assert (solves_off (lapQ links) (repeat 0 (length (lapQ links))) (nth k c []) mask) as So.
  { eapply row_solves; [exact Hsq|exact Lm|apply Hx, nth_In, Hk| |apply H, Hk].
    intros r Hr. apply Hcg. rewrite block_length by auto. exact Hr. }
  intros i Hi. pose proof (free_lt _ _ Hi) as Li. specialize (So i Hi).
  rewrite nth_repeat, net_apply in So by lia. exact So.
Qed.

Theorem C38_dirichlet_harmonic cg ilu k logging links L b xf mask x r : links <> [] ->
  (forall p, In p links -> fst p <> snd p) ->
  graph_laplacian links = Ok L -> let amat := as_rationals L in
  anchored links mask -> length mask = length amat -> length xf = length mask -> length b = length mask ->
  (forall r, length r = length (free_block mask amat) ->
     solves (free_block mask amat) r (cg (free_block mask amat) r)) ->
  dirichlet cg ilu k logging amat b xf mask = Ok (x, r) ->
  (forall i, free mask i -> net links x i == nth i b 0 /\ nth i r 0 == 0) /\
  ((forall i, nth i b 0 == 0) -> dirichlet_solution links mask xf x).
Proof.
  intros Hl Hs HL amat Ha Lm Lx Lb Hcg H. assert (amat = lapQ links) as EA by now apply lap_is.
  clearbody amat. subst amat. pose proof (C38_dirichlet_fixed _ _ _ _ _ _ _ _ _ _ Lx H) as (Lx' & Mx & _).
  assert (forall i, free mask i -> net links x i == nth i b 0 /\ nth i r 0 == 0) as K.
  { destruct (dirichlet_solves cg ilu k logging (lapQ links) b xf mask x r) as [S1 S2]; auto; try lia.
    - intros i j. destruct (Nat.lt_ge_cases i (lap_n links)) as [C|C]; [|].
      + destruct (Nat.lt_ge_cases j (lap_n links)) as [D|D].
        * rewrite !lapQ_entry by auto. now rewrite lap_sym.
        * rewrite (entry_oob _ i j), (entry_oob _ j i); try reflexivity; rewrite lapQ_length; [now left|].
          right. split; [|auto]. rewrite <- lapQ_length. apply lapQ_rows.
      + rewrite (entry_oob _ i j), (entry_oob _ j i); try reflexivity; rewrite lapQ_length; [|now left].
        right. split; [|auto]. rewrite <- lapQ_length. apply lapQ_rows.
    - intros i Hi. pose proof (free_lt _ _ Hi) as Li. rewrite lapQ_length in Lm. rewrite lapQ_entry by lia.
      assert (exists j, In (i, j) links \/ In (j, i) links) as (j & Hj).
      { destruct (Ha i Li) as (m & Mm & Rm). assert (m <> i) as Nm.
        { intros ->. unfold masked, free in *. rewrite (nth_indep _ true false Li) in Hi. congruence. }
        clear -Rm Nm. induction Rm as [|v v' Hr IH Hl]; [easy|].
        destruct (Nat.eq_dec v i) as [->|N]; [eauto|auto]. }
      rewrite lap_diag by (intros a b' I; apply (Hs (a, b') I)).
      intros E. apply (proj1 (inject_Z_eq_iff _ 0%Z)) in E.
      assert (exists l, In l links /\ ((fst l =? i) || (snd l =? i))%nat = true) as (l & Il & El).
      { destruct Hj as [Hj|Hj]; eexists; (split; [exact Hj|]); cbn; rewrite Nat.eqb_refl; auto using orb_true_r. }
      assert (In l (filter (fun l => ((fst l =? i) || (snd l =? i))%nat) links)) as If by (now apply filter_In).
      unfold degree in E. revert E If. destruct (filter _ links); [intros _ []|]. cbn [length]. intros E _. lia.
    - intros r0 Hr0. apply Hcg. rewrite block_length by lia. exact Hr0.
    - intros i Hi. split; [|now apply S2]. pose proof (free_lt _ _ Hi) as Li. rewrite lapQ_length in Lm.
      rewrite <- net_apply by lia. now apply S1. }
  split; [exact K|]. intros Hb. rewrite lapQ_length in Lm. apply solution; auto; [lia|].
  intros i Hi. destruct (K i Hi) as [-> _]. apply Hb.
Qed.

(** A path of four points, the ends fixed; [cg] multiplies by the inverse. *)
Definition C38_links : list (nat * nat) := [(0, 1); (1, 2); (2, 3)]%nat.
Definition C38_mask : list bool := [true; false; false; true].
Definition C38_cg (_ : list (list Q)) (r : list Q) : list Q :=
  [(2 * nth 0 r 0 + nth 1 r 0) / 3; (nth 0 r 0 + 2 * nth 1 r 0) / 3].

Example C38_witness : exists L, graph_laplacian C38_links = Ok L /\
  anchored C38_links C38_mask /\
  (forall r, length r = length (free_block C38_mask (as_rationals L)) ->
     solves (free_block C38_mask (as_rationals L)) r (C38_cg (free_block C38_mask (as_rationals L)) r)) /\
  exists c, dirichlet_graph C38_cg (fun _ => true) true (as_rationals L) 4 [[3; 0; 0; 6]] C38_mask = Ok c /\
    map (map Qred) c = [[3; 4; 5; 6]].
Proof.
  eexists. split; [vm_compute; reflexivity|]. split; [|split].
  - intros i Hi. cbn in Hi. destruct i as [|[|[|[|i]]]]; [| | | |lia].
    + exists 0%nat. split; [reflexivity|constructor].
    + exists 0%nat. split; [reflexivity|]. eapply reach_step; [constructor|]. right. now left.
    + exists 3%nat. split; [reflexivity|]. eapply reach_step; [constructor|]. left. cbn. tauto.
    + exists 3%nat. split; [reflexivity|constructor].
  - intros r Hr. cbn in Hr. destruct r as [|r0 [|r1 [|]]]; try discriminate. split; [reflexivity|].
    intros i Hi. cbn [length] in Hi. destruct i as [|[|i]]; [| |lia].
    + unfold applyQ, C38_cg. cbn. field.
    + unfold applyQ, C38_cg. cbn. field.
  - eexists. split; [vm_compute; reflexivity|]. vm_compute. reflexivity.
Qed.

(** The docstring of [dirichlet] promises the least [|A x - b|] among the [x]
    with the fixed values. It only solves the equations of the free points:
    here another [x] with the same fixed value has half the squared residual. *)
Theorem C38_minimises_refuted : exists amat b xf mask x r y, (forall k logging,
  dirichlet (fun _ v => v) (fun _ => true) k logging amat b xf mask = Ok (x, r)) /\
  (forall i, free mask i -> nth i r 0 == 0) /\ length y = length x /\
  (forall i, masked mask i -> nth i y 0 == nth i xf 0) /\
  sumQ (map (fun i => (applyQ amat y i - nth i b 0) * (applyQ amat y i - nth i b 0)) [0; 1]%nat) <
  sumQ (map (fun i => (applyQ amat x i - nth i b 0) * (applyQ amat x i - nth i b 0)) [0; 1]%nat).
Proof.
  exists [[1; -1]; [-1; 1]], [0; 1], [1; 0], [true; false]. eexists _, _, [1; 3 # 2].
  split; [intros [|] [|]; vm_compute; reflexivity|]. split; [|split; [reflexivity|split]].
  - intros i Hi. unfold free in Hi. destruct i as [|[|i]]; cbn in *; try discriminate; try reflexivity; now destruct i.
  - intros i Hi. unfold masked in Hi. destruct i as [|[|i]]; cbn in *; try discriminate; try reflexivity; now destruct i.
  - vm_compute. reflexivity.
Qed.

Print Assumptions C38_dirichlet_fixed.
Print Assumptions C38_graph_fixed.
Print Assumptions C38_graph_harmonic.
Print Assumptions C38_dirichlet_harmonic.
Print Assumptions C38_minimises_refuted.
