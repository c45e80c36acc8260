(** The corrections found by the flow solver are the cheapest, stated for phases. *)
From Verif Require Import Base BaseLemmas GraphModel GraphSpec GraphProofs McfModel McfSpec PhaseProofs DualProofs
  ResidueProofs FlowProofs FloodProofs UnwrapProofs EmcfModel EmcfSpec PoolProofs BatchProofs EmcfProofs CubeProofs OptimalSpec.
From Coq Require Import ZifyBool Qabs Qminmax.
Set Default Goal Selector "!".
Local Open Scope Q_scope.

Lemma qmax_twopi z : Qmax (twopi * inject_Z z) 0 == twopi * inject_Z (Z.max z 0).
Proof.
  pose proof twopi_pos as P. destruct (Z.max_spec z 0) as [[H ->]|[H ->]].
  - assert (inject_Z z <= 0) by (change 0 with (inject_Z 0); rewrite <- Zle_Qle; lia).
    rewrite Q.max_r by nra. change (inject_Z 0) with 0. ring.
  - assert (0 <= inject_Z z) by (change 0 with (inject_Z 0); rewrite <- Zle_Qle; lia).
    rewrite Q.max_l by nra. reflexivity.
Qed.
Lemma qmax_abs x : Qmax x 0 + Qmax (- x) 0 == Qabs x.
Proof.
  destruct (Qlt_le_dec x 0) as [H|H].
  - rewrite Q.max_r, Q.max_l, Qabs_neg by lra. ring.
  - rewrite Q.max_l, Q.max_r, Qabs_pos by lra. ring.
Qed.
Lemma toll_ext cost rev d d' : (forall i, (i < length cost)%nat -> d i == d' i) -> toll cost rev d == toll cost rev d'.
Proof.
  intros H. unfold toll. apply sumQ_map_ext. intros i Hi. apply in_seq in Hi. rewrite (H i) by lia. reflexivity.
Qed.
Lemma weight_ext cost d d' : (forall i, (i < length cost)%nat -> d i == d' i) -> weight cost d == weight cost d'.
Proof.
  intros H. unfold weight. apply sumQ_map_ext. intros i Hi. apply in_seq in Hi. rewrite (H i) by lia. reflexivity.
Qed.
Lemma toll_weight cost d : toll cost cost d == weight cost d.
Proof.
  unfold toll, weight. apply sumQ_map_ext. intros i _. rewrite <- qmax_abs. ring.
Qed.

Lemma toll_price cost : forall rev k, length rev = length cost -> length k = length cost ->
  toll cost rev (fun i => twopi * inject_Z (nth i k 0%Z)) == twopi * inject_Z (price cost rev k).
Proof.
  unfold toll, price. induction cost as [|c cost IH]; intros [|r rev] [|x k] HR HK; try discriminate.
  - cbn. ring.
  - cbn [length] in *. cbn [seq map]. rewrite <- seq_shift, map_map, sumQ_cons. cbn [combine map nth].
    rewrite sumZ_cons. rewrite (IH rev k) by lia. rewrite qmax_twopi.
    assert (- (twopi * inject_Z x) == twopi * inject_Z (- x)) as -> by (rewrite inject_Z_opp; ring).
    rewrite qmax_twopi. rewrite !inject_Z_add, !inject_Z_mul. ring.
Qed.

(** Whole cycles between two link values. *)
Lemma core smcf g gr r k cost revcost (x : nat -> Q) : smcf_sound smcf -> planar g -> length gr = length (g_links g) ->
  compute_residues_from_gradients (dual_solver g) gr = Ok r ->
  residues_to_flows smcf (dual_solver g) r cost revcost = Ok k ->
  (forall c, In c cost -> 0 <= c)%Z -> (forall c, In c (rev_or cost revcost) -> 0 <= c)%Z ->
  length cost = length (g_links g) -> length (rev_or cost revcost) = length (g_links g) ->
  (forall i, (i < length (g_links g))%nat -> cong2pi (slope (g_links g) x i) (nth i gr 0)) ->
  in_range (length (g_links g)) (fun i => slope (g_links g) x i - nth i gr 0) ->
  toll cost (rev_or cost revcost) (fun i => twopi * inject_Z (nth i k 0%Z)) <=
  toll cost (rev_or cost revcost) (fun i => slope (g_links g) x i - nth i gr 0).
Proof.
  intros Hs Hp HL Er Ek Pc Pr HC HR Hx Hb.
  destruct (residues_from_gradients_spec g gr Hp HL) as (r' & Er' & HLr & _ & _).
  rewrite Er in Er'. injection Er' as <-.
  set (N := length (g_links g)) in *. set (cyc := fun i => cycles_between (slope (g_links g) x i) (nth i gr 0)).
  set (k' := map cyc (seq 0 N)).
  assert (length k' = N) as HLk' by (unfold k'; now rewrite map_length, seq_length).
  assert (forall i, (i < N)%nat -> nth i k' 0%Z = cyc i) as Hk'.
  { intros i Hi. unfold k'. rewrite (map_nth' _ _ _ 0%nat) by (rewrite seq_length; auto). now rewrite seq_nth. }
  assert (forall i, (i < N)%nat -> slope (g_links g) x i - nth i gr 0 == twopi * inject_Z (nth i k' 0%Z)) as Hd.
  { intros i Hi. rewrite Hk' by auto. unfold cyc. pose proof (cycles_between_eq _ _ (Hx i Hi)) as E. lra. }
  assert (cancels g r k') as Hcan.
  { split; [exact HLk'|]. intros n Hn.
    set (m := fun a b => (- link_val 0%Z (g_links g) k' a b)%Z).
    assert (congruent_links g gr x m) as Hm.
    { intros a b Hl. apply (In_nth _ _ (0%nat, 0%nat)) in Hl as (i & Hi & E). unfold m.
      rewrite (link_val_nth 0 _ gr i a b), (link_val_nth 0%Z _ k' i a b); auto using (pl_nodup g Hp).
      specialize (Hd i Hi). unfold slope in Hd. rewrite E in Hd. cbn [fst snd] in Hd. rewrite inject_Z_opp. lra. }
    rewrite (residues_grad_exact g gr x m r Hp HL Hm Er n Hn). unfold m. rewrite circZ_opp. lia. }
  assert (fits_int32 k') as Hf.
  { intros y Hy. apply (In_nth _ _ 0%Z) in Hy as (i & Hi & <-). rewrite HLk' in Hi. specialize (Hb i Hi). cbn beta in Hb.
    rewrite Hd in Hb by auto. rewrite Qabs_Qmult, (Qabs_pos twopi) in Hb by (pose proof twopi_pos; lra).
    apply Qmult_le_l in Hb; [|apply twopi_pos]. apply Qabs_Qle_condition in Hb. rewrite <- inject_Z_opp, <- !Zle_Qle in Hb. exact Hb. }
  destruct (flows_cancel smcf g r cost revcost k Hs Hp HLr Ek) as [HLk _].
  destruct (flows_optimal smcf g r cost revcost k Hs Hp HLr Pc Pr Ek) as [_ Ho]. specialize (Ho k' Hcan Hf).
  rewrite (toll_ext _ _ (fun i => slope (g_links g) x i - nth i gr 0) (fun i => twopi * inject_Z (nth i k' 0%Z))).
  2:{ intros i Hi. apply Hd. lia. }
  rewrite !toll_price by lia. rewrite Zle_Qle in Ho. pose proof twopi_pos. apply Qmult_le_l; auto.
Qed.

(** * One interferogram *)
Lemma one_optimal smcf g p cost revcost u k (x : nat -> Q) : smcf_sound smcf -> planar g ->
  unwrap_one smcf (dual_solver g) p cost revcost = Ok (u, k) ->
  (forall c, In c cost -> 0 <= c)%Z -> (forall c, In c (rev_or cost revcost) -> 0 <= c)%Z ->
  length cost = length (g_links g) -> length (rev_or cost revcost) = length (g_links g) ->
  let w i := phase_diff (nth (fst (nth i (g_links g) (0, 0)%nat)) p 0) (nth (snd (nth i (g_links g) (0, 0)%nat)) p 0) 0 in
  (forall v, (v < g_npoints g)%nat -> cong2pi (x v) (nth v p 0)) ->
  in_range (length (g_links g)) (fun i => slope (g_links g) x i - w i) ->
  toll cost (rev_or cost revcost) (fun i => slope (g_links g) (fun v => nth v u 0) i - w i) <=
  toll cost (rev_or cost revcost) (fun i => slope (g_links g) x i - w i).
Proof.
  intros Hs Hp H Pc Pr HC HR w Hx Hb.
  pose proof (unwrap_sound smcf g p cost revcost u k Hs Hp H) as (HLk & _ & _ & _ & Hd).
  unfold unwrap_one in H. destruct (compute_residues (dual_solver g) p) as [r|] eqn:Er; cbn [bind] in H; [|discriminate].
  fold (rev_or cost revcost) in H.
  destruct (residues_to_flows _ _ _ _ _) as [k1|] eqn:Ek; cbn [bind] in H; [|discriminate].
  destruct (flood_fill _ _ _ _) as [u1|] eqn:Eu; cbn [bind] in H; [|discriminate]. injection H as -> ->.
  assert (length p = g_npoints g) as HL.
  { unfold compute_residues in Er. cbn [dual_solver s_graph] in Er.
    destruct (Nat.eqb_spec (length p) (g_npoints g)); [assumption|discriminate]. }
  set (gr := map w (seq 0 (length (g_links g)))).
  assert (length gr = length (g_links g)) as HG by (unfold gr; now rewrite map_length, seq_length).
  assert (forall i, (i < length (g_links g))%nat -> nth i gr 0 = w i) as Hgr.
  { intros i Hi. unfold gr. rewrite (map_nth' _ _ _ 0%nat) by (rewrite seq_length; auto). now rewrite seq_nth. }
  assert (forall i, (i < length (g_links g))%nat -> In (nth i (g_links g) (0, 0)%nat) (g_links g)) as HI by (intros; now apply nth_In).
  assert (compute_residues_from_gradients (dual_solver g) gr = Ok r) as Er'.
  { destruct (compute_residues_spec g p Hp HL) as (r1 & E1 & L1 & S1 & N1). rewrite Er in E1. injection E1 as <-.
    destruct (residues_from_gradients_spec g gr Hp HG) as (r2 & E2 & L2 & S2 & N2). rewrite E2. f_equal.
    assert (forall n, (n < length (g_cycles g))%nat -> nth (n + 1) r2 0%Z = nth (n + 1) r 0%Z) as Ht.
    { intros n Hn. rewrite N1, N2 by auto. apply rint_comp. apply Qmult_comp; [|reflexivity].
      apply (circQ_ext g); auto; [now apply nth_In|]. intros a b Hl.
      apply (In_nth _ _ (0%nat, 0%nat)) in Hl as (i & Hi & E).
      rewrite (link_val_nth 0 _ gr i a b), Hgr by (auto using (pl_nodup g Hp)). unfold w. rewrite E. reflexivity. }
    destruct r as [|r0 rs], r2 as [|r0' rs']; cbn [length] in *; try lia.
    assert (rs' = rs) as ->.
    { apply (nth_ext _ _ 0%Z 0%Z); [lia|]. intros n Hn. specialize (Ht n ltac:(lia)).
      rewrite Nat.add_1_r in Ht. exact Ht. }
    f_equal. rewrite sumZ_cons in S1, S2. lia. }
  assert (rev_or cost (Some (rev_or cost revcost)) = rev_or cost revcost) as ER by reflexivity.
  rewrite <- ER. 
  rewrite (toll_ext _ _ _ (fun i => twopi * inject_Z (nth i k 0%Z))).
  - rewrite (toll_ext _ _ (fun i => slope (g_links g) x i - w i) (fun i => slope (g_links g) x i - nth i gr 0)).
    2:{ intros i Hi. rewrite Hgr by lia. reflexivity. }
    apply (core smcf g gr r k cost (Some (rev_or cost revcost)) x); auto.
    + intros i Hi. rewrite Hgr by auto. unfold slope, w. specialize (HI i Hi).
      destruct (nth i (g_links g) (0%nat, 0%nat)) as [a b]. cbn [fst snd] in *. pose proof (pl_lt g Hp a b HI).
      apply cong2pi_sym. eapply cong2pi_trans; [apply pd_cong|]. apply cong2pi_sym.
      apply cong2pi_sub; apply Hx; lia.
    + intros i Hi. rewrite Hgr by auto. now apply Hb.
  - intros i Hi. assert (i < length (g_links g))%nat as Hi' by lia. specialize (HI i Hi').
    unfold slope, w. destruct (nth i (g_links g) (0%nat, 0%nat)) as [a b] eqn:E. cbn [fst snd] in *.
    rewrite (Hd a b HI). rewrite (link_val_nth 0%Z _ k i a b) by (auto using (pl_nodup g Hp)). ring.
Qed.

(** * Sums *)
Lemma weight_nonneg cost d : (forall c, In c cost -> 0 <= c)%Z -> 0 <= weight cost d.
Proof.
  intros H. unfold weight. apply sumQ_map_nonneg. intros i Hi. apply in_seq in Hi.
  assert (0 <= inject_Z (nth i cost 0%Z)) as P.
  { change 0 with (inject_Z 0). rewrite <- Zle_Qle. apply H. apply nth_In. lia. }
  pose proof (Qabs_nonneg (d i)). nra.
Qed.
Lemma weight_triangle cost d d1 d2 : (forall c, In c cost -> 0 <= c)%Z ->
  (forall i, (i < length cost)%nat -> d i == d1 i - d2 i) -> weight cost d <= weight cost d1 + weight cost d2.
Proof.
  intros H E. unfold weight. rewrite <- sumQ_map_add. apply sumQ_map_le. intros i Hi. apply in_seq in Hi.
  assert (0 <= inject_Z (nth i cost 0%Z)) as P.
  { change 0 with (inject_Z 0). rewrite <- Zle_Qle. apply H. apply nth_In. lia. }
  rewrite (E i) by lia. pose proof (Qabs_triangle (d1 i) (- d2 i)) as T. rewrite Qabs_opp in T.
  assert (Qabs (d1 i - d2 i) <= Qabs (d1 i) + Qabs (d2 i)) as T' by exact T. nra.
Qed.
Lemma weight_term cost d i : (forall c, In c cost -> 1 <= c)%Z -> (i < length cost)%nat -> Qabs (d i) <= weight cost d.
Proof.
  intros H Hi. unfold weight.
  assert (forall l, (forall j, In j l -> (j < length cost)%nat) ->
            0 <= sumQ (map (fun j => inject_Z (nth j cost 0%Z) * Qabs (d j)) l) /\
            (In i l -> Qabs (d i) <= sumQ (map (fun j => inject_Z (nth j cost 0%Z) * Qabs (d j)) l))) as K.
  { induction l as [|j l IH]; intros Hl; [split; [cbn; lra|intros []]|]. cbn [map]. rewrite sumQ_cons.
    destruct IH as [IH1 IH2]; [intros; apply Hl; now right|].
    assert (1 <= inject_Z (nth j cost 0%Z)) as P.
    { change 1 with (inject_Z 1). rewrite <- Zle_Qle. apply H. apply nth_In. apply Hl. now left. }
    pose proof (Qabs_nonneg (d j)). split; [nra|]. intros [->|Hi']; [nra|]. specialize (IH2 Hi'). nra. }
  apply K; [intros j Hj; apply in_seq in Hj; lia|apply in_seq; lia].
Qed.
Lemma weight2_swap tc sc d : weight2 tc sc d ==
  sumQ (map (fun i => inject_Z (nth i sc 0%Z) * weight tc (fun n => d n i)) (seq 0 (length sc))).
Proof.
  unfold weight2, weight.
  rewrite (sumQ_map_ext _ (fun n => sumQ (map (fun i => inject_Z (nth n tc 0%Z) * (inject_Z (nth i sc 0%Z) * Qabs (d n i))) (seq 0 (length sc))))).
  2:{ intros n _. now rewrite sumQ_map_mul. }
  rewrite sumQ_swap. apply sumQ_map_ext. intros i _. rewrite <- sumQ_map_mul. apply sumQ_map_ext. intros n _. ring.
Qed.
Lemma weight2_le tc sc d d' : (forall c, In c tc -> 0 <= c)%Z ->
  (forall n, (n < length tc)%nat -> weight sc (d n) <= weight sc (d' n)) -> weight2 tc sc d <= weight2 tc sc d'.
Proof.
  intros H L. unfold weight2. apply sumQ_map_le. intros n Hn. apply in_seq in Hn. specialize (L n ltac:(lia)).
  assert (0 <= inject_Z (nth n tc 0%Z)) as P.
  { change 0 with (inject_Z 0). rewrite <- Zle_Qle. apply H. apply nth_In. lia. }
  nra.
Qed.

(** Amounts that are whole cycles: each that is not zero counts. *)
Lemma cycle_abs y z : cong2pi y z -> ~ y == z -> twopi <= Qabs (y - z).
Proof.
  intros [m E] N. pose proof twopi_pos as P.
  assert (y - z == twopi * inject_Z m) as E' by lra. rewrite E', Qabs_Qmult, (Qabs_pos twopi) by lra.
  assert (1 <= Qabs (inject_Z m)) as M; [|nra].
  assert (m <> 0)%Z as Hm by (intros ->; apply N; change (inject_Z 0) with 0 in E; lra).
  change (Qabs (inject_Z m)) with (inject_Z (Z.abs m)). change 1 with (inject_Z 1). rewrite <- Zle_Qle. lia.
Qed.
Lemma count_weight cost y z : (forall c, In c cost -> 1 <= c)%Z -> (forall i, (i < length cost)%nat -> cong2pi (y i) (z i)) ->
  twopi * inject_Z (Z.of_nat (how_many (length cost) (fun i => negb (Qeq_bool (y i) (z i))))) <= weight cost (fun i => y i - z i).
Proof.
  intros H Hc. unfold how_many, weight.
  assert (forall l, (forall j, In j l -> (j < length cost)%nat) ->
    twopi * inject_Z (Z.of_nat (length (filter (fun i => negb (Qeq_bool (y i) (z i))) l))) <=
    sumQ (map (fun i => inject_Z (nth i cost 0%Z) * Qabs (y i - z i)) l)) as K.
  { induction l as [|j l IH]; intros Hl.
    { cbn [filter length map]. change (inject_Z (Z.of_nat 0)) with 0. rewrite sumQ_nil. lra. }
    cbn [map filter]. rewrite sumQ_cons. specialize (IH ltac:(intros; apply Hl; now right)). specialize (Hl j (or_introl eq_refl)).
    assert (1 <= inject_Z (nth j cost 0%Z)) as P.
    { change 1 with (inject_Z 1). rewrite <- Zle_Qle. apply H. now apply nth_In. }
    pose proof (Qabs_nonneg (y j - z j)) as A.
    destruct (Qeq_bool (y j) (z j)) eqn:E; cbn [negb].
    - nra.
    - apply Qeq_bool_neq in E. pose proof (cycle_abs _ _ (Hc j Hl) E) as B. cbn [length].
      rewrite Nat2Z.inj_succ, <- Z.add_1_r, inject_Z_plus. change (inject_Z 1) with 1. nra. }
  apply K. intros j Hj. apply in_seq in Hj. lia.
Qed.

(** * The cube *)
Section Cube.
Variables (smcf : list arc -> list Z -> option (list Z)).
Variables (gs gt : graph) (Hps : planar gs) (Hpt : planar gt).
Variable e : emcf.
Hypothesis Hes : em_space e = dual_solver gs.
Hypothesis Het : em_time e = dual_solver gt.
Variables (tsched : nat -> list nat -> list nat) (ssched : list nat -> list nat) (cpu : Z).
Hypothesis Htsched : forall b l, Permutation (tsched b l) l.
Hypothesis Hssched : forall l, Permutation (ssched l) l.
Hypothesis Hlpb : (0 < links_per_batch (em_set e))%nat.
Variables (is_ifg : bool) (data : list (list Q)).
Notation ph := (ifg_phase is_ifg (g_links gt) data).
Notation links := (g_links gs).
Notation ifgs := (g_links gt).

Definition W (n i : nat) : Q := nth n (wcol gt is_ifg data (nth i links (0, 0)%nat)) 0.

Theorem cube_optimal c U tc sc : smcf_sound smcf -> cu_data c = data -> classify e c = Ok is_ifg ->
  pick_cost (t_cost_type (em_set e)) (length ifgs) (em_tdist e) (em_tcent e) = Ok tc ->
  pick_cost (s_cost_type (em_set e)) (length links) (em_sdist e) (em_scent e) = Ok sc ->
  length tc = length ifgs -> length sc = length links ->
  (forall x, In x tc -> 0 <= x)%Z -> (forall x, In x sc -> 0 <= x)%Z ->
  unwrap_cube smcf tsched ssched cpu e c = Ok U ->
  exists T : nat -> nat -> Q,
    (forall n i, (n < length ifgs)%nat -> (i < length links)%nat -> cong2pi (T n i) (W n i)) /\
    (forall i, (i < length links)%nat -> forall x,
       (forall n, (n < length ifgs)%nat -> cong2pi (slope ifgs x n) (slope links (ph n) i)) ->
       in_range (length ifgs) (fun n => slope ifgs x n - W n i) ->
       weight tc (fun n => T n i - W n i) <= weight tc (fun n => slope ifgs x n - W n i)) /\
    (forall n, (n < length ifgs)%nat -> forall x,
       (forall v, (v < g_npoints gs)%nat -> cong2pi (x v) (ph n v)) ->
       in_range (length links) (fun i => slope links x i - T n i) ->
       weight sc (fun i => slope links (fun v => nth v (nth n U []) 0) i - T n i) <=
       weight sc (fun i => slope links x i - T n i)).
Proof.
  intros Hs Ed Hcl Ht Hsp HLt HLs Pt Ps H. unfold unwrap_cube in H. rewrite Hcl in H. cbn [bind] in H. rewrite Ed in H.
  destruct (unwrap_gradients_in_time _ _ _ _ _ _) as [G|er] eqn:EG; cbn [bind] in H; [|discriminate].
  assert (em_links e = links) as El by now apply links_eq. assert (em_ifgs e = ifgs) as Ei by now apply ifgs_eq.
  rewrite <- Ei in Ht. rewrite <- El in Hsp.
  pose proof (time_corrected smcf gs gt e Hes Het tsched cpu Htsched Hlpb is_ifg data tc G Ht EG) as HC.
  pose proof (corrected_gcong smcf gs gt Hpt e Hlpb is_ifg data tc G Hs HC) as HG.
  assert (1 <= space_workers (s_worker_count (em_set e)) cpu)%Z as Hw.
  { unfold unwrap_gradients_in_space in H. rewrite Hsp in H. cbn [bind] in H.
    destruct (Z.leb_spec (space_workers (s_worker_count (em_set e)) cpu) 0); [discriminate|lia]. }
  apply (in_space_ok smcf ssched cpu e G sc Hssched Hsp Hw) in H as [HL H]. rewrite Ei in HL, H.
  exists (fun n i => nth n (nth i G []) 0).
  assert (forall i, (i < length links)%nat -> exists k r, length k = length ifgs /\
    compute_residues_from_gradients (dual_solver gt) (wcol gt is_ifg data (nth i links (0, 0)%nat)) = Ok r /\
    residues_to_flows smcf (dual_solver gt) r tc None = Ok k /\
    forall n, (n < length ifgs)%nat -> nth n (nth i G []) 0 == W n i + twopi * inject_Z (nth n k 0%Z)) as HT.
  { intros i Hi. destruct HC as [_ HC]. destruct (nth i links (0%nat, 0%nat)) as [a b] eqn:E.
    destruct (HC i a b Hi E) as (k & Hk & EGi).
    pose proof (flow_len smcf gt Hpt tc _ k Hs (tr_len gt e Hlpb is_ifg data (a, b)) Hk) as HLk.
    exists k, (time_residues (dual_solver gt) (wcol gt is_ifg data (a, b))). split; [exact HLk|].
    split; [apply time_residues_eq; cbn [dual_solver s_graph]; apply wcol_length|]. split; [exact Hk|].
    intros n Hn. unfold W. rewrite E, EGi. now apply ucol_nth. }
  split; [|split].
  - intros n i Hn Hi. destruct (HT i Hi) as (k & r & _ & _ & _ & E). rewrite (E n Hn). apply cong2pi_shift.
  - intros i Hi x Hx Hb. destruct (HT i Hi) as (k & r & HLk & Er & Ek & E).
    rewrite <- !toll_weight.
    rewrite (toll_ext _ _ _ (fun n => twopi * inject_Z (nth n k 0%Z))).
    2:{ intros n Hn. rewrite E by lia. ring. }
    change tc with (rev_or tc None) at 2 4. unfold W.
    apply (core smcf gt (wcol gt is_ifg data (nth i links (0, 0)%nat)) r k tc None x); auto.
    + apply wcol_length.
    + intros n Hn. specialize (Hx n Hn). eapply cong2pi_trans; [exact Hx|]. apply cong2pi_sym.
      unfold slope. destruct (nth i links (0%nat, 0%nat)) as [a b]. cbn [fst snd].
      apply (wcol_spec gt is_ifg data a b n Hn).
  - intros n Hn x Hx Hb. specialize (H n Hn). rewrite Hes in H. fold (grow G n) in H.
    assert (forall i, (i < length links)%nat -> nth i (grow G n) 0 = nth n (nth i G []) 0) as Hgr.
    { intros i Hi. apply grow_nth. destruct HG. lia. }
    unfold unwrap_ifg_in_space in H.
    assert (length (grow G n) = length links) as HLg by (unfold grow; rewrite map_length; apply HG).
    destruct (residues_from_gradients_spec gs (grow G n) Hps HLg) as (r & Er & HLr & _ & _).
    rewrite Er in H. cbn [bind] in H.
    destruct (residues_to_flows _ _ _ _ _) as [k|er] eqn:Ek; cbn [bind] in H; [|discriminate].
    pose proof (flows_cancel smcf gs r sc None k Hs Hps HLr Ek) as Hk.
    pose proof (grow_congruent gs gt Hps is_ifg data G n HG Hn) as Hm. cbv zeta in Hm.
    destruct (flood_gradients gs (grow G n) k Hps HLg (proj1 Hk)) as (u & Hu & _ & _ & Hd).
    { apply (span_corrected gs (link_val 0 links (grow G n)) r k Hps); auto.
      intros m Hm'. rewrite (circ_congruent gs _ _ _ _ Hps (nth_In _ _ Hm') Hm).
      rewrite (residues_grad_exact gs _ _ _ _ Hps HLg Hm Er m Hm'). reflexivity. }
    cbn [dual_solver s_graph] in H. rewrite Hu in H. injection H as H. rewrite <- H.
    rewrite <- !toll_weight.
    rewrite (toll_ext _ _ _ (fun i => twopi * inject_Z (nth i k 0%Z))).
    2:{ intros i Hi. rewrite HLs in Hi. unfold slope.
        assert (In (nth i links (0, 0)%nat) links) as HI by now apply nth_In.
        destruct (nth i links (0%nat, 0%nat)) as [a b] eqn:E. cbn [fst snd]. rewrite (Hd a b HI).
        rewrite (link_val_nth 0 links (grow G n) i a b), (link_val_nth 0%Z links k i a b), Hgr; auto using (pl_nodup gs Hps); [ring|apply Hk]. }
    rewrite (toll_ext sc sc (fun i => slope links x i - nth n (nth i G []) 0) (fun i => slope links x i - nth i (grow G n) 0)).
    2:{ intros i Hi. rewrite Hgr by lia. reflexivity. }
    change sc with (rev_or sc None) at 2 4.
    apply (core smcf gs (grow G n) r k sc None x); auto.
    + intros i Hi. rewrite Hgr by auto. destruct HG as [_ HG]. unfold slope.
      assert (In (nth i links (0, 0)%nat) links) as HI by now apply nth_In.
      destruct (nth i links (0%nat, 0%nat)) as [a b] eqn:E. cbn [fst snd]. pose proof (pl_lt gs Hps a b HI).
      apply cong2pi_sym. eapply cong2pi_trans; [apply (HG i a b n Hi E Hn)|]. apply cong2pi_sym.
      apply cong2pi_sub; apply Hx; lia.
    + intros i Hi. rewrite Hgr by auto. now apply Hb.
Qed.

(** How far the result can be from the truth. *)
Theorem cube_error c U tc sc (Phi : nat -> nat -> Q) : smcf_sound smcf -> cu_data c = data -> classify e c = Ok is_ifg ->
  pick_cost (t_cost_type (em_set e)) (length ifgs) (em_tdist e) (em_tcent e) = Ok tc ->
  pick_cost (s_cost_type (em_set e)) (length links) (em_sdist e) (em_scent e) = Ok sc ->
  length tc = length ifgs -> length sc = length links ->
  (forall x, In x tc -> 1 <= x)%Z -> (forall x, In x sc -> 0 <= x)%Z ->
  unwrap_cube smcf tsched ssched cpu e c = Ok U ->
  let I n v := slope ifgs (fun t => Phi t v) n in
  (forall n v, (n < length ifgs)%nat -> (v < g_npoints gs)%nat -> cong2pi (I n v) (ph n v)) ->
  let missed n i := slope links (I n) i - W n i in
  (forall i, (i < length links)%nat -> 2 * weight tc (fun n => missed n i) <= twopi * inject_Z int32_max) ->
  weight2 tc sc (fun n i => slope links (fun v => nth v (nth n U []) 0) i - slope links (I n) i) <= 4 * weight2 tc sc missed.
Proof.
  intros Hs Ed Hcl Ht Hsp HLt HLs Pt Ps H I HI missed Hb.
  assert (forall x, In x tc -> 0 <= x)%Z as Pt0 by (intros x Hx; specialize (Pt x Hx); lia).
  destruct (cube_optimal c U tc sc Hs Ed Hcl Ht Hsp HLt HLs Pt0 Ps H) as (T & _ & Otime & Ospace).
  assert (forall i n, slope links (I n) i == slope ifgs (fun t => slope links (Phi t) i) n) as Hswap.
  { intros i n. unfold I, slope. ring. }
  assert (forall i, (i < length links)%nat -> weight tc (fun n => slope links (I n) i - T n i) <= 2 * weight tc (fun n => missed n i)) as A.
  { intros i Hi.
    assert (weight tc (fun n => T n i - W n i) <= weight tc (fun n => missed n i)) as O.
    { rewrite (weight_ext tc (fun n => missed n i) (fun n => slope ifgs (fun t => slope links (Phi t) i) n - W n i)).
      2:{ intros n Hn. unfold missed. rewrite Hswap. reflexivity. }
      apply Otime; auto.
      - intros n Hn. rewrite <- Hswap. unfold slope at 1 2.
        assert (In (nth i links (0, 0)%nat) links) as Hl by now apply nth_In.
        destruct (nth i links (0%nat, 0%nat)) as [a b]. cbn [fst snd]. pose proof (pl_lt gs Hps a b Hl).
        apply cong2pi_sub; apply HI; auto; lia.
      - intros n Hn. rewrite <- Hswap. fold (missed n i). specialize (Hb i Hi).
        pose proof (weight_term tc (fun n => missed n i) n Pt ltac:(lia)) as K. cbn beta in K.
        pose proof (weight_nonneg tc (fun n => missed n i) Pt0). lra. }
    pose proof (weight_triangle tc (fun n => slope links (I n) i - T n i) (fun n => missed n i) (fun n => T n i - W n i) Pt0) as K.
    specialize (K ltac:(intros n _; unfold missed; ring)). lra. }
  assert (forall n, (n < length ifgs)%nat ->
    weight sc (fun i => slope links (fun v => nth v (nth n U []) 0) i - slope links (I n) i) <=
    2 * weight sc (fun i => slope links (I n) i - T n i)) as B.
  { intros n Hn.
    assert (weight sc (fun i => slope links (fun v => nth v (nth n U []) 0) i - T n i) <= weight sc (fun i => slope links (I n) i - T n i)) as O.
    { apply Ospace; auto. intros i Hi. specialize (A i Hi). specialize (Hb i Hi).
      pose proof (weight_term tc (fun n => slope links (I n) i - T n i) n Pt ltac:(lia)) as K. cbn beta in K. lra. }
    pose proof (weight_triangle sc (fun i => slope links (fun v => nth v (nth n U []) 0) i - slope links (I n) i)
      (fun i => slope links (fun v => nth v (nth n U []) 0) i - T n i) (fun i => slope links (I n) i - T n i) Ps) as K.
    specialize (K ltac:(intros i _; cbv beta; ring)). lra. }
  assert (weight2 tc sc (fun n i => slope links (fun v => nth v (nth n U []) 0) i - slope links (I n) i) <=
          2 * weight2 tc sc (fun n i => slope links (I n) i - T n i)) as B2.
  { unfold weight2. rewrite <- sumQ_map_mul. apply sumQ_map_le. intros n Hn. apply in_seq in Hn.
    specialize (B n ltac:(lia)).
    assert (0 <= inject_Z (nth n tc 0%Z)) as P.
    { change 0 with (inject_Z 0). rewrite <- Zle_Qle. apply Pt0. apply nth_In. lia. }
    nra. }
  assert (weight2 tc sc (fun n i => slope links (I n) i - T n i) <= 2 * weight2 tc sc missed) as A2.
  { rewrite !weight2_swap. rewrite <- sumQ_map_mul. apply sumQ_map_le. intros i Hi. apply in_seq in Hi.
    specialize (A i ltac:(lia)).
    assert (0 <= inject_Z (nth i sc 0%Z)) as P.
    { change 0 with (inject_Z 0). rewrite <- Zle_Qle. apply Ps. apply nth_In. lia. }
    nra. }
  lra.
Qed.
End Cube.

(** ** Where one solver answers like another *)

Section Same.
Context (smcf smcf' : list arc -> list Z -> option (list Z)) (Hsub : forall a s f, smcf a s = Some f -> smcf' a s = Some f).

Lemma solve_sub dual dir r cost rc k : solve_mcf smcf dual dir r cost rc = Ok k -> solve_mcf smcf' dual dir r cost rc = Ok k.
Proof using Hsub.
  unfold solve_mcf. repeat match goal with |- context [if ?b then _ else _] => destruct b; auto end.
  destruct (smcf _ _) as [f|] eqn:E; [|discriminate]. now rewrite (Hsub _ _ _ E).
Qed.
Lemma flows_sub s r cost rc k : residues_to_flows smcf s r cost rc = Ok k -> residues_to_flows smcf' s r cost rc = Ok k.
Proof using Hsub. unfold residues_to_flows. destruct (forallb _ r); auto. apply solve_sub. Qed.

Lemma map_res_sub {A B} (f g : A -> res B) : (forall x y, f x = Ok y -> g x = Ok y) ->
  forall l r, map_res f l = Ok r -> map_res g l = Ok r.
Proof using.
  intros H l. induction l as [|x l IH]; intros r E; [exact E|]. cbn in *.
  destruct (f x) as [y|] eqn:Ex; [|discriminate]. rewrite (H _ _ Ex). cbn in *.
  destruct (map_res f l) as [t|] eqn:El; [|discriminate]. now rewrite (IH _ eq_refl).
Qed.

Lemma many_sub sched cpu s r cost rc wc F :
  residues_to_flows_many smcf sched cpu s r cost rc wc = Ok F -> residues_to_flows_many smcf' sched cpu s r cost rc wc = Ok F.
Proof using Hsub.
  unfold residues_to_flows_many. destruct (negb _); [auto|]. destruct (_ =? 1)%Z; intros H.
  - destruct (map_res _ _) as [rs|] eqn:E in H; [|discriminate].
    erewrite (map_res_sub _ _ _ _ _ E). exact H.
    Unshelve. cbn. intros x y Hx. destruct (residues_to_flows smcf _ _ _ _) eqn:K; [|discriminate]. now rewrite (flows_sub _ _ _ _ _ K).
  - destruct (map_res _ _) as [rs|] eqn:E in H; [|discriminate].
    erewrite (map_res_sub _ _ _ _ _ E). exact H.
    Unshelve. cbn. intros x y Hx. destruct (solve_mcf smcf _ _ _ _ _) eqn:K; [|discriminate]. now rewrite (solve_sub _ _ _ _ _ _ K).
Qed.

Lemma batches_sub sched cpu e cost is_ifg data : forall bbs grad G,
  time_batches smcf sched cpu e cost is_ifg data bbs grad = Ok G -> time_batches smcf' sched cpu e cost is_ifg data bbs grad = Ok G.
Proof using Hsub.
  induction bbs as [|bb t IH]; intros grad G H; [exact H|]. cbn [time_batches bind] in *.
  destruct (time_batch smcf (sched bb) cpu e cost is_ifg data bb grad) as [g|] eqn:E; [|discriminate].
  assert (time_batch smcf' (sched bb) cpu e cost is_ifg data bb grad = Ok g) as ->; [|now apply IH].
  revert E. unfold time_batch. cbv zeta. destruct (_ =? 0); [auto|]. destruct (negb _); [auto|].
  destruct (residues_to_flows_many smcf _ _ _ _ _ _ _) as [F|] eqn:K; [|discriminate]. now rewrite (many_sub _ _ _ _ _ _ _ _ K).
Qed.

Lemma cube_sub tsched ssched cpu e c U :
  unwrap_cube smcf tsched ssched cpu e c = Ok U -> unwrap_cube smcf' tsched ssched cpu e c = Ok U.
Proof using Hsub.
  unfold unwrap_cube, unwrap_gradients_in_time, unwrap_gradients_in_space. cbv zeta.
  destruct (classify e c) as [b|]; [|discriminate]. cbn [bind].
  destruct (pick_cost (t_cost_type _) _ _ _) as [tc|]; [|discriminate]. cbn [bind].
  destruct (time_batches smcf _ _ _ _ _ _ _ _) as [G|] eqn:E; [|discriminate]. rewrite (batches_sub _ _ _ _ _ _ _ _ _ E). cbn [bind].
  destruct (pick_cost (s_cost_type _) _ _ _) as [sc|]; [|discriminate]. cbn [bind]. destruct (_ <=? 0)%Z; [auto|].
  destruct (map_res _ _) as [rs|] eqn:K; [|discriminate]. intros H.
  erewrite (map_res_sub _ _ _ _ _ K). 1: exact H.
  Unshelve. cbv beta. intros x y. unfold unwrap_ifg_in_space.
  destruct (compute_residues_from_gradients _ _) as [r|]; [|discriminate]. cbn [bind].
  destruct (residues_to_flows smcf _ _ _ _) as [k|] eqn:Kf; [|discriminate]. now rewrite (flows_sub _ _ _ _ _ Kf).
Qed.
End Same.
