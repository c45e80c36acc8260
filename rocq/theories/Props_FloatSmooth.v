(** Property C70: a smooth stack is recovered to within the rounding error. *)
From Verif Require Import Base BaseLemmas GraphModel GraphSpec GraphProofs Hop3Proofs Reg2DProofs
  McfModel McfSpec PhaseProofs DualProofs ResidueProofs FlowProofs FloodProofs UnwrapProofs OracleProofs
  EmcfModel EmcfSpec PoolProofs BatchProofs EmcfProofs CubeProofs Props_Mcf Props_Emcf
  FloatModel FloatMcfModel FloatMcfSpec FloatMcfRound FloatPhaseProofs FloatResidueProofs FloatUnwrapProofs Props_FloatMcf
  FloatCubeModel FloatBatchProofs FloatTimeProofs FloatCubeProofs Props_FloatCube FloatSmoothProofs.
From Coq Require Import ZifyBool.
Set Default Goal Selector "!".
Local Open Scope Q_scope.

(** Double differences stay this far from half a cycle. *)
Definition margin (u M : Q) : Q := diff_err u M + 152 * u.

Theorem C70_smooth : forall F u w smcf gs gt tsched ssched cpu e c0 is_ifg M nt ns tc sc (Phi : nat -> nat -> Q),
  formats_ok F u w -> 0 <= M <= 1000000000 -> 200 * u * (M + 1) <= 1 -> w <= 1 # 100 ->
  planar gs -> planar gt -> make_solver gs = Ok (em_space e) -> make_solver gt = Ok (em_time e) ->
  (forall b l, Permutation (tsched b l) l) -> (forall l, Permutation (ssched l) l) ->
  (0 < links_per_batch (em_set e))%nat -> (1 <= space_workers (s_worker_count (em_set e)) cpu)%Z ->
  classify e c0 = Ok is_ifg -> stack (cu_data c0) (g_npoints gs) ->
  (forall row x, In row (cu_data c0) -> In x row -> - M <= x <= M) ->
  (forall c, In c (g_cycles gt) -> length c = nt) -> (forall c, In c (g_cycles gs) -> length c = ns) ->
  turns_right u (diff_err u M) 5 nt ->
  grad_err u w M 4 <= 1 -> turns_right u (grad_err u w M 4) 4 ns ->
  pick_cost (t_cost_type (em_set e)) (length (g_links gt)) (em_tdist e) (em_tcent e) = Ok tc ->
  pick_cost (s_cost_type (em_set e)) (length (g_links gs)) (em_sdist e) (em_scent e) = Ok sc ->
  let I n v := Phi (snd (nth n (g_links gt) (0, 0)%nat)) v - Phi (fst (nth n (g_links gt) (0, 0)%nat)) v in
  (* the input is the wrapped true history *)
  (forall n v, (n < length (g_links gt))%nat -> (v < g_npoints gs)%nat ->
     cong2pi (ifg_phase is_ifg (g_links gt) (cu_data c0) n v) (I n v)) ->
  (forall n a b, (n < length (g_links gt))%nat -> In (a, b) (g_links gs) ->
     Qabs (I n b - I n a) < half - margin u M) ->
  forall L B, depth_le (g_links gs) (g_npoints gs) L ->
  (forall n v, (n < length (g_links gt))%nat -> (v < g_npoints gs)%nat -> Qabs (I n v - I n 0%nat) <= B) ->
  (num L + 1) * hop_err u w M 4 B <= 1 ->
  exists U, checked ((num L + 1) * hop_err u w M 4 B <= 1 # 4000) (unwrap_cube_fl F smcf tsched ssched cpu e c0) U /\
    length U = length (g_links gt) /\
    forall n, (n < length (g_links gt))%nat -> length (nth n U []) = g_npoints gs /\
      forall v, (v < g_npoints gs)%nat -> within (cube_err u w M 4 B L) (nth v (nth n U []) 0) (I n v - I n 0%nat).
Proof.
  intros F u w smcf gs gt tsched ssched cpu e c0 is_ifg M nt ns tc sc Phi HF HM Hu Hw Hps Hpt Es Et Hts Hss Hlpb Hsw Hcl Hst HMd Hnt Hns
    Hr1 Hg Hr2 Htc Hsc I Hph Hsm L B HD HB Heps.
  assert (consistent is_ifg (g_links gt) (cu_data c0) (g_npoints gs)) as Hcons by (exists Phi; intros; now apply Hph).
  (* the run with constant costs and a solver that enumerates *)
  set (e1 := Emcf (em_space e) (em_time e) (Settings Constant Constant (links_per_batch (em_set e)) (t_worker_count (em_set e)) (s_worker_count (em_set e))) [] [] [] []).
  destruct (C69_cube F u w brute gs gt tsched ssched cpu e1 c0 is_ifg M nt ns (repeat 1%Z (length (g_links gt))) (repeat 1%Z (length (g_links gs)))
    HF HM Hu Hw brute_sound brute_complete Hps Hpt Es Et
    Hts Hss Hlpb Hsw Hcl Hst Hcons HMd Hnt Hns Hr1 eq_refl eq_refl (repeat_length _ _) (repeat_length _ _)) as (G & q & EG & LG & Hlinks & Hall).
  apply solver_of in Es, Et; auto. change (em_space e1) with (em_space e) in *. change (em_time e1) with (em_time e) in *.
  set (ph := ifg_phase is_ifg (g_links gt) (cu_data c0)) in *.
  assert (em_links e = g_links gs) as EL by (unfold em_links; now rewrite Es).
  assert (em_ifgs e = g_links gt) as EI by (unfold em_ifgs; now rewrite Et).
  set (D := fun n a b => I n b - I n a).
  assert (0 <= u) as U0 by (apply (rd_nonneg _ _ (fo_d _ _ _ HF))).
  assert (0 <= margin u M) as Mg.
  { unfold margin, diff_err. assert (0 <= u * (40 * (M + 1) + 104)) by (apply Qmult_le_0_compat; lra). lra. }
  (* the temporal step adds no cycles *)
  assert (forall i a b, (i < length (g_links gs))%nat -> nth i (g_links gs) (0, 0)%nat = (a, b) ->
    all0 (time_residues_fl F (em_time e) (link_column_fl F is_ifg (g_links gt) (cu_data c0) (a, b))) /\
    forall n, (n < length (g_links gt))%nat -> ph n b - ph n a + twopi * inject_Z (q n a b) == D n a b) as T.
  { intros i a b Hi E. assert (In (a, b) (g_links gs)) as Hl by (rewrite <- E; now apply nth_In). destruct (pl_lt gs Hps a b Hl) as [La Lb].
    destruct (Hlinks i a b Hi E) as (_ & (k & Ek & [Lk Ck] & Hk) & Hz & _). cbv zeta in *.
    set (r := time_residues_fl _ _ _) in *.
    assert (forall n, (n < length (g_links gt))%nat ->
      ph n b - ph n a + twopi * inject_Z (q n a b) == D n a b + twopi * inject_Z (nth n k 0%Z)) as X.
    { intros n Hn. specialize (Hk n Hn). specialize (Hsm n a b Hn Hl). fold (D n a b) in Hsm.
      destruct (Hph n a Hn ltac:(lia)) as [za Za]. destruct (Hph n b Hn Lb) as [zb Zb]. fold (ph n a) in Za. fold (ph n b) in Zb.
      apply abs_le in Hk. apply Qabs_Qlt_condition in Hsm. unfold margin in Hsm. rewrite Za, Zb in Hk |- *. set (s := (zb - za + q n a b - nth n k 0)%Z).
      assert (I n b + twopi * inject_Z zb - (I n a + twopi * inject_Z za) + twopi * inject_Z (q n a b) - twopi * inject_Z (nth n k 0%Z)
        == D n a b + twopi * inject_Z s) as Ess.
      { unfold s, D. rewrite !inject_Z_sub, inject_Z_add, inject_Z_sub. ring. }
      rewrite Ess in Hk. assert (- (1) < s < 1)%Z as Hs.
      { apply small_cycles. change (inject_Z 1) with 1. unfold half in *. lra. }
      replace s with 0%Z in Ess by lia. change (inject_Z 0) with 0 in Ess. lra. }
    assert (all0 r) as R0.
    { apply grounded0 with (N := length (g_cycles gt)).
      { assert (length r = (length (g_cycles gt) + 1)%nat) as Lr by (unfold r; rewrite time_residues_fl_length, Et; reflexivity).
        unfold r, time_residues_fl in Lr. cbv zeta in Lr. rewrite round_fl_length in Lr. rewrite map_length. cbv zeta. lia. }
      intros c Hc. change (nth (c + 1) r 0%Z = 0%Z).
      specialize (Ck c Hc). set (cy := nth c (g_cycles gt) []) in *.
      assert (In cy (g_cycles gt)) as Icy by (unfold cy; now apply nth_In).
      assert (inject_Z (circZ (link_val 0%Z (g_links gt) k) cy) == 0) as C0.
      { rewrite <- circ_inject. specialize (Hz cy Icy).
        rewrite (circQ_ext gt _ (fun i j => (Phi j b - Phi i b - (Phi j a - Phi i a)) + twopi * inject_Z (link_val 0%Z (g_links gt) k i j)) cy Hpt Icy) in Hz.
        - rewrite circQ_add, circQ_scale in Hz.
          rewrite (circQ_potential gt (fun t => Phi t b - Phi t a)) in Hz; auto.
          + pose proof twopi_lo. rewrite Qplus_0_l in Hz. apply Qmult_integral in Hz as [Hz|Hz]; [lra|exact Hz].
          + intros i' j' _. ring.
        - intros i' j' Hij. apply (In_nth _ _ (0%nat, 0%nat)) in Hij as (n & Hn & En).
          rewrite (link_val_nth 0 (g_links gt) (map _ _) n i' j'), (link_val_nth 0%Z (g_links gt) k n i' j'); auto;
            [|apply (pl_nodup gt Hpt)|apply (pl_nodup gt Hpt)|now rewrite map_length, seq_length].
          rewrite (map_nth' _ _ _ 0%nat) by (now rewrite seq_length). rewrite seq_nth by auto. cbn [Nat.add]. rewrite X by auto.
          unfold D, I. rewrite En. cbn [fst snd]. ring. }
      change 0 with (inject_Z 0) in C0. rewrite inject_Z_injective in C0. lia. }
    split; [exact R0|]. rewrite flows0 in Ek by exact R0. injection Ek as <-.
    intros n Hn. rewrite X by auto. rewrite nth_repeat. change (inject_Z 0) with 0. ring. }
  assert (forall n a b, (n < length (g_links gt))%nat -> In (a, b) (g_links gs) ->
    ph n b - ph n a + twopi * inject_Z (q n a b) == D n a b) as HX.
  { intros n a b Hn Hl. apply (In_nth _ _ (0%nat, 0%nat)) in Hl as (i & Hi & E). eapply T; eauto. }
  destruct (Hall 4 ltac:(lra)) as (k & m & Hk & HU); auto.
  { intros n a b Hn Hl. rewrite HX by auto. specialize (Hsm n a b Hn Hl). fold (D n a b) in Hsm. apply Qabs_Qlt_condition in Hsm.
    pose proof twopi_hi. unfold half in Hsm. lra. }
  assert (forall n, (n < length (g_links gt))%nat -> forall r,
    compute_residues_from_gradients_fl (f_s F) (a_g F) (em_space e) (map (fun col => nth n col 0) G) = Ok r -> all0 r) as S0.
  { intros n Hn r Er. destruct (Hk n Hn) as [(r' & Er' & Hr' & _) _]. rewrite Er in Er'. injection Er' as <-.
    unfold compute_residues_from_gradients_fl in Er. destruct (negb _); [discriminate|]. cbv zeta in Er. injection Er as Er.
    unfold round_residues_fl in Er. rewrite <- Er. apply grounded0 with (N := length (g_cycles gs)).
    - rewrite map_length, length_tl, !add_at_fl_length, repeat_length, Es. cbn [dual_solver s_graph]. lia.
    - rewrite Er. intros i Hi. rewrite Hr' by auto. set (cy := nth i (g_cycles gs) []).
      assert (In cy (g_cycles gs)) as Icy by (unfold cy; now apply nth_In).
      assert (inject_Z (circZ (q n) cy) == 0) as C0.
      { rewrite <- circ_inject. assert (circQ (fun a b => (ph n b - ph n a) + twopi * inject_Z (q n a b)) cy == 0) as Z.
        - rewrite (circQ_ext gs _ (D n) cy Hps Icy) by (intros; now apply HX). apply (circQ_potential gs (I n)); auto.
          intros a b _. unfold D. ring.
        - rewrite circQ_add, circQ_scale in Z. rewrite (circQ_potential gs (ph n)) in Z; auto.
          + pose proof twopi_lo. rewrite Qplus_0_l in Z. apply Qmult_integral in Z as [Z|Z]; [lra|exact Z].
          + intros a b _. ring. }
      change 0 with (inject_Z 0) in C0. now rewrite inject_Z_injective in C0. }
  assert (forall n v, (n < length (g_links gt))%nat -> (v < g_npoints gs)%nat ->
    ph n v - ph n 0%nat + twopi * inject_Z (m n v) == I n v - I n 0%nat) as HI.
  { intros n v Hn Hv. destruct (Hk n Hn) as [(r & Er & _ & Ek & _) [M0 Hm]]. rewrite flows0 in Ek by (eapply S0; eauto). injection Ek as Ek.
    pose proof (same_field gs (fun v => ph n v + twopi * inject_Z (m n v)) (I n) v Hps Hv) as K. cbv beta in K.
    rewrite M0 in K. change (inject_Z 0) with 0 in K. rewrite <- K; [ring|]. intros a b Hl. fold (D n a b). rewrite <- (HX n a b Hn Hl).
    specialize (Hm a b Hl). rewrite <- Ek, link_val_zero, Z.add_0_r in Hm. rewrite <- Hm, inject_Z_sub. ring. }
  destruct (HU L B HD) as (U & [HU1 HU2] & LU & HW); auto.
  { intros n y Hn Hy. rewrite HI by auto. specialize (HB n y Hn Hy). now apply abs_le in HB. }
  assert (unwrap_cube_fl F smcf tsched ssched cpu e c0 = unwrap_cube_fl F brute tsched ssched cpu e1 c0) as ->.
  { unfold unwrap_cube_fl. change (classify e1 c0) with (classify e c0). rewrite Hcl. cbn [bind]. rewrite EG. cbn [bind].
    rewrite (in_time_same F brute smcf tsched cpu e1 e Hts eq_refl eq_refl is_ifg (cu_data c0) (repeat 1%Z (length (em_ifgs e))) tc G); auto.
    - cbn [bind]. symmetry. eapply in_space_same; eauto.
      + reflexivity.
      + rewrite EL; exact Hsc.
      + change (em_ifgs e1) with (em_ifgs e). now rewrite EI.
    - now rewrite EI.
    - change (em_links e1) with (em_links e). rewrite EL. apply forallb_forall. intros row Hr. apply forallb_forall. intros [a b] Hab.
      destruct (pl_lt gs Hps a b Hab). pose proof (Hst row Hr). cbn [fst snd]. apply andb_true_intro. split; apply Nat.ltb_lt; lia.
    - change (em_links e1) with (em_links e). change (em_ifgs e1) with (em_ifgs e). rewrite EL, EI. intros i Hi. destruct (nth i (g_links gs) (0%nat, 0%nat)) as [a b] eqn:E. eapply T; eauto. }
  exists U. split; [now split|]. split; [exact LU|]. intros n Hn. destruct (HW n Hn) as [Ln Hy]. split; [exact Ln|].
  intros v Hv. specialize (Hy v Hv). unfold within in *. now rewrite HI in Hy.
Qed.

(** Single precision: dates in triangles, a grid or a triangulation in space. *)
Theorem C70_single : forall smcf gs gt tsched ssched cpu e c0 is_ifg tc sc (Phi : nat -> nat -> Q),
  planar gs -> planar gt -> make_solver gs = Ok (em_space e) -> make_solver gt = Ok (em_time e) ->
  (forall b l, Permutation (tsched b l) l) -> (forall l, Permutation (ssched l) l) ->
  (0 < links_per_batch (em_set e))%nat -> (1 <= space_workers (s_worker_count (em_set e)) cpu)%Z ->
  classify e c0 = Ok is_ifg -> stack (cu_data c0) (g_npoints gs) ->
  (forall row x, In row (cu_data c0) -> In x row -> - (4) <= x <= 4) ->
  (forall c, In c (g_cycles gt) -> length c = 3%nat) ->
  (forall c, In c (g_cycles gs) -> length c = 3%nat) \/ (forall c, In c (g_cycles gs) -> length c = 4%nat) ->
  pick_cost (t_cost_type (em_set e)) (length (g_links gt)) (em_tdist e) (em_tcent e) = Ok tc ->
  pick_cost (s_cost_type (em_set e)) (length (g_links gs)) (em_sdist e) (em_scent e) = Ok sc ->
  let I n v := Phi (snd (nth n (g_links gt) (0, 0)%nat)) v - Phi (fst (nth n (g_links gt) (0, 0)%nat)) v in
  (forall n v, (n < length (g_links gt))%nat -> (v < g_npoints gs)%nat ->
     cong2pi (ifg_phase is_ifg (g_links gt) (cu_data c0) n v) (I n v)) ->
  (forall n a b, (n < length (g_links gt))%nat -> In (a, b) (g_links gs) ->
     Qabs (I n b - I n a) < half - (1 # 30000)) ->
  forall L, (L <= 100 * 100)%nat -> depth_le (g_links gs) (g_npoints gs) L ->
  (forall n v, (n < length (g_links gt))%nat -> (v < g_npoints gs)%nat -> Qabs (I n v - I n 0%nat) <= 1000) ->
  exists U, checked (L <= 11)%nat (unwrap_cube_fl single smcf tsched ssched cpu e c0) U /\
    length U = length (g_links gt) /\
    forall n, (n < length (g_links gt))%nat -> length (nth n U []) = g_npoints gs /\
      forall v, (v < g_npoints gs)%nat ->
        within (num L * (1 # 50000) + (1 # 8000)) (nth v (nth n U []) 0) (I n v - I n 0%nat).
Proof.
  intros smcf gs gt tsched ssched cpu e c0 is_ifg tc sc Phi Hps Hpt Es Et Hts Hss Hlpb Hsw Hcl Hst HM Hnt Hns Htc Hsc I Hph Hsm
    L HL HD HB.
  assert (exists n, (n <= 4)%nat /\ forall c, In c (g_cycles gs) -> length c = n) as (ns & Hn4 & Hns')
    by (destruct Hns; [exists 3%nat|exists 4%nat]; auto).
  assert (hop_err u32 u64 4 4 1000 <= 1 # 50000) as HE by (vm_compute; discriminate).
  assert (0 <= hop_err u32 u64 4 4 1000) as HE0 by (vm_compute; discriminate).
  assert (0 <= num L <= 10000) as NL.
  { unfold num. change 0 with (inject_Z 0). change 10000 with (inject_Z 10000). rewrite <- !Zle_Qle. lia. }
  assert ((num L + 1) * hop_err u32 u64 4 4 1000 <= (num L + 1) * (1 # 50000)) as HN
    by (rewrite !(Qmult_comm (num L + 1)); apply Qmult_le_compat_r; lra).
  destruct (C70_smooth single u32 u64 smcf gs gt tsched ssched cpu e c0 is_ifg 4 3 ns tc sc Phi C69_formats) with (L := L) (B := 1000)
    as (U & [HU1 HU2] & LU & HW); auto.
  - unfold turns_right, num. do 5 (destruct ns as [|ns]; [vm_compute; discriminate|]). lia.
  - intros n a b Hn Hl. specialize (Hsm n a b Hn Hl). assert (margin u32 4 <= 1 # 30000) by (vm_compute; discriminate).
    unfold I in Hsm. lra.
  - lra.
  - exists U. split; [split; [exact HU1|]|split; [exact LU|]].
    + intros H11. apply HU2. assert (num L <= 11) by (unfold num; change 11 with (inject_Z 11); rewrite <- Zle_Qle; lia). lra.
    + intros n Hn. destruct (HW n Hn) as [Ln Hy]. split; [exact Ln|]. intros y Hy'. specialize (Hy y Hy'). unfold within in *.
      eapply Qle_trans; [exact Hy|]. unfold cube_err.
      assert (num L * hop_err u32 u64 4 4 1000 <= num L * (1 # 50000)) by (rewrite !(Qmult_comm (num L)); apply Qmult_le_compat_r; lra).
      assert (u64 * (1000 + 1) + u32 * (2 * 1000 + 2) <= 1 # 8000) by (vm_compute; discriminate). lra.
Qed.

(** The history 3/8 t v of Props_FloatCube.v, with a solver that always fails. *)
Example C70_nonvacuous : exists U, unwrap_cube_fl single (fun _ _ => None) (fun _ l => rev l) (@rev nat) 8 (em4 1 0 2) (Cube 2 0 slc5) = Ok U /\
  forall n i j v, nth n (g_links gt4) (0, 0)%nat = (i, j) -> (n < 6)%nat -> (v < 4)%nat ->
    within (1 # 5000) (nth v (nth n U []) 0) (phi5 j v - phi5 i v).
Proof.
  destruct gt4_real as (st & _ & Hpt & _).
  destruct (C70_single (fun _ _ => None) g22 gt4 (fun _ l => rev l) (@rev nat) 8%Z (em4 1 0 2) (Cube 2 0 slc5) false (repeat 1%Z 6) (repeat 1%Z 4)
    phi5 g22_planar Hpt (proj2 g22_real) (planar_solver gt4 Hpt)) with (L := 2%nat) as (U & [_ HU] & LU & HW); auto.
  - intros _ l. symmetry. apply Permutation_rev.
  - intros l. symmetry. apply Permutation_rev.
  - cbn. lia.
  - intros row Hr. cbn in Hr. destruct Hr as [<-|[<-|[<-|[<-|[]]]]]; cbn; lia.
  - intros row x Hr Hx. cbn [cu_data slc5] in Hr.
    assert (forall y, In y (concat slc5) -> - (4) <= y <= 4) as K.
    { apply Forall_forall. unfold slc5. cbn [map seq concat app Nat.mul Nat.add Nat.eqb]. unfold phi5.
      repeat (apply Forall_cons; [first [split; discriminate|vm_compute; split; discriminate]|]). apply Forall_nil. }
    apply K. apply in_concat. eauto.
  - intros c Hc. cbn in Hc. destruct Hc as [<-|[<-|[<-|[]]]]; reflexivity.
  - right. intros c Hc. cbn in Hc. destruct Hc as [<-|[]]. reflexivity.
  - intros n v Hn Hv. cbn [gt4 g_links length g22 g_npoints] in Hn, Hv.
    exists (if (v =? 3)%nat && (snd (nth n (g_links gt4) (0, 0)%nat) =? 3)%nat then -1 else 0)%Z.
    destruct n as [|[|[|[|[|[|n]]]]]]; try (cbn in Hn; lia); (destruct v as [|[|[|[|v]]]]; [vm_compute; reflexivity..|lia]).
  - intros n a b Hn Hl. cbn in Hl. destruct n as [|[|[|[|[|[|n]]]]]]; try (cbn in Hn; lia);
      (repeat destruct Hl as [E|Hl]; try (injection E as <- <-); try destruct Hl; vm_compute; reflexivity).
  - lia.
  - exact g22_depth.
  - intros n v Hn Hv. cbn [g22 g_npoints] in Hv.
    destruct n as [|[|[|[|[|[|n]]]]]]; try (cbn in Hn; lia); (destruct v as [|[|[|[|v]]]]; [vm_compute; discriminate..|lia]).
  - exists U. split; [apply HU; lia|]. intros n i j v E Hn Hv. destruct (HW n Hn) as [_ K]. specialize (K v Hv). unfold within in *.
    rewrite E in K. cbn [fst snd] in K. change (num 2) with 2 in K.
    assert (phi5 j 0%nat - phi5 i 0%nat == 0) as Z0 by (unfold phi5; rewrite !Nat.mul_0_r; change (inject_Z (Z.of_nat 0)) with 0; ring).
    rewrite Z0 in K. rewrite <- (Qplus_0_r (phi5 j v - phi5 i v)). change (_ + 0) with (phi5 j v - phi5 i v - 0).
    eapply Qle_trans; [exact K|]. lra.
Qed.

Print Assumptions C70_smooth.
Print Assumptions C70_single.
