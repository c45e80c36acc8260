(** Property C69: rounding in the spatio-temporal unwrapping of a cube. *)
From Verif Require Import Base BaseLemmas GraphModel GraphSpec GraphProofs Hop3Proofs Reg2DProofs
  McfModel McfSpec PhaseProofs DualProofs ResidueProofs FlowProofs FloodProofs UnwrapProofs OracleProofs
  EmcfModel EmcfSpec PoolProofs BatchProofs EmcfProofs CubeProofs Props_Mcf Props_Emcf
  FloatModel FloatMcfModel FloatMcfSpec FloatMcfRound FloatPhaseProofs FloatResidueProofs FloatUnwrapProofs Props_FloatMcf
  FloatCubeModel FloatBatchProofs FloatTimeProofs FloatCubeProofs.
From Coq Require Import ZifyBool.
Set Default Goal Selector "!".
Local Open Scope Q_scope.

(** Formats in use: unit roundoff [u] for phases and single precision sums, [w]
    for double precision. *)
Record formats_ok (F : formats) (u w : Q) : Prop := {
  fo_d : rounding (f_d F) u; fo_o : rounding (f_o F) u; fo_s : rounding (f_s F) u; fo_e : rounding (f_e F) w;
  fo_t : adds (a_t F) u; fo_c : adds (a_c F) u; fo_g : adds (a_g F) u
}.

(** Error of a wrapped double difference of phases up to [M]. *)
Definition diff_err (u M : Q) : Q := u * (40 * (M + 1) + 104).
(** The same once whole cycles have been added, giving values up to [c]. *)
Definition grad_err (u w M c : Q) : Q := diff_err u M + u * (12 + 2 * c) + w * (5 + c).
(** Error per link of the integration, for results up to [B] from point 0. *)
Definition hop_err (u w M c B : Q) : Q := grad_err u w M c + w * (6 * B + 2 * c + 2).
(** Error after [L] links, stored. *)
Definition cube_err (u w M c B : Q) (L : nat) : Q := num L * hop_err u w M c B + w * (B + 1) + u * (2 * B + 2).
(** Cycles of [n] sides with gradients up to [c], known to [g], have the right turns. *)
Definition turns_right (u g c : Q) (n : nat) : Prop := num n * (g + u * ((num n + 1) * c + 2)) <= 1.

Theorem C69_cube : forall F u w smcf gs gt tsched ssched cpu e c0 is_ifg M nt ns tc sc,
  formats_ok F u w -> 0 <= M <= 1000000000 -> 200 * u * (M + 1) <= 1 -> w <= 1 # 100 ->
  smcf_sound smcf -> smcf_complete smcf ->
  planar gs -> planar gt -> make_solver gs = Ok (em_space e) -> make_solver gt = Ok (em_time e) ->
  (forall b l, Permutation (tsched b l) l) -> (forall l, Permutation (ssched l) l) ->
  (0 < links_per_batch (em_set e))%nat -> (1 <= space_workers (s_worker_count (em_set e)) cpu)%Z ->
  classify e c0 = Ok is_ifg -> stack (cu_data c0) (g_npoints gs) ->
  consistent is_ifg (g_links gt) (cu_data c0) (g_npoints gs) ->
  (forall row x, In row (cu_data c0) -> In x row -> - M <= x <= M) ->
  (forall c, In c (g_cycles gt) -> length c = nt) -> (forall c, In c (g_cycles gs) -> length c = ns) ->
  turns_right u (diff_err u M) 5 nt ->
  pick_cost (t_cost_type (em_set e)) (length (g_links gt)) (em_tdist e) (em_tcent e) = Ok tc ->
  pick_cost (s_cost_type (em_set e)) (length (g_links gs)) (em_sdist e) (em_scent e) = Ok sc ->
  length tc = length (g_links gt) -> length sc = length (g_links gs) ->
  let ph := ifg_phase is_ifg (g_links gt) (cu_data c0) in
  exists (G : list (list Q)) (q : nat -> nat -> nat -> Z),
    let X n a b := ph n b - ph n a + twopi * inject_Z (q n a b) in
    (* the temporal step returns; [q] cycles are added to each link *)
    unwrap_gradients_in_time_fl F smcf tsched cpu e is_ifg (cu_data c0) = Ok G /\
    length G = length (g_links gs) /\
    (forall i a b, (i < length (g_links gs))%nat -> nth i (g_links gs) (0, 0)%nat = (a, b) ->
       length (nth i G []) = length (g_links gt) /\
       (* double differences of at most half a cycle, plus cancelling flows *)
       (exists k, let r := time_residues_fl F (em_time e) (link_column_fl F is_ifg (g_links gt) (cu_data c0) (a, b)) in
          residues_to_flows smcf (em_time e) r tc None = Ok k /\ cancels gt r k /\
          forall n, (n < length (g_links gt))%nat ->
            Qabs (X n a b - twopi * inject_Z (nth n k 0%Z)) <= half + diff_err u M + 152 * u) /\
       (* no residue is left in time *)
       (forall c, In c (g_cycles gt) ->
          circQ (link_val 0 (g_links gt) (map (fun n => X n a b) (seq 0 (length (g_links gt))))) c == 0) /\
       (forall n c, (n < length (g_links gt))%nat -> - c <= X n a b <= c -> within (grad_err u w M c) (nth n (nth i G []) 0) (X n a b))) /\
    forall c, 0 <= c <= 1000000000 ->
      (forall n a b, (n < length (g_links gt))%nat -> In (a, b) (g_links gs) -> - c <= X n a b <= c) ->
      grad_err u w M c <= 1 -> turns_right u (grad_err u w M c) c ns ->
      exists (k : nat -> list Z) (m : nat -> nat -> Z),
        (* the spatial step cancels the residues of each interferogram *)
        (forall n, (n < length (g_links gt))%nat ->
           (exists r, compute_residues_from_gradients_fl (f_s F) (a_g F) (em_space e) (map (fun col => nth n col 0) G) = Ok r /\
              (forall i, (i < length (g_cycles gs))%nat -> nth (i + 1) r 0%Z = circZ (q n) (nth i (g_cycles gs) [])) /\
              residues_to_flows smcf (em_space e) r sc None = Ok (k n) /\ cancels gs r (k n)) /\
           cycle_map (g_links gs) (fun a b => q n a b + link_val 0 (g_links gs) (k n) a b)%Z (m n)) /\
        forall L B, depth_le (g_links gs) (g_npoints gs) L ->
          (forall n y, (n < length (g_links gt))%nat -> (y < g_npoints gs)%nat ->
             - B <= ph n y - ph n 0%nat + twopi * inject_Z (m n y) <= B) ->
          (num L + 1) * hop_err u w M c B <= 1 ->
          exists U, checked ((num L + 1) * hop_err u w M c B <= 1 # 4000) (unwrap_cube_fl F smcf tsched ssched cpu e c0) U /\
            length U = length (g_links gt) /\
            forall n, (n < length (g_links gt))%nat ->
              length (nth n U []) = g_npoints gs /\
              forall y, (y < g_npoints gs)%nat ->
                within (cube_err u w M c B L) (nth y (nth n U []) 0) (ph n y - ph n 0%nat + twopi * inject_Z (m n y)).
Proof.
  intros F u w smcf gs gt tsched ssched cpu e c0 is_ifg M nt ns tc sc [H1 H2 H3 H4 Ht Hac Hag] [HM0 HM9] Hu Hw Hs Hc Hps Hpt Es Et
    Hts Hss Hlpb Hsw Hcl Hst Hcons HM Hnt Hns Hsm Htc Hsc Ltc Lsc ph.
  apply solver_of in Es, Et; auto.
  exists (GG F smcf gs gt is_ifg c0 tc), (net F is_ifg gt (cu_data c0) smcf tc). cbv zeta.
  split; [eapply in_time_fl; eauto|]. split; [unfold GG; now rewrite map_length|]. split.
  - intros i a b Hi E. assert (In (a, b) (g_links gs)) as Hl by (rewrite <- E; now apply nth_In). destruct (pl_lt gs Hps a b Hl) as [La Lb].
    assert (a < g_npoints gs)%nat as La' by lia.
    assert (nth i (GG F smcf gs gt is_ifg c0 tc) [] = ocol F is_ifg gt (cu_data c0) smcf tc (a, b)) as EG.
    { unfold GG. rewrite (map_nth' _ _ _ (0%nat, 0%nat)) by auto. now rewrite E. }
    rewrite EG.
    destruct (link_flows F u H1 H2 H3 Ht M HM0 Hu is_ifg gt Hpt (cu_data c0) (g_npoints gs) HM Hcons nt Hnt Hsm smcf Hs Hc tc Ltc a b La' Lb)
      as (Ef & Lf & Hk & Hz).
    split; [eapply ocol_length; eauto|]. split; [|split].
    + exists (added F is_ifg gt (cu_data c0) smcf tc (a, b)). cbv zeta. rewrite Et. split; [exact Ef|]. split; [exact Hk|].
      intros n Hn. pose proof (ideal_half F u H1 H2 M HM0 Hu is_ifg (g_links gt) (cu_data c0) HM a b n) as B.
      eapply Qle_trans; [|exact B]. apply Qle_lteq. right. apply Qabs_wd. unfold net, ideal, ph. rewrite inject_Z_sub. ring.
    + exact Hz.
    + intros n c Hn Hb. unfold within. apply abs_le. eapply ocol_near; eauto.
  - intros c [Hc0 Hc9] Hflat Hg Hs2.
    destruct (cube_near F u w H1 H2 H3 H4 Ht Hac Hag M HM0 HM9 Hu Hw smcf Hs Hc gs gt Hps Hpt e Es Et tsched ssched cpu Hts Hss Hlpb Hsw
      is_ifg c0 Hcl Hst Hcons HM nt ns Hnt Hns Hsm tc sc Htc Hsc Ltc Lsc c Hc0 Hc9 Hflat Hg Hs2) as (k & m & Hk & Hall).
    exists k, m. rewrite Es. split; [exact Hk|].
    intros L B HD HB Heps. destruct (Hall L B HD HB Heps) as (U & HU & LU & HN). exists U. do 2 (split; [auto|]).
    intros n Hn. destruct (max_point_spec _ _ (planar_max gs Hps)) as (_ & Hpos & _).
    split; [now apply (HN n 0%nat Hn)|]. intros y Hy. now apply HN.
Qed.

(** ** Single precision: complex64 samples, grids or triangulations in space,
    the triangles of Hop3Graph in time. *)
Lemma rounding_mono f u v : rounding f u -> u <= v -> rounding f v.
Proof.
  intros [E O Er] H. constructor; auto. intros x. eapply Qle_trans; [apply Er|].
  apply Qmult_le_compat_r; [exact H|apply Qabs_nonneg].
Qed.
Lemma adds_mono add u v : adds add u -> u <= v -> adds add v.
Proof.
  intros A H a b. eapply Qle_trans; [apply A|]. apply Qmult_le_compat_r; [exact H|].
  pose proof (Qabs_nonneg a). pose proof (Qabs_nonneg b). lra.
Qed.
(** A sum rounded to double and then to single precision. *)
Lemma store_adds f g u v : rounding f u -> rounding g v -> adds (fun a b => f (g (a + b))) (u + v + u * v).
Proof.
  intros Hf Hg a b. set (s := a + b). pose proof (rd_err f u Hf (g s)) as E1. pose proof (rd_err g v Hg s) as E2.
  pose proof (rd_nonneg f u Hf) as U. pose proof (rd_nonneg g v Hg) as V.
  assert (Qabs (g s) <= Qabs s + v * Qabs s) as G.
  { assert (g s == (g s - s) + s) as Eg by ring. rewrite Eg at 1. eapply Qle_trans; [apply Qabs_triangle|]. lra. }
  assert (u * Qabs (g s) <= u * (Qabs s + v * Qabs s)) as G' by (rewrite !(Qmult_comm u); now apply Qmult_le_compat_r).
  apply Qle_trans with ((u + v + u * v) * Qabs s).
  - assert (f (g s) - s == (f (g s) - g s) + (g s - s)) as -> by ring. eapply Qle_trans; [apply Qabs_triangle|]. lra.
  - rewrite !(Qmult_comm (u + v + u * v)). apply Qmult_le_compat_r; [apply Qabs_triangle|].
    pose proof (Qmult_le_0_compat u v U V). lra.
Qed.

Definition u32 : Q := 1 # 16777000.
Definition u64 : Q := 1 # 9007199254740992.
Theorem C69_formats : formats_ok single u32 u64.
Proof.
  assert (pow2 (-(24)) <= u32) as L by (rewrite pow2_24; discriminate).
  assert (pow2 (-(24)) + pow2 (-(53)) + pow2 (-(24)) * pow2 (-(53)) <= u32) as L' by (rewrite pow2_24, pow2_53; discriminate).
  assert (rounding rnd32 u32) as R by (eapply rounding_mono; [exact rnd32_rounding|exact L]).
  assert (adds (fun a b => rnd32 (rnd64 (a + b))) u32) as S.
  { eapply adds_mono; [apply (store_adds rnd32 rnd64 _ _ rnd32_rounding rnd64_rounding)|exact L']. }
  constructor; try exact R; try exact S.
  - eapply rounding_mono; [exact rnd64_rounding|]. rewrite pow2_53. discriminate.
  - exact (rounding_adds rnd32 _ R).
Qed.

Theorem C69_single : forall smcf gs gt tsched ssched cpu e c0 is_ifg tc sc, smcf_sound smcf -> smcf_complete smcf ->
  planar gs -> planar gt -> make_solver gs = Ok (em_space e) -> make_solver gt = Ok (em_time e) ->
  (forall b l, Permutation (tsched b l) l) -> (forall l, Permutation (ssched l) l) ->
  (0 < links_per_batch (em_set e))%nat -> (1 <= space_workers (s_worker_count (em_set e)) cpu)%Z ->
  classify e c0 = Ok is_ifg -> stack (cu_data c0) (g_npoints gs) ->
  consistent is_ifg (g_links gt) (cu_data c0) (g_npoints gs) ->
  (forall row x, In row (cu_data c0) -> In x row -> - (4) <= x <= 4) ->
  (forall c, In c (g_cycles gt) -> length c = 3%nat) ->
  (forall c, In c (g_cycles gs) -> length c = 3%nat) \/ (forall c, In c (g_cycles gs) -> length c = 4%nat) ->
  pick_cost (t_cost_type (em_set e)) (length (g_links gt)) (em_tdist e) (em_tcent e) = Ok tc ->
  pick_cost (s_cost_type (em_set e)) (length (g_links gs)) (em_sdist e) (em_scent e) = Ok sc ->
  length tc = length (g_links gt) -> length sc = length (g_links gs) ->
  let ph := ifg_phase is_ifg (g_links gt) (cu_data c0) in
  exists G (q : nat -> nat -> nat -> Z), unwrap_gradients_in_time_fl single smcf tsched cpu e is_ifg (cu_data c0) = Ok G /\
    (forall i a b, (i < length (g_links gs))%nat -> nth i (g_links gs) (0, 0)%nat = (a, b) ->
       exists k, let r := time_residues_fl single (em_time e) (link_column_fl single is_ifg (g_links gt) (cu_data c0) (a, b)) in
          residues_to_flows smcf (em_time e) r tc None = Ok k /\
          forall n, (n < length (g_links gt))%nat ->
            Qabs (ph n b - ph n a + twopi * inject_Z (q n a b - nth n k 0%Z)) <= half + (1 # 30000)) /\
    ((* at most six cycles along a link *)
     (forall n a b, (n < length (g_links gt))%nat -> In (a, b) (g_links gs) ->
       - (40) <= ph n b - ph n a + twopi * inject_Z (q n a b) <= 40) ->
     exists (k : nat -> list Z) (m : nat -> nat -> Z),
       (forall n, (n < length (g_links gt))%nat -> 
          (exists r, compute_residues_from_gradients_fl rnd32 (a_g single) (em_space e) (map (fun col => nth n col 0) G) = Ok r /\
             residues_to_flows smcf (em_space e) r sc None = Ok (k n)) /\
          cycle_map (g_links gs) (fun a b => q n a b + link_val 0 (g_links gs) (k n) a b)%Z (m n)) /\
       forall L, (L <= 100 * 100)%nat -> depth_le (g_links gs) (g_npoints gs) L ->
         (forall n y, (n < length (g_links gt))%nat -> (y < g_npoints gs)%nat ->
            - (1000) <= ph n y - ph n 0%nat + twopi * inject_Z (m n y) <= 1000) ->
         exists U, checked (L <= 9)%nat (unwrap_cube_fl single smcf tsched ssched cpu e c0) U /\
           length U = length (g_links gt) /\
           forall n, (n < length (g_links gt))%nat -> length (nth n U []) = g_npoints gs /\
             forall y, (y < g_npoints gs)%nat ->
               within (num L * (1 # 40000) + (1 # 8000)) (nth y (nth n U []) 0) (ph n y - ph n 0%nat + twopi * inject_Z (m n y))).
Proof.
  intros smcf gs gt tsched ssched cpu e c0 is_ifg tc sc Hs Hc Hps Hpt Es Et Hts Hss Hlpb Hsw Hcl Hst Hcons HM Hnt Hns Htc Hsc Ltc Lsc ph.
  assert (exists n, (n <= 4)%nat /\ forall c, In c (g_cycles gs) -> length c = n) as (ns & Hn4 & Hns')
    by (destruct Hns; [exists 3%nat|exists 4%nat]; auto).
  assert (hop_err u32 u64 4 40 1000 <= 1 # 40000) as HE by (vm_compute; discriminate).
  assert (0 <= hop_err u32 u64 4 40 1000) as HE0 by (vm_compute; discriminate).
  destruct (C69_cube single u32 u64 smcf gs gt tsched ssched cpu e c0 is_ifg 4 3 ns tc sc C69_formats) as (G & q & EG & LG & Hlinks & Hall); auto.
  exists G, q. split; [exact EG|]. split.
    { intros i a b Hi E. destruct (Hlinks i a b Hi E) as (_ & (k & Ek & _ & Hk) & _). exists k. split; [exact Ek|].
      intros n Hn. specialize (Hk n Hn).
      assert (forall x y z, x <= y -> y <= z -> x <= z) as T by (intros; lra). eapply T; [|eapply T; [exact Hk|]].
      - apply Qle_lteq. right. apply Qabs_wd. rewrite inject_Z_sub. fold ph. ring.
      - assert (diff_err u32 4 + 152 * u32 <= 1 # 30000) by (vm_compute; discriminate). lra. }
    intros Hq. destruct (Hall 40) as (k & m & Hk & Hu); auto.
    + unfold turns_right, num. do 5 (destruct ns as [|ns]; [vm_compute; discriminate|]). lia.
    + exists k, m. split.
      { intros n Hn. destruct (Hk n Hn) as [(r & Er & _ & Ek & _) Hm]. split; [|exact Hm]. exists r. now split. }
      intros L HL HD HB.
      assert (0 <= num L <= 10000) as NL.
      { unfold num. change 0 with (inject_Z 0). change 10000 with (inject_Z 10000). rewrite <- !Zle_Qle. lia. }
      assert ((num L + 1) * hop_err u32 u64 4 40 1000 <= (num L + 1) * (1 # 40000)) as HN
        by (rewrite !(Qmult_comm (num L + 1)); apply Qmult_le_compat_r; lra).
      destruct (Hu L 1000 HD HB) as (U & HU & LU & HW); [lra|]. exists U. split; [|split; [exact LU|]].
      * destruct HU as [HU HU']. split; [exact HU|]. intros H9. apply HU'.
        assert (num L <= 9) by (unfold num; change 9 with (inject_Z 9); rewrite <- Zle_Qle; lia). lra.
      * intros n Hn. destruct (HW n Hn) as [Ln Hy]. split; [exact Ln|]. intros y Hy'. specialize (Hy y Hy'). unfold within in *.
        eapply Qle_trans; [exact Hy|]. unfold cube_err.
        assert (num L * hop_err u32 u64 4 40 1000 <= num L * (1 # 40000))
          by (rewrite !(Qmult_comm (num L)); apply Qmult_le_compat_r; lra).
        assert (u64 * (1000 + 1) + u32 * (2 * 1000 + 2) <= 1 # 8000) by (vm_compute; discriminate). lra.
Qed.

(** Four dates with a temporal residue in single precision: the flow takes a
    cycle off interferogram (0, 1). *)
Definition slc5r : list (list Q) := [[0; 0; 0; 0]; [0; 2; 0; 2]; [0; -(9 # 4); 0; -(9 # 4)]; [0; -(5 # 4); 0; -(5 # 4)]].
Definition show2 (r : res (list (list Q))) : option (list (list Z)) :=
  match r with Ok l => Some (map (map (fun x => rint (1000 * x))) l) | Err _ => None end.
Example C69_witness :
  show2 (unwrap_cube_fl single tflow (fun _ l => rev l) (@rev nat) 8 (em4 3 0 2) (Cube 2 0 slc5r))
  = Some [[0; -4283; 0; -4283]; [0; -2250; 0; -2250]; [0; -1250; 0; -1250]; [0; 2033; 0; 2033]; [0; 3033; 0; 3033]; [0; 1000; 0; 1000]]%Z
  /\ time_residues_fl single (dual_solver gt4) (link_column_fl single false (g_links gt4) slc5r (0, 1)%nat) = [-1; 1; 0; 0]%Z
  /\ time_residues_fl single (dual_solver gt4) (link_column_fl single false (g_links gt4) slc5r (0, 2)%nat) = [0; 0; 0; 0]%Z.
Proof. vm_compute. auto. Qed.

(** All hypotheses of [C69_single] hold for the phases 3/8 t v, of which the last
    is stored less a cycle; every interferogram is recovered. *)
Definition phi5 (t v : nat) : Q := inject_Z (Z.of_nat (t * v)) * (3 # 8).
Definition slc5 : list (list Q) := map (fun t => map (fun v => if (t * v =? 9)%nat then phi5 t v - twopi else phi5 t v) (seq 0 4)) (seq 0 4).
Example C69_nonvacuous : exists U, unwrap_cube_fl single brute (fun _ l => rev l) (@rev nat) 8 (em4 1 0 2) (Cube 2 0 slc5) = Ok U /\
  forall n i j v, nth n (g_links gt4) (0, 0)%nat = (i, j) -> (n < 6)%nat -> (v < 4)%nat ->
    within (1 # 1000) (nth v (nth n U []) 0) (phi5 j v - phi5 i v).
Proof.
  assert (forall n v, (n < 6)%nat -> (v < 4)%nat -> exists z : Z,
    ifg_phase false (g_links gt4) slc5 n v == phi5 (snd (nth n (g_links gt4) (0, 0)%nat)) v - phi5 (fst (nth n (g_links gt4) (0, 0)%nat)) v + twopi * inject_Z z) as Hz.
  { intros n v Hn Hv. exists (if (v =? 3)%nat && (snd (nth n (g_links gt4) (0, 0)%nat) =? 3)%nat then -1 else 0)%Z.
    destruct n as [|[|[|[|[|[|n]]]]]]; try lia; (destruct v as [|[|[|[|v]]]]; [vm_compute; reflexivity..|lia]). }
  set (ph := ifg_phase false (g_links gt4) slc5) in *.
  set (tr := fun n v => phi5 (snd (nth n (g_links gt4) (0, 0)%nat)) v - phi5 (fst (nth n (g_links gt4) (0, 0)%nat)) v) in *.
  destruct gt4_real as (st & _ & Hpt & _).
  destruct (C69_single brute g22 gt4 (fun _ l => rev l) (@rev nat) 8%Z (em4 1 0 2) (Cube 2 0 slc5) false (repeat 1%Z 6) (repeat 1%Z 4)
    brute_sound brute_complete g22_planar Hpt (proj2 g22_real) (planar_solver gt4 Hpt)) as (G & q & EG & Hlinks & Hall); auto.
  - intros _ l. symmetry. apply Permutation_rev.
  - intros l. symmetry. apply Permutation_rev.
  - cbn. lia.
  - intros row Hr. cbn in Hr. destruct Hr as [<-|[<-|[<-|[<-|[]]]]]; cbn; lia.
  - apply C21_slc_consistent.
  - intros row x Hr Hx. cbn [cu_data slc5] in Hr. pose proof twopi_lo. pose proof twopi_hi.
    assert (forall y, In y (concat slc5) -> - (4) <= y <= 4) as K.
    { apply Forall_forall. unfold slc5. cbn [map seq concat app Nat.mul Nat.add Nat.eqb]. unfold phi5.
      repeat (apply Forall_cons; [first [split; discriminate|vm_compute; split; discriminate]|]). apply Forall_nil. }
    apply K. apply in_concat. eauto.
  - intros c Hc. cbn in Hc. destruct Hc as [<-|[<-|[<-|[]]]]; reflexivity.
  - right. intros c Hc. cbn in Hc. destruct Hc as [<-|[]]. reflexivity.
  - cbn [cu_data] in *. fold ph in Hlinks, Hall.
    assert (forall n a b, (n < 6)%nat -> In (a, b) (g_links g22) -> - (5 # 2) <= tr n b - tr n a <= 5 # 2) as Ht.
    { intros n a b Hn Hl. cbn in Hl. destruct n as [|[|[|[|[|[|n]]]]]]; try lia;
        (repeat destruct Hl as [E|Hl]; try (injection E as <- <-); try destruct Hl; vm_compute; split; discriminate). }
    assert (forall n a b, (n < 6)%nat -> In (a, b) (g_links g22) -> ph n b - ph n a + twopi * inject_Z (q n a b) == tr n b - tr n a) as Hq.
    { intros n a b Hn Hl. pose proof (Ht n a b Hn Hl) as Hb. pose proof Hl as Hl'. apply (In_nth _ _ (0%nat, 0%nat)) in Hl' as (i & Hi & E).
      destruct (Hlinks i a b Hi E) as (k & Ek & Hk). cbn [em4 em_time] in Ek.
      assert (k = repeat 0%Z 6) as ->.
      { assert (time_residues_fl single (dual_solver gt4) (link_column_fl single false (g_links gt4) slc5 (a, b)) = [0; 0; 0; 0]%Z) as Er.
        { cbn in Hl. repeat destruct Hl as [E'|Hl]; try (injection E' as <- <-); try destruct Hl; vm_compute; reflexivity. }
        rewrite Er in Ek. vm_compute in Ek. injection Ek as <-. reflexivity. }
      specialize (Hk n Hn). rewrite nth_repeat in Hk. replace (q n a b - 0)%Z with (q n a b) in Hk by lia. apply abs_le in Hk.
      destruct (pl_lt g22 g22_planar a b Hl) as [La Lb]. cbn [g22 g_npoints] in Lb.
      destruct (Hz n a Hn ltac:(lia)) as [za Za]. destruct (Hz n b Hn Lb) as [zb Zb]. fold (tr n a) in Za. fold (tr n b) in Zb.
      rewrite Za, Zb in Hk |- *. set (s := (zb - za + q n a b)%Z).
      assert (tr n b + twopi * inject_Z zb - (tr n a + twopi * inject_Z za) + twopi * inject_Z (q n a b) == tr n b - tr n a + twopi * inject_Z s) as Es.
      { unfold s. rewrite inject_Z_add, inject_Z_sub. ring. }
      rewrite Es in Hk |- *. assert (- (1) < s < 1)%Z as Hs.
      { apply small_cycles. change (inject_Z 1) with 1. pose proof twopi_lo. pose proof twopi_hi. unfold half in Hk. lra. }
      replace s with 0%Z by lia. change (inject_Z 0) with 0. ring. }
    destruct Hall as (k & m & Hk & HU).
    { intros n a b Hn Hl. rewrite Hq by auto. pose proof (Ht n a b Hn Hl). lra. }
    assert (forall n y, (n < 6)%nat -> (y < 4)%nat -> ph n y - ph n 0%nat + twopi * inject_Z (m n y) == tr n y) as Hm.
    { intros n y Hn Hy. destruct (Hk n Hn) as [(r & Er & Ek) [M0 Mm]]. cbn [em4 em_space] in Er, Ek.
      assert (k n = repeat 0%Z 4) as Kn.
      { assert (r = [0; 0]%Z) as ->.
        { assert (match unwrap_gradients_in_time_fl single brute (fun _ l => rev l) 8 (em4 1 0 2) false slc5 with
            | Ok G => map (fun n => compute_residues_from_gradients_fl rnd32 (a_g single) s22 (map (fun col => nth n col 0) G)) (seq 0 6)
            | Err _ => [] end = repeat (Ok [0; 0]%Z) 6) as K by (vm_compute; reflexivity).
          rewrite EG in K. apply (f_equal (fun l => nth n l (Ok []))) in K. rewrite (map_nth' _ _ _ 0%nat) in K by (rewrite seq_length; auto).
          rewrite seq_nth in K by auto. cbn [Nat.add] in K. rewrite Er in K.
          destruct n as [|[|[|[|[|[|n]]]]]]; try lia; cbn [nth repeat] in K; congruence. }
        vm_compute in Ek. injection Ek as <-. reflexivity. }
      rewrite Kn in Mm.
      assert (forall a b, In (a, b) (g_links g22) -> ph n b - ph n a + twopi * (inject_Z (m n b) - inject_Z (m n a)) == tr n b - tr n a) as D.
      { intros a b Hl. rewrite <- (Hq n a b Hn Hl). rewrite <- inject_Z_sub, (Mm a b Hl).
        assert (link_val 0%Z (g_links g22) (repeat 0%Z 4) a b = 0%Z) as ->; [|now rewrite Z.add_0_r].
        cbn in Hl. repeat destruct Hl as [E'|Hl]; try (injection E' as <- <-); try destruct Hl; reflexivity. }
      assert (tr n 0%nat == 0) as T0 by (unfold tr, phi5; rewrite !Nat.mul_0_r; change (inject_Z (Z.of_nat 0)) with 0; ring).
      assert (inject_Z (m n 0%nat) == 0) as M0' by (rewrite M0; reflexivity).
      pose proof (D 0%nat 1%nat ltac:(cbn; tauto)) as D1. pose proof (D 0%nat 2%nat ltac:(cbn; tauto)) as D2.
      pose proof (D 1%nat 3%nat ltac:(cbn; tauto)) as D3.
      rewrite M0' in D1, D2. destruct y as [|[|[|[|y]]]]; try lia; rewrite ?M0'; lra. }
    destruct (HU 2%nat ltac:(lia) g22_depth) as (U & [_ EU] & _ & HN).
    { intros n y Hn Hy. rewrite Hm by auto. cbn [g22 g_npoints] in Hy.
      destruct n as [|[|[|[|[|[|n]]]]]]; try (cbn in Hn; lia); (destruct y as [|[|[|[|y]]]]; [vm_compute; split; discriminate..|lia]). }
    exists U. split; [apply EU; lia|]. intros n i j v E Hn Hv. destruct (HN n Hn) as [_ K]. specialize (K v Hv).
    unfold within in *. rewrite (Hm n v Hn Hv) in K. unfold tr in K. rewrite E in K. cbn [fst snd] in K.
    eapply Qle_trans; [exact K|]. change (num 2) with 2. lra.
Qed.

Print Assumptions C69_cube.
Print Assumptions C69_formats.
Print Assumptions C69_single.
