(** Properties C17-C25: batch flow solving, worker counts, spatio-temporal
    unwrapping. Worker completion orders are arbitrary permutations. *)
From Verif Require Import Base BaseLemmas GraphModel GraphSpec GraphProofs Hop3Proofs Reg2DProofs
  McfModel McfSpec PhaseProofs DualProofs ResidueProofs FlowProofs FloodProofs UnwrapProofs OracleProofs
  EmcfModel EmcfSpec PoolProofs BatchProofs EmcfProofs CubeProofs Props_Mcf.
From Coq Require Import ZifyBool.
Set Default Goal Selector "!".
Opaque brute.

(** ** C17 *)
Theorem C17_rows : forall smcf sched cpu s residues cost revcost wc,
  (forall l, Permutation (sched l) l) ->
  let many := residues_to_flows_many smcf sched cpu s residues cost revcost wc in
  let row i := residues_to_flows smcf s (nth i residues []) cost revcost in
  ((exists r, In r residues /\ length r <> length (g_cycles (s_graph s)) + 1) -> many = Err ValueError) /\
  ((forall r, In r residues -> length r = length (g_cycles (s_graph s)) + 1) ->
     (forall F, many = Ok F <-> length F = length residues /\ forall i, i < length residues -> row i = Ok (nth i F [])) /\
     (forall e, many = Err e -> exists i, i < length residues /\ row i = Err e)).
Proof.
  intros smcf sched cpu s residues cost revcost wc Hs many row. split; [apply many_width|]. intros Hw. split.
  - intros F. apply many_ok; auto.
  - intros e. apply many_err; auto.
Qed.
(** Two runs with different worker counts, chunk orders or machines agree. *)
Theorem C17_schedule : forall smcf sched sched' cpu cpu' s residues cost revcost wc wc' F,
  (forall l, Permutation (sched l) l) -> (forall l, Permutation (sched' l) l) ->
  residues_to_flows_many smcf sched cpu s residues cost revcost wc = Ok F ->
  residues_to_flows_many smcf sched' cpu' s residues cost revcost wc' = Ok F.
Proof.
  intros smcf sched sched' cpu cpu' s residues cost revcost wc wc' F H H' E.
  assert (forall r, In r residues -> length r = length (g_cycles (s_graph s)) + 1) as Hw.
  { intros r Hr. destruct (Nat.eq_dec (length r) (length (g_cycles (s_graph s)) + 1)); auto.
    rewrite many_width in E; [discriminate|]. eauto. }
  apply many_ok in E; auto. now apply many_ok.
Qed.
Example C17_witness :
  let r := [[1; -1]; [0; 0]; [2; -2]]%Z in
  let o := fun (_ : list arc) (sup : list Z) => Some [0; 0; 0; 0; 0; nth 0 sup 0; 0; 0]%Z in
  residues_to_flows_many o (@rev nat) 8 s22 r [3; 1; 3; 3]%Z None (Some 4%Z) = Ok [[0; 1; 0; 0]; [0; 0; 0; 0]; [0; 2; 0; 0]]%Z
  /\ residues_to_flows_many o (fun l => l) 1 s22 r [3; 1; 3; 3]%Z None None = Ok [[0; 1; 0; 0]; [0; 0; 0; 0]; [0; 2; 0; 0]]%Z
  /\ residues_to_flows_many (fun _ _ => None) (@rev nat) 8 s22 r [3; 1; 3; 3]%Z None None = Err RuntimeError
  /\ residues_to_flows_many o (@rev nat) 8 s22 [[1; 0; -1]]%Z [3; 1; 3; 3]%Z None None = Err ValueError.
Proof. vm_compute. auto. Qed.

(** ** C18 *)
(** Temporal step and link models: at least one worker always. *)
Theorem C18_time_workers : forall wc cpu, (1 <= time_workers wc cpu)%Z /\
  (forall w, (1 <= w)%Z -> time_workers (Some w) cpu = w) /\
  ((cpu >= 2)%Z -> forall w, wc = None \/ (wc = Some w /\ (w <= 0)%Z) -> time_workers wc cpu = (cpu - 1)%Z).
Proof.
  intros wc cpu. split; [|split].
  - unfold time_workers. destruct wc as [w|]; [destruct (Z.leb_spec w 0)|]; lia.
  - intros w Hw. unfold time_workers. destruct (Z.leb_spec w 0); lia.
  - intros Hc w [->|[-> Hw]]; unfold time_workers; [lia|]. destruct (Z.leb_spec w 0); lia.
Qed.
(** Spatial step: fails on a machine with one cpu... *)
Theorem C18_space_workers_refuted : forall smcf sched e grad,
  (s_worker_count (em_set e) <= 0)%Z ->
  space_workers (s_worker_count (em_set e)) 1 = 0%Z /\
  exists er, unwrap_gradients_in_space smcf sched 1 e grad = Err er.
Proof.
  intros smcf sched e grad H. assert (space_workers (s_worker_count (em_set e)) 1 = 0%Z) as E.
  { unfold space_workers. destruct (Z.ltb_spec (s_worker_count (em_set e)) 1); lia. }
  split; auto. unfold unwrap_gradients_in_space. rewrite E.
  destruct (pick_cost _ _ _ _); cbn [bind Z.leb Z.compare]; eauto.
Qed.
(** ...and is right with two or more. Missing: the single-cpu machine. *)
Theorem C18_space_workers_partial : forall wc cpu, (2 <= cpu)%Z \/ (1 <= wc)%Z -> (1 <= space_workers wc cpu)%Z.
Proof. intros wc cpu H. unfold space_workers. destruct (Z.ltb_spec wc 1); lia. Qed.
Example C18_witness : time_workers (Some 0%Z) 1 = 1%Z /\ time_workers None 8 = 7%Z /\ space_workers (-3) 8 = 7%Z /\ space_workers 2 1 = 2%Z.
Proof. vm_compute. auto. Qed.

(** ** C19 *)
Theorem C19_cpu_count : forall quota period machine, (1 <= machine)%Z ->
  (1 <= get_cpu_count quota period machine)%Z /\
  (forall q p, quota = Ok q -> period = Ok p -> (0 < q)%Z -> (0 < p)%Z ->
     (q <= get_cpu_count quota period machine * p)%Z /\
     forall c, (q <= c * p)%Z -> (get_cpu_count quota period machine <= c)%Z) /\
  ((exists er, quota = Err er) \/ (exists er, period = Err er) \/
   (exists q, quota = Ok q /\ (q <= 0)%Z) \/ (exists p, period = Ok p /\ (p <= 0)%Z) ->
   get_cpu_count quota period machine = machine).
Proof.
  intros quota period machine Hm.
  assert (forall q p, (0 < q)%Z -> (0 < p)%Z ->
    (q <= - (- q / p) * p)%Z /\ forall c, (q <= c * p)%Z -> (- (- q / p) <= c)%Z) as K.
  { intros q p Hq Hp. pose proof (Z.div_mod (- q) p ltac:(lia)). pose proof (Z.mod_pos_bound (- q) p Hp).
    split; [nia|]. intros c Hc. nia. }
  split; [|split].
  - unfold get_cpu_count. destruct quota as [q|], period as [p|]; auto.
    destruct (Z.ltb_spec 0 q), (Z.ltb_spec 0 p); cbn [andb]; auto. destruct (K q p) as [K1 _]; auto. nia.
  - intros q p -> -> Hq Hp. unfold get_cpu_count.
    destruct (Z.ltb_spec 0 q), (Z.ltb_spec 0 p); try lia. cbn [andb]. apply K; auto.
  - unfold get_cpu_count. intros [[er ->]|[[er ->]|[(q & -> & Hq)|(p & -> & Hp)]]]; auto.
    + destruct quota; auto.
    + destruct period; auto. destruct (Z.ltb_spec 0 q); [lia|]. reflexivity.
    + destruct quota; auto. destruct (Z.ltb_spec 0 p); [lia|]. rewrite andb_comm. reflexivity.
Qed.
Example C19_witness : get_cpu_count (Ok 250000%Z) (Ok 100000%Z) 16 = 3%Z
  /\ get_cpu_count (Ok (-1)%Z) (Ok 100000%Z) 16 = 16%Z /\ get_cpu_count (Err ValueError) (Ok 100000%Z) 16 = 16%Z.
Proof. vm_compute. auto. Qed.

(** ** C20. Runs that differ only in batch size, worker counts, machine and
    completion orders have the same outcome (array or exception). *)
Definition same_work (e e' : emcf) : Prop :=
  em_space e = em_space e' /\ em_time e = em_time e' /\
  t_cost_type (em_set e) = t_cost_type (em_set e') /\ em_tdist e = em_tdist e' /\ em_tcent e = em_tcent e'.
Theorem C20_batches : forall smcf sched sched' cpu cpu' e e' is_ifg data,
  (forall b l, Permutation (sched b l) l) -> (forall b l, Permutation (sched' b l) l) ->
  same_work e e' -> 0 < links_per_batch (em_set e) -> 0 < links_per_batch (em_set e') ->
  (* every row holds every point of the spatial links *)
  (forall row a b, In row data -> In (a, b) (g_links (s_graph (em_space e))) -> a < length row /\ b < length row) ->
  unwrap_gradients_in_time smcf sched cpu e is_ifg data = unwrap_gradients_in_time smcf sched' cpu' e' is_ifg data.
Proof.
  intros smcf sched sched' cpu cpu' e e' is_ifg data Hs Hs' (Esp & Eti & Ec & Ed & Ee) Hl Hl' Hd.
  assert (cols_ok data (em_links e) = true) as HC.
  { apply forallb_forall. intros row Hr. apply forallb_forall. intros [a b] Hab.
    destruct (Hd row a b Hr Hab). cbn [fst snd]. apply andb_true_intro. split; now apply Nat.ltb_lt. }
  assert (em_links e' = em_links e) as El by (unfold em_links; now rewrite Esp).
  assert (em_ifgs e' = em_ifgs e) as Ei by (unfold em_ifgs; now rewrite Eti).
  destruct (pick_cost (t_cost_type (em_set e)) (length (em_ifgs e)) (em_tdist e) (em_tcent e)) as [tc|er] eqn:Et.
  2:{ unfold unwrap_gradients_in_time. rewrite Ei, <- Ec, <- Ed, <- Ee, Et. reflexivity. }
  assert (pick_cost (t_cost_type (em_set e')) (length (em_ifgs e')) (em_tdist e') (em_tcent e') = Ok tc) as Et'.
  { now rewrite Ei, <- Ec, <- Ed, <- Ee. }
  assert (forall i, link_out smcf e' tc is_ifg data i = link_out smcf e tc is_ifg data i) as Eo.
  { intros i. unfold link_out. now rewrite El, Ei, <- Eti. }
  destruct (unwrap_gradients_in_time smcf sched cpu e is_ifg data) as [G|er] eqn:E.
  - symmetry. apply (in_time_ok smcf sched' cpu' e' is_ifg data tc Hs' Et' Hl'); [now rewrite El|].
    apply (in_time_ok smcf sched cpu e is_ifg data tc Hs Et Hl) in E; auto. rewrite El.
    destruct E as [E1 E2]. split; auto. intros i Hi. rewrite Eo. auto.
  - apply (in_time_err smcf sched cpu e is_ifg data tc Hs Et) in E as [[_ E]|(i & Hi & E)]; [congruence|].
    destruct (unwrap_gradients_in_time smcf sched' cpu' e' is_ifg data) as [G'|er'] eqn:E'.
    + apply (in_time_sound smcf sched' cpu' e' is_ifg data tc Hs' Et' Hl') in E' as [_ E'].
      rewrite El in E'. specialize (E' i Hi). rewrite Eo in E'. congruence.
    + apply (in_time_err smcf sched' cpu' e' is_ifg data tc Hs' Et') in E' as [[_ E']|(j & Hj & E')]; [rewrite El in E'; congruence|].
      rewrite Eo in E'. apply link_out_err in E, E'. congruence.
Qed.
(** Each spatial link is processed exactly once: its column is that of a single-link computation. *)
Theorem C20_per_link : forall smcf sched cpu e is_ifg data cost G,
  (forall b l, Permutation (sched b l) l) -> 0 < links_per_batch (em_set e) ->
  pick_cost (t_cost_type (em_set e)) (length (em_ifgs e)) (em_tdist e) (em_tcent e) = Ok cost ->
  unwrap_gradients_in_time smcf sched cpu e is_ifg data = Ok G ->
  length G = length (em_links e) /\
  forall i, i < length (em_links e) ->
    let col := link_column is_ifg (em_ifgs e) data (nth i (em_links e) (0, 0)) in
    exists k, residues_to_flows smcf (em_time e) (time_residues (em_time e) col) cost None = Ok k /\
      nth i G [] = map (fun vk => fst vk + twopi * inject_Z (snd vk))%Q (combine col k).
Proof.
  intros smcf sched cpu e is_ifg data cost G Hs Hl Hc H.
  apply (in_time_sound smcf sched cpu e is_ifg data cost Hs Hc Hl) in H as [HL H]. split; auto.
  intros i Hi col. specialize (H i Hi). unfold link_out in H. fold col in H.
  destruct (residues_to_flows _ _ _ _ _) as [k|er]; cbn [bind] in H; [|discriminate]. exists k. split; congruence.
Qed.

(** The temporal graph of four dates; a solver with one link per batch and one with all. *)
Definition gt4 : graph := Graph 4 [(0, 1); (0, 2); (0, 3); (1, 2); (1, 3); (2, 3)] [[0; 1; 2]; [0; 2; 3]; [1; 3; 2]].
Example gt4_real : exists s, hop3 4 = Ok gt4 /\ planar gt4 /\ make_solver gt4 = Ok s.
Proof.
  assert (hop3_graph 4 = gt4) as E by reflexivity.
  exists (dual_solver gt4). rewrite <- E. split; [apply (hop3_ok 4); lia|]. split; [apply hop3_planar; lia|].
  apply planar_solver, hop3_planar. lia.
Qed.
Definition em4 (lpb : nat) (tw sw : Z) : emcf :=
  Emcf s22 (dual_solver gt4) (Settings Constant Constant lpb tw sw) [] [] [] [].
(** True phases t*v/2, stored with whole cycles removed or added. *)
Definition phi4 (t v : nat) : Q := (inject_Z (Z.of_nat (t * v)) * (1 # 2))%Q.
Definition slc4 : list (list Q) :=
  map (fun t => map (fun v => phi4 t v + twopi * inject_Z (Z.of_nat v - 2 * Z.of_nat t))%Q (seq 0 4)) (seq 0 4).
Definition red2 (r : res (list (list Q))) : option (list (list Q)) :=
  match r with Ok l => Some (map (map Qred) l) | Err _ => None end.
Example C20_witness :
  red2 (unwrap_gradients_in_time (fun _ _ => None) (fun _ l => rev l) 8 (em4 1 0 0) false slc4)
  = Some [[1#2; 1; 3#2; 1#2; 1; 1#2]; [1#2; 1; 3#2; 1#2; 1; 1#2]; [1; 2; 3; 1; 2; 1]; [1; 2; 3; 1; 2; 1]]%Q
  /\ red2 (unwrap_gradients_in_time (fun _ _ => None) (fun _ l => l) 1 (em4 3 1 0) false slc4)
  = red2 (unwrap_gradients_in_time (fun _ _ => None) (fun _ l => rev l) 8 (em4 1 0 0) false slc4).
Proof. vm_compute. auto. Qed.

(** ** C21 *)
Theorem C21_time : forall smcf gs gt sched cpu e is_ifg data G, smcf_sound smcf -> planar gs -> planar gt ->
  make_solver gs = Ok (em_space e) -> make_solver gt = Ok (em_time e) ->
  (forall b l, Permutation (sched b l) l) -> 0 < links_per_batch (em_set e) ->
  unwrap_gradients_in_time smcf sched cpu e is_ifg data = Ok G ->
  length G = length (g_links gs) /\
  forall i a b, i < length (g_links gs) -> nth i (g_links gs) (0, 0) = (a, b) ->
    let col := nth i G [] in
    let ph := ifg_phase is_ifg (g_links gt) data in
    length col = length (g_links gt) /\
    (* whole cycles from the double differences *)
    (forall n, n < length (g_links gt) -> cong2pi (nth n col 0%Q) (ph n b - ph n a)%Q) /\
    (* what is left around a temporal cycle is less than half a cycle ... *)
    (forall c, In c (g_cycles gt) -> (- half <= circQ (link_val 0%Q (g_links gt) col) c <= half)%Q) /\
    (* ... and nothing for data that come from one phase per date *)
    (consistent is_ifg (g_links gt) data (g_npoints gs) ->
     forall c, In c (g_cycles gt) -> (circQ (link_val 0%Q (g_links gt) col) c == 0)%Q).
Proof.
  intros smcf gs gt sched cpu e is_ifg data G Hsm Hps Hpt Hes Het Hs Hl H.
  apply solver_of in Hes, Het; auto.
  destruct (pick_cost (t_cost_type (em_set e)) (length (em_ifgs e)) (em_tdist e) (em_tcent e)) as [tc|er] eqn:Ec.
  2:{ unfold unwrap_gradients_in_time in H. rewrite Ec in H. discriminate. }
  pose proof (time_corrected smcf gs gt e Hes Het sched cpu Hs Hl is_ifg data tc G Ec H) as HC.
  pose proof (corrected_gcong smcf gs gt Hpt e Hl is_ifg data tc G Hsm HC) as [HLG HG].
  destruct HC as [_ HC]. split; auto. intros i a b Hi E col ph. destruct (HC i a b Hi E) as (k & Hk & Ek).
  unfold col. rewrite Ek.
  assert (length k = length (g_links gt)) as HLk.
  { eapply (flow_len smcf gt Hpt tc); eauto. now apply (tr_len gt e). }
  split; [now apply ucol_length|]. split.
  { intros n Hn. rewrite <- Ek. eapply HG; eauto. }
  split.
  - intros c Hc. eapply ucol_circ; eauto.
  - intros [s Hcons] c Hc. destruct (link_bounds gs Hps e Hl a b i Hi E). eapply ucol_closed; eauto.
Qed.
(** SLC stacks always are consistent. *)
Theorem C21_slc_consistent : forall ifgs data npoints, consistent false ifgs data npoints.
Proof.
  intros ifgs data npoints. exists (fun t v => nth v (nth t data []) 0%Q). intros n v _ _. apply cong2pi_refl.
Qed.

(** A stack with a temporal residue: the flow moves interferogram (0, 1) by a cycle. *)
Definition slc4r : list (list Q) := [[0; 0; 0; 0]; [0; 2; 0; 2]; [0; 4; 0; 4]; [0; 5; 0; 5]]%Q.
Definition tflow : list arc -> list Z -> option (list Z) :=
  fun arcs sup => match sup with [-1; 1; 0; 0]%Z => Some [1; 0; 0; 0; 0; 0; 0; 0; 0; 0; 0; 0]%Z | _ => None end.
Example C21_witness :
  let c := map Qred [2 - twopi; 4 - twopi; 5 - twopi; 2; 3; 1]%Q in let z := [0; 0; 0; 0; 0; 0]%Q in
  red2 (unwrap_gradients_in_time tflow (fun _ l => rev l) 8 (em4 3 0 0) false slc4r) = Some [c; c; z; z]
  /\ time_residues (dual_solver gt4) (link_column false (g_links gt4) slc4r (0, 1)) = [-1; 1; 0; 0]%Z.
Proof. vm_compute. auto. Qed.

(** ** C22 *)
Theorem C22_sound : forall smcf gs gt tsched ssched cpu e c is_ifg U, smcf_sound smcf -> planar gs -> planar gt ->
  make_solver gs = Ok (em_space e) -> make_solver gt = Ok (em_time e) ->
  (forall b l, Permutation (tsched b l) l) -> (forall l, Permutation (ssched l) l) ->
  0 < links_per_batch (em_set e) -> classify e c = Ok is_ifg ->
  unwrap_cube smcf tsched ssched cpu e c = Ok U ->
  length U = length (g_links gt) /\
  forall n, n < length (g_links gt) ->
    let u := nth n U [] in
    let ph := ifg_phase is_ifg (g_links gt) (cu_data c) n in
    length u = g_npoints gs /\ (nth 0 u 0 == 0)%Q /\
    forall v, v < g_npoints gs -> cong2pi (nth v u 0%Q) (ph v - ph 0%nat)%Q.
Proof.
  intros smcf gs gt tsched ssched cpu e c is_ifg U Hsm Hps Hpt Hes Het Ht Hs Hl Hc H.
  apply solver_of in Hes, Het; auto.
  exact (cube_sound smcf gs gt Hps Hpt e Hes Het tsched ssched cpu Ht Hs Hl is_ifg (cu_data c) c U Hsm eq_refl Hc H).
Qed.
Theorem C22_returns : forall smcf gs gt tsched ssched cpu e c is_ifg tc sc, smcf_sound smcf -> smcf_complete smcf ->
  planar gs -> planar gt -> make_solver gs = Ok (em_space e) -> make_solver gt = Ok (em_time e) ->
  (forall b l, Permutation (tsched b l) l) -> (forall l, Permutation (ssched l) l) ->
  0 < links_per_batch (em_set e) -> classify e c = Ok is_ifg ->
  stack (cu_data c) (g_npoints gs) -> consistent is_ifg (g_links gt) (cu_data c) (g_npoints gs) ->
  (* the costs in use: one per link, temporal ones at least 1 and not astronomical *)
  pick_cost (t_cost_type (em_set e)) (length (g_links gt)) (em_tdist e) (em_tcent e) = Ok tc ->
  pick_cost (s_cost_type (em_set e)) (length (g_links gs)) (em_sdist e) (em_scent e) = Ok sc ->
  length tc = length (g_links gt) -> length sc = length (g_links gs) ->
  (forall x, In x tc -> (1 <= x)%Z) -> (2 * sumZ tc + 2 <= int32_max)%Z ->
  (1 <= space_workers (s_worker_count (em_set e)) cpu)%Z ->
  exists U, unwrap_cube smcf tsched ssched cpu e c = Ok U.
Proof.
  intros smcf gs gt tsched ssched cpu e c is_ifg tc sc Hsm Hcm Hps Hpt Hes Het Ht Hs Hl Hc Hst Hco.
  apply solver_of in Hes, Het; auto.
  exact (cube_total smcf gs gt Hps Hpt e Hes Het tsched ssched cpu Ht Hs Hl is_ifg (cu_data c) c tc sc Hsm Hcm eq_refl Hc Hst Hco).
Qed.
(** Default (constant) costs on both graphs: only the size of the temporal graph is bounded. *)
Theorem C22_returns_default : forall smcf gs gt tsched ssched cpu e c, smcf_sound smcf -> smcf_complete smcf ->
  planar gs -> planar gt -> make_solver gs = Ok (em_space e) -> make_solver gt = Ok (em_time e) ->
  (forall b l, Permutation (tsched b l) l) -> (forall l, Permutation (ssched l) l) ->
  0 < links_per_batch (em_set e) -> cu_ndim c = 2%Z -> cu_time_dim c = 0%Z ->
  length (cu_data c) = g_npoints gt -> stack (cu_data c) (g_npoints gs) ->
  t_cost_type (em_set e) = Constant -> s_cost_type (em_set e) = Constant ->
  (Z.of_nat (length (g_links gt)) <= 1000000000)%Z ->
  (1 <= space_workers (s_worker_count (em_set e)) cpu)%Z ->
  exists U, unwrap_cube smcf tsched ssched cpu e c = Ok U.
Proof.
  intros smcf gs gt tsched ssched cpu e c Hsm Hcm Hps Hpt Hes Het Ht Hs Hl H2 H0 HL Hst Hct Hcs Hn Hw.
  apply (C22_returns smcf gs gt tsched ssched cpu e c false (repeat 1%Z (length (g_links gt))) (repeat 1%Z (length (g_links gs))));
    auto using repeat_length, C21_slc_consistent.
  - unfold classify. rewrite H2, H0. cbn [negb Z.eqb]. apply solver_of in Het; auto.
    unfold em_nepochs. rewrite Het. cbn [dual_solver s_graph]. now rewrite HL, Nat.eqb_refl.
  - now rewrite Hct.
  - now rewrite Hcs.
  - intros x Hx. apply repeat_spec in Hx. lia.
  - assert (sumZ (repeat 1%Z (length (g_links gt))) = Z.of_nat (length (g_links gt))) as ->; [|unfold int32_max; lia].
    clear. induction (length (g_links gt)); auto. cbn [repeat]. rewrite sumZ_cons. lia.
Qed.
Example C22_witness : red2 (unwrap_cube (fun _ _ => None) (fun _ l => rev l) (@rev nat) 8 (em4 1 0 2) (Cube 2 0 slc4))
  = Some [[0; 1#2; 1; 3#2]; [0; 1; 2; 3]; [0; 3#2; 3; 9#2]; [0; 1#2; 1; 3#2]; [0; 1; 2; 3]; [0; 1#2; 1; 3#2]]%Q.
Proof. vm_compute. reflexivity. Qed.
Example C22_nonvacuous : exists U, unwrap_cube brute (fun _ l => rev l) (@rev nat) 8 (em4 1 0 2) (Cube 2 0 slc4r) = Ok U.
Proof.
  apply (C22_returns_default brute g22 gt4 (fun _ l => rev l) (@rev nat) 8%Z (em4 1 0 2) (Cube 2 0 slc4r) brute_sound brute_complete g22_planar).
  - destruct gt4_real as (s & _ & H & _). exact H.
  - exact (proj2 g22_real).
  - apply planar_solver. destruct gt4_real as (s & _ & H & _). exact H.
  - intros _ l. symmetry. apply Permutation_rev.
  - intros l. symmetry. apply Permutation_rev.
  - cbn. lia.
  - reflexivity.
  - reflexivity.
  - reflexivity.
  - intros row Hr. cbn in Hr. destruct Hr as [<-|[<-|[<-|[<-|[]]]]]; cbn; lia.
  - reflexivity.
  - reflexivity.
  - cbn. lia.
  - cbn. lia.
Qed.

(** ** C23: nothing is assumed of the flow solver or of the costs' values. *)
Theorem C23_smooth : forall smcf gs gt tsched ssched cpu e c tc sc (Phi : nat -> nat -> Q), planar gs -> planar gt ->
  make_solver gs = Ok (em_space e) -> make_solver gt = Ok (em_time e) ->
  (forall b l, Permutation (tsched b l) l) -> (forall l, Permutation (ssched l) l) ->
  0 < links_per_batch (em_set e) -> classify e c = Ok false -> stack (cu_data c) (g_npoints gs) ->
  pick_cost (t_cost_type (em_set e)) (length (g_links gt)) (em_tdist e) (em_tcent e) = Ok tc ->
  pick_cost (s_cost_type (em_set e)) (length (g_links gs)) (em_sdist e) (em_scent e) = Ok sc ->
  (1 <= space_workers (s_worker_count (em_set e)) cpu)%Z ->
  (* the stack is the wrapped true history *)
  (forall t v, t < g_npoints gt -> v < g_npoints gs -> cong2pi (nth v (nth t (cu_data c) []) 0%Q) (Phi t v)) ->
  (* every double difference is below half a cycle *)
  (forall i j a b, In (i, j) (g_links gt) -> In (a, b) (g_links gs) ->
     (- half < (Phi j b - Phi i b) - (Phi j a - Phi i a) < half)%Q) ->
  exists U, unwrap_cube smcf tsched ssched cpu e c = Ok U /\ length U = length (g_links gt) /\
    forall n i j, n < length (g_links gt) -> nth n (g_links gt) (0, 0) = (i, j) ->
      length (nth n U []) = g_npoints gs /\
      forall v, v < g_npoints gs ->
        (nth v (nth n U []) 0 == (Phi j v - Phi i v) - (Phi j 0%nat - Phi i 0%nat))%Q.
Proof.
  intros smcf gs gt tsched ssched cpu e c tc sc Phi Hps Hpt Hes Het Ht Hs Hl Hc Hst Htc Hsc Hw Hd Hsm.
  apply solver_of in Hes, Het; auto.
  set (I := fun n v => (Phi (snd (nth n (g_links gt) (0, 0)%nat)) v - Phi (fst (nth n (g_links gt) (0, 0)%nat)) v)%Q).
  destruct (cube_exact smcf gs gt Hps Hpt e Hes Het tsched ssched cpu Ht Hs Hl false (cu_data c) c I tc sc eq_refl Hc Hst Htc Hsc Hw Phi)
    as (U & HU & HL & H).
  - intros n v _ _. reflexivity.
  - intros n v Hn Hv. unfold ifg_phase, I. pose proof (nth_In _ (0, 0) Hn) as Hin.
    destruct (nth n (g_links gt) (0, 0)) as [i j]. apply (pl_lt gt Hpt) in Hin. cbn [fst snd].
    apply cong2pi_sub; apply Hd; lia.
  - intros n a b Hn Hab. unfold I. pose proof (nth_In _ (0, 0) Hn) as Hin.
    destruct (nth n (g_links gt) (0, 0)) as [i j]. cbn [fst snd]. now apply Hsm.
  - exists U. split; auto. split; auto. intros n i j Hn E. specialize (H n Hn). unfold I in H. rewrite E in H. exact H.
Qed.
Example C23_witness : (forall i j a b, In (i, j) (g_links gt4) -> In (a, b) (g_links g22) ->
     (- half < (phi4 j b - phi4 i b) - (phi4 j a - phi4 i a) < half)%Q)
  /\ classify (em4 1 0 2) (Cube 2 0 slc4) = Ok false.
Proof.
  split; [|reflexivity]. Transparent twopi.
  assert (forallb (fun ij => forallb (fun ab =>
     let d := ((phi4 (snd ij) (snd ab) - phi4 (fst ij) (snd ab)) - (phi4 (snd ij) (fst ab) - phi4 (fst ij) (fst ab)))%Q in
     negb (Qle_bool half d) && negb (Qle_bool d (- half))) (g_links g22)) (g_links gt4) = true) as K by (vm_compute; reflexivity).
  intros i j a b Hij Hab. rewrite forallb_forall in K. specialize (K _ Hij). cbv beta in K.
  rewrite forallb_forall in K. specialize (K _ Hab). cbn [fst snd] in K. cbv zeta in K. apply andb_prop in K as [K1 K2].
  rewrite negb_true_iff in K1, K2. split; apply Qnot_le_lt; intros L; apply Qle_bool_iff in L; congruence.
Qed.

(** ** C24 *)
Theorem C24_space : forall smcf sched sched' cpu cpu' e grad,
  (forall l, Permutation (sched l) l) -> (forall l, Permutation (sched' l) l) ->
  (1 <= space_workers (s_worker_count (em_set e)) cpu)%Z -> (1 <= space_workers (s_worker_count (em_set e)) cpu')%Z ->
  forall U, unwrap_gradients_in_space smcf sched cpu e grad = Ok U ->
    unwrap_gradients_in_space smcf sched' cpu' e grad = Ok U /\ length U = length (em_ifgs e) /\
    exists cost, pick_cost (s_cost_type (em_set e)) (length (em_links e)) (em_sdist e) (em_scent e) = Ok cost /\
      forall n, n < length (em_ifgs e) ->
        unwrap_ifg_in_space smcf (em_space e) cost (map (fun col => nth n col 0%Q) grad) = Ok (nth n U []).
Proof.
  intros smcf sched sched' cpu cpu' e grad Hs Hs' Hw Hw' U H.
  destruct (pick_cost (s_cost_type (em_set e)) (length (em_links e)) (em_sdist e) (em_scent e)) as [sc|er] eqn:Es.
  2:{ unfold unwrap_gradients_in_space in H. rewrite Es in H. discriminate. }
  apply (in_space_ok smcf sched cpu e grad sc Hs Es Hw) in H.
  split; [now apply (in_space_ok smcf sched' cpu' e grad sc Hs' Es Hw')|]. destruct H as [HL H]. split; auto.
  exists sc. split; auto.
Qed.
Example C24_witness : exists U, unwrap_gradients_in_space (fun _ _ => None) (fun l => l) 8 (em4 1 0 2)
    [[1#2; 1; 1; 1; 1; 1]; [1#2; 1; 1; 1; 1; 1]; [1; 2; 2; 2; 2; 2]; [1; 2; 2; 2; 2; 2]]%Q = Ok U /\ length U = 6.
Proof. eexists. split; [vm_compute; reflexivity|reflexivity]. Qed.

(** ** C25 *)
Theorem C25_classify : forall n gt e c, (4 <= n)%Z -> hop3 n = Ok gt -> make_solver gt = Ok (em_time e) ->
  let nslc := Z.to_nat n in let nifg := 3 * Z.to_nat n - 6 in
  length (g_links gt) = nifg /\ nslc <> nifg /\
  (cu_ndim c <> 2%Z -> classify e c = Err ValueError) /\
  (cu_ndim c = 2%Z -> cu_time_dim c <> 0%Z -> classify e c = Err NotImplementedError) /\
  (cu_ndim c = 2%Z -> cu_time_dim c = 0%Z ->
     (length (cu_data c) = nslc -> classify e c = Ok false) /\
     (length (cu_data c) = nifg -> classify e c = Ok true) /\
     (length (cu_data c) <> nslc -> length (cu_data c) <> nifg -> classify e c = Err ValueError)) /\
  (forall er smcf tsched ssched cpu, classify e c = Err er -> unwrap_cube smcf tsched ssched cpu e c = Err er).
Proof.
  intros n gt e c Hn Hg Hs nslc nifg.
  assert (4 <= Z.to_nat n) as Hn' by lia.
  rewrite <- (Z2Nat.id n) in Hg by lia. rewrite hop3_ok in Hg by auto. injection Hg as <-.
  apply solver_of in Hs; [|now apply hop3_planar].
  assert (length (g_links (hop3_graph (Z.to_nat n))) = nifg) as EL by (cbn [hop3_graph g_links]; now apply hop3_link_list_length).
  assert (em_nepochs e = nslc) as E1 by (unfold em_nepochs; now rewrite Hs).
  assert (length (em_ifgs e) = nifg) as E2 by (unfold em_ifgs; rewrite Hs; exact EL).
  split; auto. split; [unfold nslc, nifg; lia|].
  split; [|split; [|split]].
  - intros H. unfold classify. destruct (Z.eqb_spec (cu_ndim c) 2); [contradiction|reflexivity].
  - intros E H. unfold classify. rewrite E. destruct (Z.eqb_spec (cu_time_dim c) 0); [contradiction|reflexivity].
  - intros H2 H0. unfold classify. rewrite H2, H0, E1, E2. cbn [negb Z.eqb Pos.eqb].
    assert (nslc <> nifg) by (unfold nslc, nifg; lia).
    split; [|split].
    + intros ->. now rewrite Nat.eqb_refl.
    + intros ->. rewrite Nat.eqb_refl. destruct (Nat.eqb_spec nifg nslc); congruence.
    + intros A B. apply Nat.eqb_neq in A, B. now rewrite A, B.
  - intros er smcf tsched ssched cpu H. unfold unwrap_cube. now rewrite H.
Qed.
Example C25_witness : classify (em4 1 0 2) (Cube 2 0 (repeat [] 4)) = Ok false
  /\ classify (em4 1 0 2) (Cube 2 0 (repeat [] 6)) = Ok true
  /\ classify (em4 1 0 2) (Cube 2 0 (repeat [] 5)) = Err ValueError
  /\ classify (em4 1 0 2) (Cube 3 0 (repeat [] 4)) = Err ValueError
  /\ classify (em4 1 0 2) (Cube 2 1 (repeat [] 4)) = Err NotImplementedError.
Proof. repeat split. Qed.

Print Assumptions C17_rows.
Print Assumptions C17_schedule.
Print Assumptions C18_time_workers.
Print Assumptions C18_space_workers_refuted.
Print Assumptions C18_space_workers_partial.
Print Assumptions C19_cpu_count.
Print Assumptions C20_batches.
Print Assumptions C20_per_link.
Print Assumptions C21_time.
Print Assumptions C21_slc_consistent.
Print Assumptions C22_sound.
Print Assumptions C22_returns.
Print Assumptions C22_returns_default.
Print Assumptions C23_smooth.
Print Assumptions C24_space.
Print Assumptions C25_classify.
