(** Rounded unwrapping of a cube: both steps together. *)
From Verif Require Import Base BaseLemmas GraphModel GraphSpec GraphProofs McfModel McfSpec PhaseProofs DualProofs
  ResidueProofs FlowProofs FloodProofs UnwrapProofs EmcfModel EmcfSpec PoolProofs BatchProofs EmcfProofs CubeProofs
  FloatMcfModel FloatMcfSpec FloatMcfRound FloatPhaseProofs FloatFloodProofs FloatResidueProofs FloatUnwrapProofs
  FloatCubeModel FloatBatchProofs FloatTimeProofs.
From Coq Require Import ZifyBool.
Set Default Goal Selector "!".
Local Open Scope Q_scope.

Lemma finite_choice {A} (d : A) (P : nat -> A -> Prop) n : (forall i, (i < n)%nat -> exists a, P i a) ->
  exists f, forall i, (i < n)%nat -> P i (f i).
Proof.
  induction n as [|n IH]; intros H; [exists (fun _ => d); intros; lia|].
  destruct IH as [f Hf]; [intros; apply H; lia|]. destruct (H n ltac:(lia)) as [a Ha].
  exists (fun i => if (i =? n)%nat then a else f i). intros i Hi. destruct (Nat.eqb_spec i n) as [->|N]; auto.
  apply Hf. lia.
Qed.

Section OneLink.
Context (F : formats) (u w : Q) (H1 : rounding (f_d F) u) (H2 : rounding (f_o F) u) (H3 : rounding (f_s F) u) (H4 : rounding (f_e F) w).
Context (Ht : adds (a_t F) u) (Hac : adds (a_c F) u).
Context (M : Q) (HM0 : 0 <= M) (Hu : 200 * u * (M + 1) <= 1) (Hw : w <= 1 # 100).
Context (is_ifg : bool) (gt : graph) (Hpt : planar gt) (data : list (list Q)) (npts : nat).
Notation ifgs := (g_links gt).
Context (HM : forall row x, In row data -> In x row -> - M <= x <= M).
Context (Hcons : consistent is_ifg ifgs data npts).
Context (nt : nat) (Hnt : forall c, In c (g_cycles gt) -> length c = nt).
Context (Hsmall : qn nt * (gam0 u M + u * ((qn nt + 1) * 5 + 2)) <= 1).
Context (smcf : list arc -> list Z -> option (list Z)) (Hs : smcf_sound smcf) (Hc : smcf_complete smcf).
Context (cost : list Z) (HC : length cost = length ifgs).
Notation phase := (ifg_phase is_ifg ifgs data).
Notation col ab := (link_column_fl F is_ifg ifgs data ab).
Notation ideal := (ideal F is_ifg ifgs data).
Notation taken := (taken F is_ifg ifgs data).

Definition Vs (a b : nat) : list Q := map (ideal a b) (seq 0 (length ifgs)).
Lemma Vs_length a b : length (Vs a b) = length ifgs.
Proof. unfold Vs. now rewrite map_length, seq_length. Qed.
Lemma Vs_nth a b e : (e < length ifgs)%nat -> nth e (Vs a b) 0 = ideal a b e.
Proof. intros He. unfold Vs. rewrite (map_nth' _ _ _ 0%nat) by (rewrite seq_length; auto). now rewrite seq_nth. Qed.

(** Cycles that the flow solver adds on the link. *)
Definition added (ab : nat * nat) : list Z :=
  match residues_to_flows smcf (dual_solver gt) (time_residues_fl F (dual_solver gt) (col ab)) cost None with
  | Ok k => k | Err _ => [] end.
Definition net (e : nat) (a b : nat) : Z := (nth e (added (a, b)) 0 - taken e a b)%Z.
Definition flat (e : nat) (a b : nat) : Q := phase e b - phase e a + twopi * inject_Z (net e a b).
Definition ocol (ab : nat * nat) : list Q :=
  map (fun vk => shift_fl F (fst vk) (snd vk)) (combine (col ab) (added ab)).

Lemma gam0_bounds : 0 <= gam0 u M <= 1.
Proof.
  destruct (u_facts F u H1 M HM0 Hu) as (U0 & U1 & U2 & U3). unfold gam0.
  assert (u * (40 * (M + 1) + 104) == 40 * (u * M) + 144 * u) as -> by ring. lra.
Qed.

Lemma link_flows a b : (a < npts)%nat -> (b < npts)%nat ->
  residues_to_flows smcf (dual_solver gt) (time_residues_fl F (dual_solver gt) (col (a, b))) cost None = Ok (added (a, b)) /\
  length (added (a, b)) = length ifgs /\ cancels gt (time_residues_fl F (dual_solver gt) (col (a, b))) (added (a, b)) /\
  forall c, In c (g_cycles gt) -> circQ (link_val 0 ifgs (map (fun e => flat e a b) (seq 0 (length ifgs)))) c == 0.
Proof.
  intros Ha Hb. destruct Hcons as [s Hsc]. pose proof (pl_nodup gt Hpt) as Hnd.
  set (m := fun i j => cycles_between (link_val 0 ifgs (Vs a b) i j) (hist s a b j - hist s a b i)).
  assert (forall e, (e < length ifgs)%nat -> - (5) <= nth e (Vs a b) 0 <= 5) as HV5.
  { intros e He. rewrite Vs_nth by auto. now apply (col_near F u H1 H2 H3 M HM0 Hu is_ifg ifgs data HM a b e). }
  assert (forall i j, In (i, j) ifgs -> link_val 0 ifgs (Vs a b) i j == hist s a b j - hist s a b i + twopi * inject_Z (m i j)
    /\ - (5) <= link_val 0 ifgs (Vs a b) i j <= 5) as K.
  { intros i j Hl. apply (In_nth _ _ (0%nat, 0%nat)) in Hl as (e & He & E).
    pose proof (link_val_nth 0 ifgs (Vs a b) e i j Hnd (Vs_length a b) He E) as LV.
    split; [|rewrite LV; now apply HV5]. unfold m. apply cycles_between_eq. rewrite LV, Vs_nth by auto. unfold FloatTimeProofs.ideal.
    pose proof (Hsc e a He Ha) as Sa. pose proof (Hsc e b He Hb) as Sb. rewrite E in Sa, Sb. cbn [fst snd] in Sa, Sb.
    apply cong2pi_trans with (phase e b - phase e a).
    { exists (- taken e a b)%Z. rewrite inject_Z_opp. ring. }
    eapply cong2pi_trans; [apply cong2pi_sub; [exact Sb|exact Sa]|]. unfold hist.
    apply cong2pi_sym. eapply cong2pi_trans.
    { apply cong2pi_sub; (apply cong2pi_sub; apply wrapped_cong). }
    apply cong2pi_eq. ring. }
  assert (congruent_links gt (Vs a b) (hist s a b) m) as Hm by (intros i j Hl; now apply K).
  destruct (time_residues_fl_spec F u u H3 (Qle_refl u)) with (g := gt) (n := nt) (gr := col (a, b)) (X := Vs a b)
    (gamma := gam0 u M) (c := 5) (x := hist s a b) (m := m) as (HLr & Hz & Hr); auto.
  { destruct (u_facts F u H1 M HM0 Hu) as (? & ? & ? & ?). lra. }
  { apply col_length. }
  { apply Vs_length. }
  { intros i Hi. split; [|now apply HV5]. rewrite Vs_nth by auto.
    now apply (col_near F u H1 H2 H3 M HM0 Hu is_ifg ifgs data HM a b i). }
  { exact gam0_bounds. }
  { lra. }
  set (r := time_residues_fl F (dual_solver gt) (col (a, b))) in *.
  assert (cancels gt r (map (fun l => - m (fst l) (snd l))%Z ifgs)) as Hk0.
  { split; [now rewrite map_length|]. intros i Hi. rewrite Hr by auto.
    rewrite (circZ_link_val gt (fun a b => - m a b)%Z) by (auto; now apply nth_In). now rewrite circZ_opp. }
  assert (forall i j, In (i, j) ifgs -> (- (3) <= m i j <= 3)%Z) as Hmb.
  { intros i j Hl. destruct (K i j Hl) as [E [N1 N2]]. cut (- (4) < m i j < 4)%Z; [lia|]. apply small_cycles.
    change (inject_Z 4) with 4. unfold hist in E. pose proof twopi_lo.
    pose proof (wrapped_near (s i a)) as [A1 A2]. pose proof (wrapped_near (s i b)) as [B1 B2].
    pose proof (wrapped_near (s j a)) as [C1 C2]. pose proof (wrapped_near (s j b)) as [D1 D2]. unfold half in *.
    split; lra. }
  assert (fits_int32 (map (fun l => - m (fst l) (snd l))%Z ifgs)) as H32.
  { intros z Hz'. apply in_map_iff in Hz' as ([i j] & <- & Hl). cbn [fst snd]. specialize (Hmb i j Hl). unfold int32_max. lia. }
  destruct (flows_exist smcf gt r cost None _ Hc Hpt HLr Hz HC HC Hk0 H32) as [k Ek].
  pose proof (flows_cancel smcf gt r cost _ k Hs Hpt HLr Ek) as [HLk Hcan].
  assert (added (a, b) = k) as Ea by (unfold added; fold r; now rewrite Ek). rewrite Ea.
  split; [exact Ek|]. split; [exact HLk|]. split; [now split|]. intros c Hcc.
  rewrite (circQ_ext gt _ (fun i j => link_val 0 ifgs (Vs a b) i j + twopi * inject_Z (link_val 0%Z ifgs k i j)) c Hpt Hcc).
  2:{ intros i j Hl. apply (In_nth _ _ (0%nat, 0%nat)) in Hl as (e & He & E).
      rewrite (link_val_nth 0 ifgs (map _ _) e i j), (link_val_nth 0 ifgs (Vs a b) e i j), (link_val_nth 0%Z ifgs k e i j);
        auto using Vs_length; [|now rewrite map_length, seq_length].
      rewrite (map_nth' _ _ _ 0%nat) by (rewrite seq_length; auto). rewrite seq_nth by auto. rewrite Vs_nth by auto. cbn [Nat.add].
      unfold flat, net, FloatTimeProofs.ideal. rewrite Ea, inject_Z_sub. ring. }
  rewrite circQ_add, circQ_scale, circ_inject. apply (In_nth _ _ []) in Hcc as (n & Hn & <-).
  rewrite Hcan by auto. rewrite Hr by auto.
  rewrite (circ_congruent gt _ _ _ _ Hpt (nth_In _ _ Hn) Hm). rewrite inject_Z_opp. ring.
Qed.

Lemma ocol_near a b e c : (a < npts)%nat -> (b < npts)%nat -> (e < length ifgs)%nat ->
  - c <= flat e a b <= c -> - gam u w M c <= nth e (ocol (a, b)) 0 - flat e a b <= gam u w M c.
Proof.
  intros Ha Hb He Hb'. destruct (link_flows a b Ha Hb) as (_ & HL & _ & _). unfold ocol.
  rewrite (map_nth' _ _ _ (0, 0%Z)) by (rewrite combine_length, col_length; lia).
  rewrite combine_nth by (rewrite col_length; auto). cbn [fst snd].
  assert (flat e a b == ideal a b e + twopi * inject_Z (nth e (added (a, b)) 0%Z)) as E.
  { unfold flat, net, FloatTimeProofs.ideal. rewrite inject_Z_sub. ring. }
  rewrite E in *. now apply (shift_near F u w H1 H2 H3 H4 Hac M HM0 Hu Hw is_ifg ifgs data HM).
Qed.
Lemma ocol_length a b : (a < npts)%nat -> (b < npts)%nat -> length (ocol (a, b)) = length ifgs.
Proof.
  intros Ha Hb. destruct (link_flows a b Ha Hb) as (_ & HL & _ & _). unfold ocol.
  rewrite map_length, combine_length, col_length. lia.
Qed.
Lemma phase_bound e v : - (2 * M) <= phase e v <= 2 * M.
Proof.
  unfold ifg_phase. destruct is_ifg.
  - pose proof (at2_bound M HM0 data HM e v) as B. unfold at2 in B. lra.
  - pose proof (at2_bound M HM0 data HM (fst (nth e ifgs (0, 0)%nat)) v) as B. unfold at2 in B.
    pose proof (at2_bound M HM0 data HM (snd (nth e ifgs (0, 0)%nat)) v) as B'. unfold at2 in B'. lra.
Qed.
Lemma net_int32 e a b c : M <= 1000000000 -> c <= 1000000000 -> - c <= flat e a b <= c ->
  (- int32_max <= net e a b <= int32_max)%Z.
Proof.
  intros HM9 Hc9 Hb. pose proof (phase_bound e a) as Pa. pose proof (phase_bound e b) as Pb. unfold flat in Hb.
  set (k := net e a b) in *. clearbody k. pose proof twopi_lo as L. unfold int32_max.
  assert (- inject_Z 2147483647 <= inject_Z k <= inject_Z 2147483647) as K.
  { change (inject_Z 2147483647) with 2147483647.
    destruct (Qlt_le_dec (inject_Z k) 0) as [N|N].
    - assert (6 * (- inject_Z k) <= twopi * (- inject_Z k)) by (apply Qmult_le_compat_r; lra). split; lra.
    - assert (6 * inject_Z k <= twopi * inject_Z k) by (apply Qmult_le_compat_r; lra). split; lra. }
  rewrite <- inject_Z_opp in K. destruct K as [K1 K2]. rewrite inject_Z_le_iff in K1, K2. lia.
Qed.
End OneLink.

Section Cube.
Context (F : formats) (u w : Q) (H1 : rounding (f_d F) u) (H2 : rounding (f_o F) u) (H3 : rounding (f_s F) u) (H4 : rounding (f_e F) w).
Context (Ht : adds (a_t F) u) (Hac : adds (a_c F) u) (Hag : adds (a_g F) u).
Context (M : Q) (HM0 : 0 <= M) (HM9 : M <= 1000000000) (Hu : 200 * u * (M + 1) <= 1) (Hw : w <= 1 # 100).
Context (smcf : list arc -> list Z -> option (list Z)) (Hs : smcf_sound smcf) (Hc : smcf_complete smcf).
Context (gs gt : graph) (Hps : planar gs) (Hpt : planar gt) (e : emcf) (Es : em_space e = dual_solver gs) (Et : em_time e = dual_solver gt).
Context (tsched : nat -> list nat -> list nat) (ssched : list nat -> list nat) (cpu : Z).
Context (Hts : forall b l, Permutation (tsched b l) l) (Hss : forall l, Permutation (ssched l) l).
Context (Hlpb : (0 < links_per_batch (em_set e))%nat) (Hsw : (1 <= space_workers (s_worker_count (em_set e)) cpu)%Z).
Context (is_ifg : bool) (c0 : cube) (Hcl : classify e c0 = Ok is_ifg).
Notation data := (cu_data c0).
Notation ifgs := (g_links gt).
Notation links := (g_links gs).
Notation phase := (ifg_phase is_ifg ifgs data).
Context (Hst : stack data (g_npoints gs)) (Hcons : consistent is_ifg ifgs data (g_npoints gs)).
Context (HM : forall row x, In row data -> In x row -> - M <= x <= M).
Context (nt ns : nat) (Hnt : forall c, In c (g_cycles gt) -> length c = nt) (Hns : forall c, In c (g_cycles gs) -> length c = ns).
Context (Hsmall : qn nt * (gam0 u M + u * ((qn nt + 1) * 5 + 2)) <= 1).
Context (tc sc : list Z).
Context (Htc : pick_cost (t_cost_type (em_set e)) (length ifgs) (em_tdist e) (em_tcent e) = Ok tc).
Context (Hsc : pick_cost (s_cost_type (em_set e)) (length links) (em_sdist e) (em_scent e) = Ok sc).
Context (Ltc : length tc = length ifgs) (Lsc : length sc = length links).

Notation net := (net F is_ifg gt data smcf tc).
Notation flat := (flat F is_ifg gt data smcf tc).
Notation ocol := (ocol F is_ifg gt data smcf tc).

Lemma em_links_eq : em_links e = links. Proof. unfold em_links. now rewrite Es. Qed.
Lemma em_ifgs_eq : em_ifgs e = ifgs. Proof. unfold em_ifgs. now rewrite Et. Qed.

Definition GG : list (list Q) := map ocol links.

Theorem in_time_fl : unwrap_gradients_in_time_fl F smcf tsched cpu e is_ifg data = Ok GG.
Proof.
  apply (in_time_ok_fl F smcf tsched cpu e is_ifg data tc); auto.
  - now rewrite em_ifgs_eq.
  - rewrite em_links_eq. apply forallb_forall. intros row Hr. apply forallb_forall. intros [a b] Hab.
    destruct (pl_lt gs Hps a b Hab). pose proof (Hst row Hr). cbn [fst snd]. apply andb_true_intro.
    split; apply Nat.ltb_lt; lia.
  - rewrite em_links_eq. split; [unfold GG; now rewrite map_length|]. intros i Hi.
    unfold link_out_fl. cbv zeta. rewrite em_links_eq, em_ifgs_eq, Et. unfold GG. rewrite (map_nth' _ _ _ (0%nat, 0%nat)) by auto.
    destruct (nth i links (0%nat, 0%nat)) as [a b] eqn:E.
    assert (In (a, b) links) as Hl by (rewrite <- E; now apply nth_In). destruct (pl_lt gs Hps a b Hl) as [La Lb].
    destruct (link_flows F u H1 H2 H3 Ht M HM0 Hu is_ifg gt Hpt data (g_npoints gs) HM Hcons nt Hnt Hsmall smcf Hs Hc tc Ltc a b) as (Ef & _ & _ & _); [lia|lia|].
    rewrite Ef. reflexivity.
Qed.

Section Space.
Context (c : Q) (Hc0 : 0 <= c) (Hc9 : c <= 1000000000).
Context (Hflat : forall n a b, (n < length ifgs)%nat -> In (a, b) links -> - c <= flat n a b <= c).
Context (Hgam : gam u w M c <= 1) (Hs2 : qn ns * (gam u w M c + u * ((qn ns + 1) * c + 2)) <= 1).
Notation rowG n := (map (fun col => nth n col 0) GG).

Lemma gam_nonneg : 0 <= gam u w M c.
Proof.
  pose proof (gam0_bounds F u H1 M HM0 Hu). pose proof (rd_nonneg _ _ H1). pose proof (rd_nonneg _ _ H4). unfold gam.
  assert (0 <= u * (12 + 2 * c)) by (apply Qmult_le_0_compat; lra).
  assert (0 <= w * (5 + c)) by (apply Qmult_le_0_compat; lra). lra.
Qed.

Lemma row_near n : (n < length ifgs)%nat -> exists r k m,
  compute_residues_from_gradients_fl (f_s F) (a_g F) (dual_solver gs) (rowG n) = Ok r /\
  (forall i, (i < length (g_cycles gs))%nat -> nth (i + 1) r 0%Z = circZ (net n) (nth i (g_cycles gs) [])) /\
  residues_to_flows smcf (dual_solver gs) r sc None = Ok k /\
  cancels gs r k /\
  cycle_map links (fun a b => net n a b + link_val 0 links k a b)%Z m /\
  forall L B, depth_le links (g_npoints gs) L ->
    (forall y, (y < g_npoints gs)%nat -> - B <= phase n y - phase n 0%nat + twopi * inject_Z (m y) <= B) ->
    let eps := gam u w M c + w * (6 * B + 2 * c + 2) in
    (qn L + 1) * eps <= 1 ->
    exists uu, checked ((qn L + 1) * eps <= 1 # 4000) (unwrap_ifg_in_space_fl (f_s F) (f_e F) (a_g F) smcf (dual_solver gs) sc (rowG n)) uu /\
      length uu = g_npoints gs /\
      forall y, (y < g_npoints gs)%nat ->
        within (qn L * eps + w * (B + 1)) (nth y uu 0) (phase n y - phase n 0%nat + twopi * inject_Z (m y)).
Proof.
  intros Hn. pose proof (pl_nodup gs Hps) as Hnd.
  destruct (u_facts F u H1 M HM0 Hu) as (U0 & U1 & _ & _).
  set (X := map (fun l => flat n (fst l) (snd l)) links).
  assert (forall i a b, (i < length links)%nat -> nth i links (0, 0)%nat = (a, b) -> nth i X 0 = flat n a b /\ nth i (rowG n) 0 = nth n (ocol (a, b)) 0) as HX.
  { intros i a b Hi E. unfold X, GG. rewrite map_map. rewrite !(map_nth' _ _ _ (0%nat, 0%nat)) by auto. rewrite E. auto. }
  apply (grads_fl_near smcf Hs Hc (f_s F) (f_e F) (a_g F) u u w H3 (Qle_refl u)) with (n := ns) (X := X); auto.
  - lra.
  - unfold GG. now rewrite !map_length.
  - unfold X. now rewrite map_length.
  - intros i Hi. destruct (nth i links (0, 0)%nat) as [a b] eqn:E. destruct (HX i a b Hi E) as [-> ->].
    assert (In (a, b) links) as Hl by (rewrite <- E; now apply nth_In). destruct (pl_lt gs Hps a b Hl) as [La Lb].
    split; [|now apply Hflat].
    apply (ocol_near F u w H1 H2 H3 H4 Ht Hac M HM0 Hu Hw is_ifg gt Hpt data (g_npoints gs) HM Hcons nt Hnt Hsmall smcf Hs Hc tc Ltc); auto; lia.
  - split; [apply gam_nonneg|exact Hgam].
  - intros a b Hl. pose proof Hl as Hl'. apply (In_nth _ _ (0%nat, 0%nat)) in Hl' as (i & Hi & E).
    rewrite (link_val_nth 0 links X i a b); auto; [|unfold X; now rewrite map_length].
    destruct (HX i a b Hi E) as [-> _]. reflexivity.
  - intros a b Hl. eapply net_int32 with (M := M) (c := c); eauto.
Qed.

Definition leps (B : Q) : Q := gam u w M c + w * (6 * B + 2 * c + 2).

Theorem cube_near : exists (kk : nat -> list Z) (m : nat -> nat -> Z),
  (forall n, (n < length ifgs)%nat ->
     (exists r, compute_residues_from_gradients_fl (f_s F) (a_g F) (dual_solver gs) (rowG n) = Ok r /\
        (forall i, (i < length (g_cycles gs))%nat -> nth (i + 1) r 0%Z = circZ (net n) (nth i (g_cycles gs) [])) /\
        residues_to_flows smcf (dual_solver gs) r sc None = Ok (kk n) /\ cancels gs r (kk n)) /\
     cycle_map links (fun a b => net n a b + link_val 0 links (kk n) a b)%Z (m n)) /\
  forall L B, depth_le links (g_npoints gs) L ->
    (forall n y, (n < length ifgs)%nat -> (y < g_npoints gs)%nat -> - B <= phase n y - phase n 0%nat + twopi * inject_Z (m n y) <= B) ->
    (qn L + 1) * leps B <= 1 ->
    exists U, checked ((qn L + 1) * leps B <= 1 # 4000) (unwrap_cube_fl F smcf tsched ssched cpu e c0) U /\
      length U = length ifgs /\
      forall n y, (n < length ifgs)%nat -> (y < g_npoints gs)%nat ->
        length (nth n U []) = g_npoints gs /\
        within (qn L * leps B + w * (B + 1) + u * (2 * B + 2)) (nth y (nth n U []) 0) (phase n y - phase n 0%nat + twopi * inject_Z (m n y)).
Proof.
  set (P := fun n (km : list Z * (nat -> Z)) => 
    ((exists r, compute_residues_from_gradients_fl (f_s F) (a_g F) (dual_solver gs) (rowG n) = Ok r /\
        (forall i, (i < length (g_cycles gs))%nat -> nth (i + 1) r 0%Z = circZ (net n) (nth i (g_cycles gs) [])) /\
        residues_to_flows smcf (dual_solver gs) r sc None = Ok (fst km) /\ cancels gs r (fst km)) /\
     cycle_map links (fun a b => net n a b + link_val 0 links (fst km) a b)%Z (snd km)) /\
    forall L B, depth_le links (g_npoints gs) L ->
    (forall y, (y < g_npoints gs)%nat -> - B <= phase n y - phase n 0%nat + twopi * inject_Z (snd km y) <= B) ->
    (qn L + 1) * leps B <= 1 ->
    exists uu, checked ((qn L + 1) * leps B <= 1 # 4000) (unwrap_ifg_in_space_fl (f_s F) (f_e F) (a_g F) smcf (dual_solver gs) sc (rowG n)) uu /\
      length uu = g_npoints gs /\
      forall y, (y < g_npoints gs)%nat ->
        within (qn L * leps B + w * (B + 1)) (nth y uu 0) (phase n y - phase n 0%nat + twopi * inject_Z (snd km y))).
  destruct (finite_choice ([], fun _ => 0%Z) P (length ifgs)) as [f Hf].
  { intros n Hn. destruct (row_near n Hn) as (r & k & m & Er & Hr & Ek & [HLk Hk] & Hm & Hall). exists (k, m).
    unfold P. cbn [fst snd]. split; [|exact Hall]. split; [|exact Hm].
    exists r. split; [exact Er|]. split; [exact Hr|]. split; [exact Ek|now split]. }
  exists (fun n => fst (f n)), (fun n => snd (f n)). split; [intros n Hn; now apply Hf|].
  intros L B HD HB Heps.
  destruct (finite_choice [] (fun n uu =>
      checked ((qn L + 1) * leps B <= 1 # 4000) (unwrap_ifg_in_space_fl (f_s F) (f_e F) (a_g F) smcf (dual_solver gs) sc (rowG n)) uu /\
      length uu = g_npoints gs /\
      forall y, (y < g_npoints gs)%nat ->
        within (qn L * leps B + w * (B + 1)) (nth y uu 0) (phase n y - phase n 0%nat + twopi * inject_Z (snd (f n) y))) (length ifgs)) as [U HU].
  { intros n Hn. destruct (Hf n Hn) as [_ Hall]. apply Hall; auto. }
  set (UU := map (fun n => map (f_s F) (U n)) (seq 0 (length ifgs))).
  assert (length UU = length ifgs) as LUU by (unfold UU; now rewrite map_length, seq_length).
  assert (forall n, (n < length ifgs)%nat -> nth n UU [] = map (f_s F) (U n)) as NUU.
  { intros n Hn. unfold UU. rewrite (map_nth' _ _ _ 0%nat) by (rewrite seq_length; auto). now rewrite seq_nth. }
  exists UU. split; [|split; [exact LUU|]].
  - assert (pick_cost (s_cost_type (em_set e)) (length (em_links e)) (em_sdist e) (em_scent e) = Ok sc) as Hsc' by now rewrite em_links_eq.
    assert (unwrap_cube_fl F smcf tsched ssched cpu e c0 = unwrap_gradients_in_space_fl F smcf ssched cpu e GG) as ->.
    { unfold unwrap_cube_fl. rewrite Hcl. cbn [bind]. rewrite in_time_fl. reflexivity. }
    split.
    + destruct (unwrap_gradients_in_space_fl F smcf ssched cpu e GG) as [U'|er] eqn:E.
      * left. f_equal. apply (in_space_ok_fl F smcf ssched cpu e GG sc Hss Hsc' Hsw) in E as [LU' E]. rewrite em_ifgs_eq in *.
        apply (nth_ext_len _ _ []); [congruence|]. intros n Hn. rewrite LU' in Hn. specialize (E n Hn). rewrite Es in E.
        destruct (HU n Hn) as ([[K|K] _] & _); rewrite K in E; cbn [bind] in E; [|discriminate].
        rewrite NUU by auto. congruence.
      * right. apply (in_space_err_fl F smcf ssched cpu e GG sc Hss Hsc' Hsw) in E as (n & Hn & E). rewrite em_ifgs_eq in Hn.
        rewrite Es in E. destruct (HU n Hn) as ([[K|K] _] & _); rewrite K in E; cbn [bind] in E; congruence.
    + intros Hsm. apply (in_space_ok_fl F smcf ssched cpu e GG sc Hss Hsc' Hsw). rewrite em_ifgs_eq. split; [exact LUU|].
      intros n Hn. rewrite Es. destruct (HU n Hn) as ([_ K] & _). rewrite (K Hsm). cbn [bind]. now rewrite NUU.
  - intros n y Hn Hy. destruct (HU n Hn) as (_ & LU & HN). rewrite (NUU n Hn). split; [now rewrite map_length|].
    rewrite (map_nth' _ _ _ 0) by lia. specialize (HN y Hy). specialize (HB n y Hn Hy). unfold within in *.
    apply abs_le in HN. apply abs_le.
    set (x := nth y (U n) 0) in *. set (T := phase n y - phase n 0%nat + twopi * inject_Z (snd (f n) y)) in *. clearbody T.
    assert (0 <= B) as HB0 by lra. pose proof (rd_nonneg _ _ H4) as W0. pose proof (rd_nonneg _ _ H1) as U0.
    assert (0 <= leps B) as Le.
    { unfold leps. pose proof gam_nonneg. assert (0 <= w * (6 * B + 2 * c + 2)) by (apply Qmult_le_0_compat; lra). lra. }
    assert (qn L * leps B <= 1) as HL1 by lra. assert (w * (B + 1) <= (1 # 100) * (B + 1)) by (apply Qmult_le_compat_r; lra).
    assert (- (2 * B + 2) <= x <= 2 * B + 2) as Hx by lra.
    pose proof (rd_bound (f_s F) u H3 x _ Hx). lra.
Qed.
End Space.
End Cube.
