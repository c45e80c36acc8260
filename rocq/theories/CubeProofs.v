(** unwrap_cube end to end. *)
From Verif Require Import Base BaseLemmas GraphModel GraphSpec GraphProofs McfModel McfSpec
  PhaseProofs DualProofs ResidueProofs FlowProofs FloodProofs UnwrapProofs EmcfModel EmcfSpec PoolProofs BatchProofs EmcfProofs.
From Coq Require Import ZifyBool.
Set Default Goal Selector "!".
Local Open Scope Q_scope.

Section Cube.
Variables (smcf : list arc -> list Z -> option (list Z)).
Variables (gs gt : graph) (Hps : planar gs) (Hpt : planar gt).
Variable e : emcf.
Hypothesis Hes : em_space e = dual_solver gs.
Hypothesis Het : em_time e = dual_solver gt.
Variables (tsched : nat -> list nat -> list nat) (ssched : list nat -> list nat) (cpu : Z).
Hypothesis Htsched : forall b l, Permutation (tsched b l) l.
Hypothesis Hssched : forall l, Permutation (ssched l) l.
Hypothesis Hlpb : (0 < links_per_batch (em_set e))%nat.

Lemma links_eq : em_links e = g_links gs.
Proof. unfold em_links. rewrite Hes. reflexivity. Qed.
Lemma ifgs_eq : em_ifgs e = g_links gt.
Proof. unfold em_ifgs. rewrite Het. reflexivity. Qed.

Variables (is_ifg : bool) (data : list (list Q)).
Notation ph := (ifg_phase is_ifg (g_links gt) data).

Lemma link_out_eq cost i : (i < length (g_links gs))%nat ->
  link_out smcf e cost is_ifg data i =
  do k <- residues_to_flows smcf (dual_solver gt)
       (time_residues (dual_solver gt) (wcol gt is_ifg data (nth i (g_links gs) (0, 0)%nat))) cost None;
  Ok (ucol gt is_ifg data (nth i (g_links gs) (0, 0)%nat) k).
Proof. intros Hi. unfold link_out. rewrite links_eq, ifgs_eq, Het. reflexivity. Qed.

(** Shape of the temporally unwrapped gradients. *)
Definition corrected (cost : list Z) (G : list (list Q)) : Prop :=
  length G = length (g_links gs) /\
  forall i a b, (i < length (g_links gs))%nat -> nth i (g_links gs) (0, 0)%nat = (a, b) ->
    exists k, residues_to_flows smcf (dual_solver gt) (time_residues (dual_solver gt) (wcol gt is_ifg data (a, b))) cost None = Ok k
      /\ nth i G [] = ucol gt is_ifg data (a, b) k.

Lemma time_corrected cost G :
  pick_cost (t_cost_type (em_set e)) (length (em_ifgs e)) (em_tdist e) (em_tcent e) = Ok cost ->
  unwrap_gradients_in_time smcf tsched cpu e is_ifg data = Ok G -> corrected cost G.
Proof.
  intros Hc H. apply (in_time_sound smcf tsched cpu e is_ifg data cost Htsched Hc Hlpb) in H as [HL H].
  rewrite links_eq in HL, H. split; auto. intros i a b Hi E. specialize (H i Hi).
  rewrite link_out_eq in H by auto. rewrite E in H.
  destruct (residues_to_flows _ _ _ _ _) as [k|er]; cbn [bind] in H; [|discriminate]. exists k. split; congruence.
Qed.

Lemma link_bounds a b i : (i < length (g_links gs))%nat -> nth i (g_links gs) (0, 0)%nat = (a, b) ->
  (a < g_npoints gs /\ b < g_npoints gs)%nat.
Proof. intros Hi E. assert (In (a, b) (g_links gs)) as H by (rewrite <- E; now apply nth_In). apply (pl_lt gs Hps) in H. lia. Qed.

Lemma flow_len cost r k : smcf_sound smcf -> length r = S (length (g_cycles gt)) ->
  residues_to_flows smcf (dual_solver gt) r cost None = Ok k -> length k = length (g_links gt).
Proof. intros Hs Hr Hk. apply (flows_cancel smcf gt r cost None k Hs Hpt Hr Hk). Qed.

Lemma tr_len ab : length (time_residues (dual_solver gt) (wcol gt is_ifg data ab)) = S (length (g_cycles gt)).
Proof. rewrite time_residues_length. cbn [dual_solver s_graph]. lia. Qed.

Lemma corrected_gcong cost G : smcf_sound smcf -> corrected cost G -> gcong gs gt is_ifg data G.
Proof.
  intros Hs [HL H]. split; [exact HL|]. intros i a b n Hi E Hn. destruct (H i a b Hi E) as (k & Hk & ->).
  pose proof (flow_len cost _ k Hs (tr_len (a, b)) Hk) as HLk.
  destruct (wcol_spec gt is_ifg data a b n Hn) as [Hc _].
  rewrite ucol_nth by auto. eapply cong2pi_trans; [apply cong2pi_shift|exact Hc].
Qed.

Theorem cube_sound c U : smcf_sound smcf -> cu_data c = data -> classify e c = Ok is_ifg ->
  unwrap_cube smcf tsched ssched cpu e c = Ok U ->
  length U = length (g_links gt) /\ forall n, (n < length (g_links gt))%nat -> ifg_ok gs gt is_ifg data n (nth n U []).
Proof.
  intros Hs Ed Hcl H. unfold unwrap_cube in H. rewrite Hcl in H. cbn [bind] in H. rewrite Ed in H.
  destruct (unwrap_gradients_in_time _ _ _ _ _ _) as [G|er] eqn:EG; cbn [bind] in H; [|discriminate].
  destruct (pick_cost (t_cost_type (em_set e)) (length (em_ifgs e)) (em_tdist e) (em_tcent e)) as [tc|er] eqn:Ec.
  2:{ unfold unwrap_gradients_in_time in EG. rewrite Ec in EG. discriminate. }
  pose proof (corrected_gcong _ _ Hs (time_corrected tc G Ec EG)) as HG.
  destruct (pick_cost (s_cost_type (em_set e)) (length (em_links e)) (em_sdist e) (em_scent e)) as [sc|er] eqn:Es.
  2:{ unfold unwrap_gradients_in_space in H. rewrite Es in H. discriminate. }
  assert (1 <= space_workers (s_worker_count (em_set e)) cpu)%Z as Hw.
  { unfold unwrap_gradients_in_space in H. rewrite Es in H. cbn [bind] in H.
    destruct (Z.leb_spec (space_workers (s_worker_count (em_set e)) cpu) 0); [discriminate|lia]. }
  apply (in_space_ok smcf ssched cpu e G sc Hssched Es Hw) in H as [HL H]. rewrite ifgs_eq in HL, H. split; auto.
  intros n Hn. specialize (H n Hn). rewrite Hes in H.
  eapply (space_sound gs gt Hps is_ifg data smcf sc G n) in H; auto. tauto.
Qed.

Lemma cols_ok_stack : stack data (g_npoints gs) -> cols_ok data (em_links e) = true.
Proof.
  intros H. unfold cols_ok. apply forallb_forall. intros row Hr. apply forallb_forall. intros [a b] Hl.
  rewrite links_eq in Hl. apply (pl_lt gs Hps) in Hl. specialize (H row Hr). cbn [fst snd].
  apply andb_true_intro. split; apply Nat.ltb_lt; lia.
Qed.

Theorem cube_total c tc sc : smcf_sound smcf -> smcf_complete smcf -> cu_data c = data -> classify e c = Ok is_ifg ->
  stack data (g_npoints gs) -> consistent is_ifg (g_links gt) data (g_npoints gs) ->
  pick_cost (t_cost_type (em_set e)) (length (g_links gt)) (em_tdist e) (em_tcent e) = Ok tc ->
  pick_cost (s_cost_type (em_set e)) (length (g_links gs)) (em_sdist e) (em_scent e) = Ok sc ->
  length tc = length (g_links gt) -> length sc = length (g_links gs) ->
  (forall x, In x tc -> (1 <= x)%Z) -> (2 * sumZ tc + 2 <= int32_max)%Z ->
  (1 <= space_workers (s_worker_count (em_set e)) cpu)%Z ->
  exists U, unwrap_cube smcf tsched ssched cpu e c = Ok U.
Proof.
  intros Hs Hcm Ed Hcl Hst [s Hcons] Ht Hsp HLt HLs Hpos Hcap Hw.
  unfold unwrap_cube. rewrite Hcl. cbn [bind]. rewrite Ed.
  assert (exists G, unwrap_gradients_in_time smcf tsched cpu e is_ifg data = Ok G) as [G EG].
  { destruct (unwrap_gradients_in_time smcf tsched cpu e is_ifg data) as [G|er] eqn:EG; [eauto|]. exfalso.
    rewrite <- ifgs_eq in Ht.
    apply (in_time_err smcf tsched cpu e is_ifg data tc Htsched Ht) in EG as [[_ EG]|(i & Hi & EG)].
    - rewrite cols_ok_stack in EG by auto. discriminate.
    - rewrite links_eq in Hi. rewrite link_out_eq in EG by auto.
      destruct (nth i (g_links gs) (0%nat, 0%nat)) as [a b] eqn:E. destruct (link_bounds a b i Hi E) as [Ha Hb].
      destruct (time_flows_exist gs gt Hpt is_ifg data smcf tc a b s Hs Hcm Hcons Ha Hb HLt) as (k & Hk & _).
      rewrite Hk in EG. discriminate. }
  rewrite EG. cbn [bind]. rewrite <- ifgs_eq in Ht. pose proof (time_corrected tc G Ht EG) as HC.
  pose proof (corrected_gcong _ _ Hs HC) as HG.
  destruct (unwrap_gradients_in_space smcf ssched cpu e G) as [U|er] eqn:EU; [eauto|]. exfalso.
  rewrite <- links_eq in Hsp. apply (in_space_err smcf ssched cpu e G sc Hssched Hsp Hw) in EU as (n & Hn & EU).
  rewrite ifgs_eq in Hn. rewrite Hes in EU.
  destruct (space_total gs gt Hps is_ifg data smcf sc G n Hs Hcm HG Hn HLs) as [u Hu]; [|unfold grow in Hu; congruence].
  intros i a b Hi E. destruct HC as [_ HC]. destruct (HC i a b Hi E) as (k & Hk & ->).
  destruct (link_bounds a b i Hi E) as [Ha Hb].
  destruct (time_flows_exist gs gt Hpt is_ifg data smcf tc a b s Hs Hcm Hcons Ha Hb HLt) as (k' & Hk' & HLk & Hbd).
  rewrite Hk in Hk'. injection Hk' as <-. specialize (Hbd Hpos n Hn). rewrite ucol_nth by auto.
  destruct (wcol_spec gt is_ifg data a b n Hn) as [_ Hn2]. set (w := nth n (wcol gt is_ifg data (a, b)) 0) in *.
  set (kk := nth n k 0%Z) in *.
  assert (- (int32_max - 2) <= kk <= int32_max - 2)%Z as [K1 K2] by lia.
  apply inject_Z_le_iff in K1, K2. rewrite inject_Z_opp, inject_Z_sub in K1. rewrite inject_Z_sub in K2. rewrite inject_Z_sub.
  change (inject_Z 1) with 1. change (inject_Z 2) with 2 in *.
  set (I := inject_Z int32_max) in *. set (kq := inject_Z kk) in *. clearbody I kq w. pose proof twopi_pos as Hp.
  unfold half in Hn2. split; nra.
Qed.

(** * Smooth histories *)
Lemma all_zero_round l : (forall x, In x l -> x == 0) -> forall r, In r (round_residues l) -> r = 0%Z.
Proof.
  intros H. assert (forall r, In r (map (fun x => rint (x / twopi)) l) -> r = 0%Z) as K.
  { intros r Hr. apply in_map_iff in Hr as (x & <- & Hx). rewrite (rint_comp _ (inject_Z 0)); [apply rint_inject|].
    rewrite (H x Hx). unfold Qdiv. change (inject_Z 0) with 0. ring. }
  unfold round_residues. cbv zeta. intros r [<-|Hr]; [|auto].
  rewrite <- (map_id (map _ l)), sumZ_map_zero by auto. reflexivity.
Qed.

(** Gradients that are exactly a potential difference have no residues. *)
Lemma zero_residues_grad g gr phi : planar g -> length gr = length (g_links g) ->
  potentialQ g (link_val 0 (g_links g) gr) phi ->
  exists r, compute_residues_from_gradients (dual_solver g) gr = Ok r /\ forall x, In x r -> x = 0%Z.
Proof.
  intros Hp HL Hphi. rewrite residues_grad_eq by auto. eexists. split; [reflexivity|].
  apply all_zero_round. intros x Hx. apply (In_nth _ _ 0) in Hx as (n & Hn & <-).
  rewrite length_tl, grad_sums_length in Hn. cbn [dual_solver s_graph] in Hn. rewrite nth_tl.
  rewrite grad_sums_circ by (auto; lia). apply (circQ_potential g phi); auto. apply nth_In. lia.
Qed.

Theorem cube_exact c (I : nat -> nat -> Q) tc sc : cu_data c = data -> classify e c = Ok is_ifg ->
  stack data (g_npoints gs) ->
  pick_cost (t_cost_type (em_set e)) (length (g_links gt)) (em_tdist e) (em_tcent e) = Ok tc ->
  pick_cost (s_cost_type (em_set e)) (length (g_links gs)) (em_sdist e) (em_scent e) = Ok sc ->
  (1 <= space_workers (s_worker_count (em_set e)) cpu)%Z ->
  (* the true phase of every date and point *)
  forall Phi : nat -> nat -> Q,
  (forall n v, (n < length (g_links gt))%nat -> (v < g_npoints gs)%nat ->
     I n v == Phi (snd (nth n (g_links gt) (0, 0)%nat)) v - Phi (fst (nth n (g_links gt) (0, 0)%nat)) v) ->
  (forall n v, (n < length (g_links gt))%nat -> (v < g_npoints gs)%nat -> cong2pi (ph n v) (I n v)) ->
  (forall n a b, (n < length (g_links gt))%nat -> In (a, b) (g_links gs) -> - half < I n b - I n a < half) ->
  exists U, unwrap_cube smcf tsched ssched cpu e c = Ok U /\ length U = length (g_links gt) /\
    forall n, (n < length (g_links gt))%nat -> length (nth n U []) = g_npoints gs /\
      forall v, (v < g_npoints gs)%nat -> nth v (nth n U []) 0 == I n v - I n 0%nat.
Proof.
  intros Ed Hcl Hst Ht Hsp Hw Phi HI Hph Hsm.
  unfold unwrap_cube. rewrite Hcl. cbn [bind]. rewrite Ed.
  set (zt := repeat 0%Z (length (g_links gt))).
  assert (forall a b, In (a, b) (g_links gs) -> forall n, (n < length (g_links gt))%nat ->
    nth n (wcol gt is_ifg data (a, b)) 0 == I n b - I n a) as Hw1.
  { intros a b Hl n Hn. pose proof (pl_lt gs Hps a b Hl). apply wcol_exact; auto.
    apply cong2pi_sub; apply Hph; auto; lia. }
  assert (forall a b, In (a, b) (g_links gs) ->
    residues_to_flows smcf (dual_solver gt) (time_residues (dual_solver gt) (wcol gt is_ifg data (a, b))) tc None = Ok zt) as Hz.
  { intros a b Hl. pose proof (pl_lt gs Hps a b Hl) as Hab. unfold residues_to_flows.
    destruct (zero_residues_grad gt (wcol gt is_ifg data (a, b)) (fun t => Phi t b - Phi t a) Hpt (wcol_length _ _ _ _)) as (r & Er & Hr).
    - intros i j Hij. apply (In_nth _ _ (0%nat, 0%nat)) in Hij as (n & Hn & E).
      rewrite (link_val_nth 0 (g_links gt) _ n i j); auto; [|apply (pl_nodup gt Hpt)|apply wcol_length].
      rewrite Hw1 by auto. rewrite !HI by (auto; lia). rewrite E. cbn [fst snd]. ring.
    - rewrite time_residues_eq in Er by (cbn [dual_solver s_graph]; apply wcol_length).
      assert (r = time_residues (dual_solver gt) (wcol gt is_ifg data (a, b))) as -> by congruence.
      rewrite (proj2 (forallb_zero _) Hr). reflexivity. }
  assert (exists G, unwrap_gradients_in_time smcf tsched cpu e is_ifg data = Ok G) as [G EG].
  { destruct (unwrap_gradients_in_time smcf tsched cpu e is_ifg data) as [G|er] eqn:EG; [eauto|]. exfalso.
    rewrite <- ifgs_eq in Ht.
    apply (in_time_err smcf tsched cpu e is_ifg data tc Htsched Ht) in EG as [[_ EG]|(i & Hi & EG)].
    - rewrite cols_ok_stack in EG by auto. discriminate.
    - rewrite links_eq in Hi. rewrite link_out_eq in EG by auto. pose proof (nth_In _ (0%nat, 0%nat) Hi) as Hl.
      destruct (nth i (g_links gs) (0%nat, 0%nat)) as [a b] eqn:E. rewrite Hz in EG by auto. discriminate. }
  rewrite EG. cbn [bind]. pose proof Ht as Ht'. rewrite <- ifgs_eq in Ht'. pose proof (time_corrected tc G Ht' EG) as [HLG HC].
  assert (forall i a b n, (i < length (g_links gs))%nat -> nth i (g_links gs) (0, 0)%nat = (a, b) -> (n < length (g_links gt))%nat ->
     nth n (nth i G []) 0 == I n b - I n a) as HGv.
  { intros i a b n Hi E Hn. assert (In (a, b) (g_links gs)) as Hl by (rewrite <- E; now apply nth_In).
    destruct (HC i a b Hi E) as (k & Hk & ->). rewrite Hz in Hk by auto. injection Hk as <-.
    rewrite ucol_nth by (auto; unfold zt; apply repeat_length). rewrite Hw1 by auto. unfold zt. rewrite nth_repeat.
    change (inject_Z 0) with 0. ring. }
  assert (forall n, (n < length (g_links gt))%nat -> exists u, unwrap_ifg_in_space smcf (dual_solver gs) sc (grow G n) = Ok u /\
    length u = g_npoints gs /\ forall v, (v < g_npoints gs)%nat -> nth v u 0 == I n v - I n 0%nat) as Hsp1.
  { intros n Hn. assert (length (grow G n) = length (g_links gs)) as HLg by (unfold grow; now rewrite map_length).
    assert (potentialQ gs (link_val 0 (g_links gs) (grow G n)) (fun v => I n v)) as Hpot.
    { intros a b Hl. apply (In_nth _ _ (0%nat, 0%nat)) in Hl as (i & Hi & E).
      rewrite (link_val_nth 0 (g_links gs) _ i a b); auto; [|apply (pl_nodup gs Hps)]. rewrite grow_nth by lia. eauto. }
    destruct (zero_residues_grad gs (grow G n) _ Hps HLg Hpot) as (r & Er & Hr).
    unfold unwrap_ifg_in_space. rewrite Er. cbn [bind]. unfold residues_to_flows. rewrite (proj2 (forallb_zero _) Hr).
    cbn [bind dual_solver s_graph].
    destruct (flood_exact (grow G n) (g_links gs) (repeat 0%Z (length (g_links gs))) Gradients (g_npoints gs)
       ltac:(discriminate) ltac:(now rewrite repeat_length) (planar_max gs Hps) HLg (fun v => I n v)) as (u & Hu & HLu & Hv).
    - apply (pl_conn gs Hps).
    - intros i a b Hi E. rewrite (grads_gradients gs (grow G n) _ i a b Hps (repeat_length _ _) HLg Hi E).
      rewrite link_val_zero. change (inject_Z 0) with 0. rewrite (Hpot a b) by (rewrite <- E; now apply nth_In). ring.
    - exists u. split; auto. split; auto. intros v Hvv. rewrite Hv by auto. unfold base. ring. }
  destruct (unwrap_gradients_in_space smcf ssched cpu e G) as [U|er] eqn:EU.
  - exists U. split; auto. rewrite <- links_eq in Hsp.
    apply (in_space_ok smcf ssched cpu e G sc Hssched Hsp Hw) in EU as [HL HU]. rewrite ifgs_eq in HL, HU. split; auto.
    intros n Hn. specialize (HU n Hn). rewrite Hes in HU. destruct (Hsp1 n Hn) as (u & Hu & H). unfold grow in Hu.
    rewrite Hu in HU. injection HU as <-. exact H.
  - exfalso. rewrite <- links_eq in Hsp. apply (in_space_err smcf ssched cpu e G sc Hssched Hsp Hw) in EU as (n & Hn & EU).
    rewrite ifgs_eq in Hn. rewrite Hes in EU. destruct (Hsp1 n Hn) as (u & Hu & _). unfold grow in Hu. congruence.
Qed.
End Cube.
