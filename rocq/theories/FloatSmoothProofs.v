(** Rounded unwrapping of a stack without residues: the flow solver is not used. *)
From Verif Require Import Base BaseLemmas GraphModel GraphSpec GraphProofs McfModel McfSpec PhaseProofs DualProofs
  ResidueProofs FlowProofs FloodProofs UnwrapProofs EmcfModel EmcfSpec PoolProofs BatchProofs EmcfProofs CubeProofs
  FloatMcfModel FloatMcfSpec FloatMcfRound FloatPhaseProofs FloatResidueProofs FloatCubeModel FloatBatchProofs.
From Coq Require Import ZifyBool.
Set Default Goal Selector "!".
Local Open Scope Q_scope.

Definition all0 (r : list Z) : Prop := forall x, In x r -> x = 0%Z.

Lemma flows0 smcf s r cost : all0 r -> residues_to_flows smcf s r cost None = Ok (repeat 0%Z (length (g_links (s_graph s)))).
Proof. intros H. unfold residues_to_flows. now rewrite (proj2 (forallb_zero r) H). Qed.

(** The grounding entry balances the others. *)
Lemma grounded0 t N : (length t <= N)%nat -> (forall i, (i < N)%nat -> nth (i + 1) ((- sumZ t)%Z :: t) 0%Z = 0%Z) -> all0 ((- sumZ t)%Z :: t).
Proof.
  intros L H. assert (all0 t) as Ht.
  { intros x Hx. apply (In_nth _ _ 0%Z) in Hx as (i & Hi & <-). specialize (H i ltac:(lia)). replace (i + 1)%nat with (S i) in H by lia. exact H. }
  intros x [<-|Hx]; [|auto]. clear -Ht. induction t as [|y t IH]; [reflexivity|].
  cbn [sumZ]. assert (y = 0%Z) by (apply Ht; now left). assert (- sumZ t = 0)%Z by (apply IH; intros z Hz; apply Ht; now right).
  unfold sumZ in *. cbn in *. lia.
Qed.

Lemma round_fl_length f t l : length (round_residues_fl f t l) = S (length l).
Proof. unfold round_residues_fl. cbn [length]. now rewrite map_length. Qed.

(** Neither the solver nor the costs matter. *)
Section Eq.
Context (F : formats) (smcf smcf' : list arc -> list Z -> option (list Z)).
Context (tsched : nat -> list nat -> list nat) (ssched : list nat -> list nat) (cpu : Z) (e e' : emcf).
Context (Hts : forall b l, Permutation (tsched b l) l) (Hss : forall l, Permutation (ssched l) l).
Context (Es : em_space e' = em_space e) (Et : em_time e' = em_time e).

Lemma in_time_same is_ifg data tc tc' G :
  (0 < links_per_batch (em_set e))%nat -> (0 < links_per_batch (em_set e'))%nat ->
  pick_cost (t_cost_type (em_set e)) (length (em_ifgs e)) (em_tdist e) (em_tcent e) = Ok tc ->
  pick_cost (t_cost_type (em_set e')) (length (em_ifgs e')) (em_tdist e') (em_tcent e') = Ok tc' ->
  cols_ok data (em_links e) = true ->
  (forall i, (i < length (em_links e))%nat ->
     all0 (time_residues_fl F (em_time e) (link_column_fl F is_ifg (em_ifgs e) data (nth i (em_links e) (0, 0)%nat)))) ->
  unwrap_gradients_in_time_fl F smcf tsched cpu e is_ifg data = Ok G ->
  unwrap_gradients_in_time_fl F smcf' tsched cpu e' is_ifg data = Ok G.
Proof.
  intros Hl Hl' Hc Hc' Hco H0 EG. apply (in_time_ok_fl F smcf tsched cpu e is_ifg data tc Hts Hc Hl G Hco) in EG as [L EG].
  assert (em_links e' = em_links e) as El by (unfold em_links; now rewrite Es).
  assert (em_ifgs e' = em_ifgs e) as Ei by (unfold em_ifgs; now rewrite Et).
  apply (in_time_ok_fl F smcf' tsched cpu e' is_ifg data tc' Hts Hc' Hl' G ltac:(now rewrite El)). rewrite El. split; [exact L|].
  intros i Hi. rewrite <- (EG i Hi). unfold link_out_fl. cbv zeta. rewrite El, Ei, Et. rewrite !flows0; auto.
Qed.

Lemma in_space_same sc sc' G :
  pick_cost (s_cost_type (em_set e)) (length (em_links e)) (em_sdist e) (em_scent e) = Ok sc ->
  pick_cost (s_cost_type (em_set e')) (length (em_links e')) (em_sdist e') (em_scent e') = Ok sc' ->
  (1 <= space_workers (s_worker_count (em_set e)) cpu)%Z -> (1 <= space_workers (s_worker_count (em_set e')) cpu)%Z ->
  (forall n, (n < length (em_ifgs e))%nat -> forall r,
     compute_residues_from_gradients_fl (f_s F) (a_g F) (em_space e) (map (fun col => nth n col 0) G) = Ok r -> all0 r) ->
  unwrap_gradients_in_space_fl F smcf ssched cpu e G = unwrap_gradients_in_space_fl F smcf' ssched cpu e' G.
Proof.
  intros Hc Hc' Hw Hw' H0. unfold unwrap_gradients_in_space_fl. rewrite Hc, Hc'. cbn [bind].
  rewrite !(proj2 (Z.leb_gt _ _)) by lia. cbv zeta.
  assert (em_ifgs e' = em_ifgs e) as Ei by (unfold em_ifgs; now rewrite Et).
  assert (em_npoints e' = em_npoints e) as En by (unfold em_npoints; now rewrite Es).
  rewrite Ei, Es, En. f_equal. apply map_res_ext. intros n Hn.
  apply (Permutation_in _ (Hss _)), in_seq in Hn. unfold unwrap_ifg_in_space_fl.
  destruct (compute_residues_from_gradients_fl _ _ _ _) as [r|] eqn:E; [|reflexivity]. cbn [bind].
  rewrite !flows0; [reflexivity|eapply H0; eauto; lia|eapply H0; eauto; lia].
Qed.
End Eq.

(** Two fields with the same differences along the links. *)
Lemma same_field g (f h : nat -> Q) v : planar g -> (v < g_npoints g)%nat ->
  (forall a b, In (a, b) (g_links g) -> f b - f a == h b - h a) -> f v - f 0%nat == h v - h 0%nat.
Proof.
  intros Hp Hv H. pose proof (pl_conn g Hp v Hv) as R. clear Hv. induction R as [|v v' R IH [K|K]]; [ring| |].
  - specialize (H _ _ K). lra.
  - specialize (H _ _ K). lra.
Qed.
