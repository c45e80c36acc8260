(** unwrap_one: residues, flows and integration together. *)
From Verif Require Import Base BaseLemmas GraphModel GraphSpec GraphProofs McfModel McfSpec
  PhaseProofs DualProofs ResidueProofs FlowProofs FloodProofs.
From Coq Require Import ZifyBool.
Set Default Goal Selector "!".

Lemma planar_links_ne g : planar g -> g_links g <> [].
Proof.
  intros Hp E. destruct (g_cycles g) as [|c t] eqn:EC; [now apply (pl_cycles g Hp)|].
  assert (In c (g_cycles g)) as Hc by (rewrite EC; now left).
  pose proof (pl_poly g Hp c Hc). destruct c as [|v c']; [cbn in *; lia|].
  destruct (cycle_vertex_side (v :: c') v (or_introl eq_refl)) as [w Hw].
  assert (In (v, w) (all_sides g)) as Hs by (apply in_flat_map; eauto).
  apply (pl_side g Hp) in Hs. rewrite E in Hs. destruct Hs as [[]|[]].
Qed.

Lemma planar_max g : planar g -> max_point (g_links g) = Ok (g_npoints g).
Proof.
  intros Hp. pose proof (planar_links_ne g Hp) as Hne.
  destruct (max_point (g_links g)) as [n|e] eqn:E.
  2:{ unfold max_point in E. destruct (g_links g); [contradiction|discriminate]. }
  f_equal. apply Nat.le_antisymm.
  - apply (max_point_upper (g_links g)); auto. intros a b H. apply (pl_lt g Hp) in H. lia.
  - destruct (max_point_spec (g_links g) n E) as (K & Hpos & _).
    destruct (g_npoints g) as [|[|m]] eqn:EN; [lia|lia|].
    assert (reach (g_links g) 0 (S m)) as R by (apply (pl_conn g Hp); lia).
    inversion R as [|v v' H [H1|H1] E']; subst; apply K in H1; lia.
Qed.

Local Open Scope Q_scope.

Lemma circQ_add f h c : circQ (fun a b => f a b + h a b) c == circQ f c + circQ h c.
Proof.
  unfold circQ. rewrite <- sumQ_map_add. apply sumQ_map_ext. intros [a b] _. cbn [fst snd]. unfold alongQ.
  destruct (a <? b)%nat; ring.
Qed.
Lemma circQ_scale q f c : circQ (fun a b => q * f a b) c == q * circQ f c.
Proof.
  unfold circQ. rewrite <- sumQ_map_mul. apply sumQ_map_ext. intros [a b] _. cbn [fst snd]. unfold alongQ.
  destruct (a <? b)%nat; ring.
Qed.
Lemma circQ_ext g f h c : planar g -> In c (g_cycles g) ->
  (forall a b, In (a, b) (g_links g) -> f a b == h a b) -> circQ f c == circQ h c.
Proof.
  intros Hp Hc H. unfold circQ. apply sumQ_map_ext. intros [a b] Hs. cbn [fst snd]. unfold alongQ.
  pose proof (planar_side_neq g c a b Hp Hc Hs). destruct (Nat.ltb_spec a b).
  - apply H. eapply planar_side_link; eauto.
  - rewrite H; [reflexivity|]. eapply planar_side_link; eauto. lia.
Qed.
Lemma circQ_potential g phi f c : planar g -> In c (g_cycles g) -> potentialQ g f phi -> circQ f c == 0.
Proof.
  intros Hp Hc H. unfold potentialQ in H. rewrite <- (tele phi c). unfold circQ. apply sumQ_map_ext. intros [a b] Hs. cbn [fst snd].
  pose proof (planar_side_neq g c a b Hp Hc Hs). unfold alongQ. destruct (Nat.ltb_spec a b).
  - apply H. eapply planar_side_link; eauto.
  - rewrite H; [ring|]. eapply planar_side_link; eauto. lia.
Qed.

(** Fields whose integer parts cancel the residues integrate. *)
Lemma span_corrected g (f : nat -> nat -> Q) (r k : list Z) : planar g ->
  (forall n, (n < length (g_cycles g))%nat -> circQ f (nth n (g_cycles g) []) == twopi * inject_Z (nth (n + 1) r 0%Z)) ->
  cancels g r k ->
  exists phi, potentialQ g (fun a b => f a b + twopi * inject_Z (link_val 0%Z (g_links g) k a b)) phi.
Proof.
  intros Hp Hr [HL Hk]. apply (pl_span g Hp). intros c Hc. apply (In_nth _ _ []) in Hc as (n & Hn & <-).
  rewrite circQ_add, circQ_scale, circ_inject, Hr, Hk by auto. rewrite inject_Z_opp. ring.
Qed.

Lemma residue_exact g p r n : planar g -> length p = g_npoints g ->
  compute_residues (dual_solver g) p = Ok r -> (n < length (g_cycles g))%nat ->
  circQ (pd_link p) (nth n (g_cycles g) []) == twopi * inject_Z (nth (n + 1) r 0%Z).
Proof.
  intros Hp HL Hr Hn. destruct (pdk_cancels g p r Hp HL Hr) as [_ H]. specialize (H n Hn).
  rewrite (circ_pd g) by (auto; now apply nth_In).
  rewrite circZ_link_val in H by (auto; now apply nth_In). rewrite H, Z.opp_involutive. reflexivity.
Qed.

Lemma grads_points g p k n a b : planar g -> length k = length (g_links g) ->
  (n < length (g_links g))%nat -> nth n (g_links g) (0, 0)%nat = (a, b) ->
  total_grad Points p (g_links g) k n == pd_link p a b + twopi * inject_Z (link_val 0%Z (g_links g) k a b).
Proof.
  intros Hp HL Hn E. unfold total_grad, link_grads.
  rewrite (map_nth' _ _ n 0%nat) by (rewrite seq_length; auto). rewrite seq_nth by auto. cbn [Nat.add].
  rewrite E. cbn [fst snd]. rewrite (link_val_nth 0%Z (g_links g) k n a b); auto; [reflexivity|].
  apply (pl_nodup g Hp).
Qed.

Lemma grads_gradients g gr k n a b : planar g -> length k = length (g_links g) -> length gr = length (g_links g) ->
  (n < length (g_links g))%nat -> nth n (g_links g) (0, 0)%nat = (a, b) ->
  total_grad Gradients gr (g_links g) k n
  == link_val 0 (g_links g) gr a b + twopi * inject_Z (link_val 0%Z (g_links g) k a b).
Proof.
  intros Hp HL HG Hn E. unfold total_grad, link_grads.
  rewrite (map_nth' _ _ n 0%nat) by (rewrite seq_length; auto). rewrite seq_nth by auto. cbn [Nat.add].
  rewrite (link_val_nth 0%Z (g_links g) k n a b); auto; [|apply (pl_nodup g Hp)].
  rewrite (link_val_nth 0 (g_links g) gr n a b); auto; [reflexivity|]. apply (pl_nodup g Hp).
Qed.

Lemma link_index {A} (l : list A) d x : In x l -> exists n, (n < length l)%nat /\ nth n l d = x.
Proof. intros H. apply (In_nth _ _ d) in H as (n & Hn & E). eauto. Qed.

(** Integration of a corrected field, by either mode. *)
Lemma flood_points g p k : planar g -> length p = g_npoints g -> length k = length (g_links g) ->
  (exists phi, potentialQ g (fun a b => pd_link p a b + twopi * inject_Z (link_val 0%Z (g_links g) k a b)) phi) ->
  exists u, flood_fill p (g_links g) k Points = Ok u /\ length u = g_npoints g /\
    nth 0 u 0 == nth 0 p 0 /\
    forall a b, In (a, b) (g_links g) ->
      nth b u 0 - nth a u 0 == pd_link p a b + twopi * inject_Z (link_val 0%Z (g_links g) k a b).
Proof.
  intros Hp HLp HLk [phi Hphi].
  destruct (flood_exact p (g_links g) k Points (g_npoints g) ltac:(discriminate) ltac:(lia) (planar_max g Hp) HLp phi)
    as (u & Hu & HLu & Hv).
  - apply (pl_conn g Hp).
  - intros n a b Hn E. rewrite (grads_points g p k n a b) by auto. apply (Hphi a b). rewrite <- E. now apply nth_In.
  - exists u. split; auto. split; auto.
    assert (0 < g_npoints g)%nat.
    { destruct (max_point_spec _ _ (planar_max g Hp)) as (_ & H & _). exact H. }
    split; [rewrite Hv by auto; unfold base; ring|].
    intros a b Hl. pose proof (pl_lt g Hp a b Hl). rewrite !Hv by lia. rewrite (Hphi a b Hl). ring.
Qed.

Lemma flood_gradients g gr k : planar g -> length gr = length (g_links g) -> length k = length (g_links g) ->
  (exists phi, potentialQ g (fun a b => link_val 0 (g_links g) gr a b + twopi * inject_Z (link_val 0%Z (g_links g) k a b)) phi) ->
  exists u, flood_fill gr (g_links g) k Gradients = Ok u /\ length u = g_npoints g /\
    nth 0 u 0 == 0 /\
    forall a b, In (a, b) (g_links g) ->
      nth b u 0 - nth a u 0 == link_val 0 (g_links g) gr a b + twopi * inject_Z (link_val 0%Z (g_links g) k a b).
Proof.
  intros Hp HLp HLk [phi Hphi].
  destruct (flood_exact gr (g_links g) k Gradients (g_npoints g) ltac:(discriminate) ltac:(lia) (planar_max g Hp) HLp phi)
    as (u & Hu & HLu & Hv).
  - apply (pl_conn g Hp).
  - intros n a b Hn E. rewrite (grads_gradients g gr k n a b) by auto. apply (Hphi a b). rewrite <- E. now apply nth_In.
  - exists u. split; auto. split; auto.
    assert (0 < g_npoints g)%nat.
    { destruct (max_point_spec _ _ (planar_max g Hp)) as (_ & H & _). exact H. }
    split; [rewrite Hv by auto; unfold base; ring|].
    intros a b Hl. pose proof (pl_lt g Hp a b Hl). rewrite !Hv by lia. rewrite (Hphi a b Hl). ring.
Qed.

(** Differences congruent along links + one fixed point: congruent everywhere. *)
Lemma cong_everywhere g (u p : nat -> Q) : planar g -> u 0%nat == p 0%nat ->
  (forall a b, In (a, b) (g_links g) -> cong2pi (u b - u a) (p b - p a)) ->
  forall v, (v < g_npoints g)%nat -> cong2pi (u v) (p v).
Proof.
  intros Hp H0 Hl v Hv. assert (reach (g_links g) 0 v) as R by now apply (pl_conn g Hp). clear Hv.
  induction R as [|w v R IH H].
  - now apply cong2pi_eq.
  - destruct IH as [x Hx]. destruct H as [H|H]; apply Hl in H as [y Hy].
    + exists (x + y)%Z. rewrite inject_Z_add. lra.
    + exists (x - y)%Z. rewrite inject_Z_sub. lra.
Qed.

Lemma flood_unwraps g p k r : planar g -> length p = g_npoints g ->
  compute_residues (dual_solver g) p = Ok r -> cancels g r k ->
  exists u, flood_fill p (g_links g) k Points = Ok u /\ unwraps g p u k.
Proof.
  intros Hp HL Hr Hk.
  destruct (flood_points g p k Hp HL (proj1 Hk)) as (u & Hu & HLu & H0 & Hd).
  { apply (span_corrected g (pd_link p) r k Hp); auto. intros n Hn. now apply residue_exact. }
  exists u. split; auto. split; auto. split; auto. split; [|exact Hd].
  apply (cong_everywhere g (fun v => nth v u 0) (fun v => nth v p 0)); auto.
  intros a b Hl. rewrite (Hd a b Hl). destruct (pd_cong (nth a p 0) (nth b p 0) 0) as [j Hj].
  exists (j + link_val 0%Z (g_links g) k a b)%Z. unfold pd_link. rewrite Hj, inject_Z_add. ring.
Qed.

Theorem unwrap_sound smcf g p cost revcost u k : smcf_sound smcf -> planar g ->
  unwrap_one smcf (dual_solver g) p cost revcost = Ok (u, k) ->
  length k = length (g_links g) /\ unwraps g p u k.
Proof.
  intros Hs Hp H. unfold unwrap_one in H.
  destruct (compute_residues (dual_solver g) p) as [r|e] eqn:Er; [|discriminate]. cbn [bind] in H.
  assert (length p = g_npoints g) as HL.
  { unfold compute_residues in Er. cbn [dual_solver s_graph] in Er.
    destruct (Nat.eqb_spec (length p) (g_npoints g)); auto. discriminate. }
  destruct (residues_to_flows smcf (dual_solver g) r cost _) as [k'|e] eqn:Ek; [|discriminate]. cbn [bind] in H.
  destruct (compute_residues_spec g p Hp HL) as (r' & Er' & HLr & _). rewrite Er in Er'. injection Er' as <-.
  pose proof (flows_cancel smcf g r cost _ k' Hs Hp HLr Ek) as Hk.
  destruct (flood_unwraps g p k' r Hp HL Er Hk) as (u' & Hu & Hun).
  cbn [dual_solver s_graph] in H. rewrite Hu in H. cbn [bind] in H. injection H as <- <-.
  split; auto. apply Hk.
Qed.

Lemma circZ_opp m c : circZ (fun a b => - m a b)%Z c = (- circZ m c)%Z.
Proof.
  unfold circZ. rewrite <- sumZ_map_opp. apply sumZ_map_ext. intros [a b] _. cbn [fst snd]. unfold alongZ.
  destruct (a <? b)%nat; lia.
Qed.

(** Representatives within half a cycle. *)
Definition wrapped (x : Q) : Q := phase_diff 0 x 0.
Lemma wrapped_eq x : wrapped x == x - twopi * inject_Z (pd_cycles 0 x 0).
Proof. unfold wrapped. rewrite pd_eq. ring. Qed.
Lemma wrapped_near x : - half <= wrapped x <= half.
Proof. pose proof (pd_near 0 x 0). unfold wrapped. lra. Qed.

Lemma small_cycles (m M : Z) : - (twopi * inject_Z M) < twopi * inject_Z m < twopi * inject_Z M -> (- M < m < M)%Z.
Proof.
  intros [A B]. pose proof twopi_pos. split; apply inject_Z_lt_iff; [rewrite inject_Z_opp|]; nra.
Qed.

(** Cycle counts of the point differences relative to wrapped points: at most one. *)
Definition pdm (p : list Q) (a b : nat) : Z :=
  (pd_cycles 0 (nth b p 0%Q) 0 - pd_cycles 0 (nth a p 0%Q) 0 - pdk p a b)%Z.
Lemma pdm_eq p a b :
  pd_link p a b == wrapped (nth b p 0) - wrapped (nth a p 0) + twopi * inject_Z (pdm p a b).
Proof. unfold pd_link, pdm, pdk. rewrite pd_eq, !wrapped_eq, !inject_Z_sub. ring. Qed.
Lemma pdm_bound p a b : (-1 <= pdm p a b <= 1)%Z.
Proof.
  cut (- (2) < pdm p a b < 2)%Z; [lia|]. apply small_cycles.
  pose proof (pdm_eq p a b) as E. pose proof (wrapped_near (nth a p 0)) as [A A'].
  pose proof (wrapped_near (nth b p 0)) as [B B']. pose proof (pd_near (nth a p 0) (nth b p 0) 0) as [C C'].
  unfold pd_link in E. pose proof twopi_pos. unfold half in *. change (inject_Z 2) with 2.
  split; lra.
Qed.
Lemma pdm_cancels g p r : planar g -> length p = g_npoints g ->
  compute_residues (dual_solver g) p = Ok r ->
  cancels g r (map (fun l => - pdm p (fst l) (snd l))%Z (g_links g)).
Proof.
  intros Hp HL Er. split; [now rewrite map_length|]. intros n Hn.
  rewrite (circZ_link_val g (fun a b => - pdm p a b)%Z) by (auto; now apply nth_In). rewrite circZ_opp. f_equal.
  pose proof (residue_exact g p r n Hp HL Er Hn) as H.
  assert (In (nth n (g_cycles g) []) (g_cycles g)) as Hc by now apply nth_In.
  rewrite (circ_cong (fun v => wrapped (nth v p 0)) (pd_link p) (pdm p)) in H.
  - apply inject_Z_eq_iff. pose proof twopi_pos. apply Qmult_inj_l with twopi; [lra|exact H].
  - intros a b Hs. now apply (planar_side_neq g (nth n (g_cycles g) [])).
  - intros a b _ _. apply pdm_eq.
Qed.
Lemma pdm_int32 g p : fits_int32 (map (fun l => - pdm p (fst l) (snd l))%Z (g_links g)).
Proof.
  intros x Hx. apply in_map_iff in Hx as ([a b] & <- & Hl). cbn [fst snd].
  pose proof (pdm_bound p a b). unfold int32_max. lia.
Qed.

Theorem unwrap_total smcf g p cost revcost : smcf_sound smcf -> smcf_complete smcf -> planar g ->
  length p = g_npoints g -> length cost = length (g_links g) ->
  length (rev_or cost revcost) = length (g_links g) ->
  exists u k, unwrap_one smcf (dual_solver g) p cost revcost = Ok (u, k) /\
    length k = length (g_links g) /\ unwraps g p u k.
Proof.
  intros Hs Hc Hp HL HC HR.
  destruct (compute_residues_spec g p Hp HL) as (r & Er & HLr & Hz & _).
  destruct (flows_exist smcf g r cost (Some (rev_or cost revcost)) _ Hc Hp HLr Hz HC HR
              (pdm_cancels g p r Hp HL Er) (pdm_int32 g p)) as [k Ek].
  pose proof (flows_cancel smcf g r cost _ k Hs Hp HLr Ek) as Hk.
  destruct (flood_unwraps g p k r Hp HL Er Hk) as (u & Hu & Hun).
  exists u, k. split; [|split; [apply Hk|auto]].
  unfold unwrap_one. rewrite Er. cbn [bind]. fold (rev_or cost revcost). rewrite Ek. cbn [bind dual_solver s_graph].
  rewrite Hu. reflexivity.
Qed.

(** * Smooth data *)
Lemma zero_residues g p r : planar g -> length p = g_npoints g ->
  compute_residues (dual_solver g) p = Ok r ->
  (forall c, In c (g_cycles g) -> circQ (pd_link p) c == 0) -> forall x, In x r -> x = 0%Z.
Proof.
  intros Hp HL Er Hz. destruct (compute_residues_spec g p Hp HL) as (r' & Er' & HLr & Hs & Hn).
  rewrite Er in Er'. injection Er' as <-.
  assert (forall n, (n < length (g_cycles g))%nat -> nth (n + 1) r 0%Z = 0%Z) as H.
  { intros n Hlt. rewrite Hn by auto. rewrite (rint_comp _ (inject_Z 0)); [apply rint_inject|].
    rewrite Hz by now apply nth_In. unfold Qdiv. ring. }
  destruct r as [|r0 rs]; [intros x []|]. cbn [length] in HLr.
  assert (forall x, In x rs -> x = 0%Z) as Hrs.
  { intros x Hx. apply (In_nth _ _ 0%Z) in Hx as (n & Hlt & <-). specialize (H n ltac:(lia)).
    rewrite Nat.add_1_r in H. exact H. }
  rewrite sumZ_cons in Hs. rewrite <- (map_id rs), sumZ_map_zero in Hs by auto.
  intros x [<-|Hx]; [lia|auto].
Qed.

Theorem unwrap_smooth smcf g p phi cost revcost : planar g -> length p = g_npoints g ->
  (forall v, (v < g_npoints g)%nat -> cong2pi (nth v p 0) (phi v)) ->
  (forall a b, In (a, b) (g_links g) -> - half < phi b - phi a < half) ->
  exists u, unwrap_one smcf (dual_solver g) p cost revcost = Ok (u, repeat 0%Z (length (g_links g))) /\
    length u = g_npoints g /\
    exists n : Z, forall v, (v < g_npoints g)%nat -> nth v u 0 == phi v + twopi * inject_Z n.
Proof.
  intros Hp HL Hc Hsm.
  assert (forall a b, In (a, b) (g_links g) -> pd_link p a b == phi b - phi a) as Hpd.
  { intros a b Hl. pose proof (pl_lt g Hp a b Hl) as Hab. unfold pd_link. apply pd_unique.
    - destruct (Hc a ltac:(lia)) as [x Hx]. destruct (Hc b ltac:(lia)) as [y Hy].
      exists (x - y)%Z. rewrite inject_Z_sub. lra.
    - destruct (Hsm a b Hl). split; lra. }
  destruct (compute_residues_spec g p Hp HL) as (r & Er & HLr & Hs & Hn).
  assert (forall x, In x r -> x = 0%Z) as Hz.
  { apply (zero_residues g p r); auto. intros c Hcy. apply (circQ_potential g phi); auto. }
  destruct (flood_unwraps g p (repeat 0%Z (length (g_links g))) r Hp HL Er (zero_cancels g r Hp Hz)) as (u & Hu & Hun).
  exists u. split.
  - unfold unwrap_one. rewrite Er. cbn [bind]. unfold residues_to_flows.
    rewrite (proj2 (forallb_zero r) Hz). cbn [bind dual_solver s_graph]. rewrite Hu. reflexivity.
  - destruct Hun as (HLu & H0 & _ & Hd). split; auto.
    assert (0 < g_npoints g)%nat as Hpos.
    { destruct (max_point_spec _ _ (planar_max g Hp)) as (_ & H & _). exact H. }
    destruct (Hc 0%nat Hpos) as [n Hn0]. exists n. intros v Hv.
    assert (reach (g_links g) 0 v) as R by now apply (pl_conn g Hp). clear Hv.
    induction R as [|w v R IH H].
    + rewrite H0, Hn0. reflexivity.
    + destruct H as [H|H]; pose proof (Hd _ _ H) as D; pose proof (Hpd _ _ H) as D'; unfold pd_link in D';
        rewrite link_val_zero in D; change (inject_Z 0) with 0 in D; lra.
Qed.

(** * Gradients congruent to point differences *)
Lemma circ_congruent g gr x m c : planar g -> In c (g_cycles g) -> congruent_links g gr x m ->
  circQ (link_val 0 (g_links g) gr) c == twopi * inject_Z (circZ m c).
Proof.
  intros Hp Hc Hm. apply (circ_cong x).
  - intros a b Hs. now apply (planar_side_neq g c).
  - intros a b Hs Hlt. apply Hm. eapply planar_side_link; eauto.
Qed.

Lemma residues_grad_exact g gr x m r : planar g -> length gr = length (g_links g) -> congruent_links g gr x m ->
  compute_residues_from_gradients (dual_solver g) gr = Ok r ->
  forall n, (n < length (g_cycles g))%nat -> nth (n + 1) r 0%Z = circZ m (nth n (g_cycles g) []).
Proof.
  intros Hp HL Hm Er n Hn. destruct (residues_from_gradients_spec g gr Hp HL) as (r' & Er' & _ & _ & H).
  rewrite Er in Er'. injection Er' as <-. rewrite H by auto.
  rewrite (rint_comp _ (inject_Z (circZ m (nth n (g_cycles g) [])))); [apply rint_inject|].
  rewrite (circ_congruent g gr x m) by (auto; now apply nth_In). apply div_twopi_mul'.
Qed.

Lemma grad_cancels g gr x m r : planar g -> length gr = length (g_links g) -> congruent_links g gr x m ->
  compute_residues_from_gradients (dual_solver g) gr = Ok r ->
  cancels g r (map (fun l => - m (fst l) (snd l))%Z (g_links g)).
Proof.
  intros Hp HL Hm Er. split; [now rewrite map_length|]. intros n Hn.
  rewrite (residues_grad_exact g gr x m r) by auto.
  rewrite (circZ_link_val g (fun a b => - m a b)%Z) by (auto; now apply nth_In). apply circZ_opp.
Qed.
