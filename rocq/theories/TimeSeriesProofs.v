(** Lemmas for C79. *)
From Verif Require Import Base BaseLemmas GraphModel GraphSpec McfModel McfSpec EmcfModel EmcfSpec OptimalSpec TimeSeriesSpec
  DualProofs ResidueProofs FlowProofs UnwrapProofs PoolProofs BatchProofs EmcfProofs CubeProofs OptimalProofs.
From Coq Require Import Permutation Lqa.
Set Default Goal Selector "!".
Local Open Scope Q_scope.

Lemma finite_choice {A} (d : A) n (P : nat -> A -> Prop) : (forall v, (v < n)%nat -> exists a, P v a) ->
  exists f, forall v, (v < n)%nat -> P v (f v).
Proof.
  induction n as [|n IH]; intros H; [exists (fun _ => d); intros; lia|].
  destruct IH as [f Hf]; [intros v Hv; apply H; lia|]. destruct (H n ltac:(lia)) as [a Ha].
  exists (fun v => if v =? n then a else f v). intros v Hv. destruct (Nat.eqb_spec v n) as [->|]; [exact Ha|apply Hf; lia].
Qed.

Section Around.
  Variable g : graph.
  Hypothesis Hp : planar g.
  Notation links := (g_links g).

  Lemma val_number {A} (d : A) f n a b : (n < length links)%nat -> nth n links (0, 0)%nat = (a, b) ->
    link_val d links (map f (seq 0 (length links))) a b = f n.
  Proof.
    intros Hn E. rewrite (link_val_nth d links _ n a b); auto using (pl_nodup g Hp).
    - rewrite (map_nth' _ _ n 0%nat) by (rewrite seq_length; exact Hn). now rewrite seq_nth by exact Hn.
    - now rewrite map_length, seq_length.
  Qed.

  Lemma around_ext f h c : In c (g_cycles g) -> (forall n, (n < length links)%nat -> f n == h n) ->
    around links f c == around links h c.
  Proof.
    intros Hc H. apply (circQ_ext g); auto. intros a b Hl. apply (In_nth _ _ (0%nat, 0%nat)) in Hl as (n & Hn & E).
    rewrite !(val_number 0 _ n a b) by auto. now apply H.
  Qed.

  Lemma around_add f h c : In c (g_cycles g) -> around links (fun n => f n + h n) c == around links f c + around links h c.
  Proof.
    intros Hc. unfold around. rewrite <- circQ_add. apply (circQ_ext g); auto. intros a b Hl.
    apply (In_nth _ _ (0%nat, 0%nat)) in Hl as (n & Hn & E). rewrite !(val_number 0 _ n a b) by auto. reflexivity.
  Qed.

  Lemma around_scale q f c : In c (g_cycles g) -> around links (fun n => q * f n) c == q * around links f c.
  Proof.
    intros Hc. unfold around. rewrite <- circQ_scale. apply (circQ_ext g); auto. intros a b Hl.
    apply (In_nth _ _ (0%nat, 0%nat)) in Hl as (n & Hn & E). rewrite !(val_number 0 _ n a b) by auto. reflexivity.
  Qed.

  Lemma around_inject f c : In c (g_cycles g) -> around links (fun n => inject_Z (f n)) c == inject_Z (aroundZ links f c).
  Proof.
    intros Hc. unfold around, aroundZ, circQ, circZ.
    assert (forall s, In s (sides c) -> In s (all_sides g)) as HI by (intros s Hs; apply in_flat_map; eauto).
    induction (sides c) as [|[a b] l IH]; [reflexivity|]. cbn [map fst snd]. rewrite sumQ_cons, sumZ_cons, inject_Z_plus.
    rewrite IH by (intros; apply HI; now right). clear IH.
    enough (alongQ (link_val 0 links (map (fun n => inject_Z (f n)) (seq 0 (length links)))) a b
      == inject_Z (alongZ (link_val 0%Z links (map f (seq 0 (length links)))) a b)) as -> by reflexivity.
    assert (forall x y, In (x, y) links -> link_val 0 links (map (fun n => inject_Z (f n)) (seq 0 (length links))) x y
      = inject_Z (link_val 0%Z links (map f (seq 0 (length links))) x y)) as K.
    { intros x y Hl. apply (In_nth _ _ (0%nat, 0%nat)) in Hl as (n & Hn & E).
      rewrite (val_number 0 _ n x y), (val_number 0%Z _ n x y) by auto. reflexivity. }
    unfold alongQ, alongZ. destruct (pl_side g Hp a b (HI _ (or_introl eq_refl))) as [L|L];
      pose proof (pl_lt g Hp _ _ L); destruct (Nat.ltb_spec a b); try lia; rewrite K by auto; [reflexivity|].
    now rewrite inject_Z_opp.
  Qed.

  Lemma around_potential f x c : In c (g_cycles g) -> (forall n, (n < length links)%nat -> f n == slope links x n) ->
    around links f c == 0.
  Proof.
    intros Hc H. apply (circQ_potential g x); auto. intros a b Hl.
    apply (In_nth _ _ (0%nat, 0%nat)) in Hl as (n & Hn & E). rewrite (val_number 0 _ n a b) by auto.
    rewrite H by auto. unfold slope. rewrite E. reflexivity.
  Qed.

  Lemma around_span f : (forall c, In c (g_cycles g) -> around links f c == 0) ->
    exists x, forall n, (n < length links)%nat -> f n == slope links x n.
  Proof.
    intros H. destruct (pl_span g Hp _ H) as [x Hx]. exists x. intros n Hn. unfold slope.
    pose proof (nth_In _ (0%nat, 0%nat) Hn) as Hl. destruct (nth n links (0%nat, 0%nat)) as [a b] eqn:E. cbn [fst snd].
    rewrite <- (Hx a b Hl). now rewrite (val_number 0 _ n a b).
  Qed.

  Lemma list_numbers {A} (d : A) l : length l = length links -> map (fun n => nth n l d) (seq 0 (length links)) = l.
  Proof.
    intros <-. apply (nth_ext _ _ d d); [now rewrite map_length, seq_length|]. intros n Hn.
    rewrite map_length, seq_length in Hn. rewrite (map_nth' _ _ n 0%nat) by (rewrite seq_length; exact Hn).
    now rewrite seq_nth by exact Hn.
  Qed.
End Around.

(** A value that does not change along links is the same everywhere. *)
Lemma constant_along g (D : nat -> Q) : planar g ->
  (forall a b, In (a, b) (g_links g) -> D a == D b) -> forall v, (v < g_npoints g)%nat -> D v == D 0%nat.
Proof.
  intros Hp H v Hv. pose proof (pl_conn g Hp v Hv) as R. induction R as [|v v' R IH L]; [reflexivity|].
  destruct L as [L|L]; pose proof (pl_lt g Hp _ _ L); pose proof (H _ _ L) as E; rewrite <- IH by lia; rewrite E; reflexivity.
Qed.

Section Cube.
Variable smcf : list arc -> list Z -> option (list Z).
Variables (gs gt : graph) (Hps : planar gs) (Hpt : planar gt).
Variable e : emcf.
Hypothesis Hes : em_space e = dual_solver gs.
Hypothesis Het : em_time e = dual_solver gt.
Variables (tsched : nat -> list nat -> list nat) (ssched : list nat -> list nat) (cpu : Z).
Hypothesis Htsched : forall b l, Permutation (tsched b l) l.
Hypothesis Hssched : forall l, Permutation (ssched l) l.
Hypothesis Hlpb : (0 < links_per_batch (em_set e))%nat.
Variables (is_ifg : bool) (data : list (list Q)).
Notation links := (g_links gs).
Notation ifgs := (g_links gt).

(** The spatial step, one interferogram: the flows and what they do. *)
Lemma space_steps G sc n u : smcf_sound smcf -> gcong gs gt is_ifg data G -> (n < length ifgs)%nat ->
  unwrap_ifg_in_space smcf (dual_solver gs) sc (grow G n) = Ok u ->
  exists r k, compute_residues_from_gradients (dual_solver gs) (grow G n) = Ok r /\ length r = S (length (g_cycles gs)) /\
    residues_to_flows smcf (dual_solver gs) r sc None = Ok k /\ length k = length links /\ nth 0 u 0 == 0 /\
    forall i, (i < length links)%nat ->
      slope links (fun v => nth v u 0) i == nth n (nth i G []) 0 + twopi * inject_Z (nth i k 0%Z).
Proof using Hps Hpt Hlpb.
  intros Hs HG Hn H. unfold unwrap_ifg_in_space in H.
  assert (length (grow G n) = length links) as HLg by (unfold grow; rewrite map_length; apply HG).
  destruct (residues_from_gradients_spec gs (grow G n) Hps HLg) as (r & Er & HLr & _ & _).
  rewrite Er in H. cbn [bind] in H.
  destruct (residues_to_flows _ _ _ _ _) as [k|er] eqn:Ek; cbn [bind] in H; [|discriminate].
  pose proof (flows_cancel smcf gs r sc None k Hs Hps HLr Ek) as Hk.
  pose proof (grow_congruent gs gt Hps is_ifg data G n HG Hn) as Hm. cbv zeta in Hm.
  destruct (flood_gradients gs (grow G n) k Hps HLg (proj1 Hk)) as (u' & Hu & _ & H0 & Hd).
  { apply (span_corrected gs (link_val 0 links (grow G n)) r k Hps); auto.
    intros m Hm'. rewrite (circ_congruent gs _ _ _ _ Hps (nth_In _ _ Hm') Hm).
    rewrite (residues_grad_exact gs _ _ _ _ Hps HLg Hm Er m Hm'). reflexivity. }
  cbn [dual_solver s_graph] in H. rewrite Hu in H. injection H as <-.
  exists r, k. split; [exact Er|]. split; [exact HLr|]. split; [exact Ek|]. split; [apply Hk|]. split; [exact H0|].
  intros i Hi. unfold slope. pose proof (nth_In _ (0%nat, 0%nat) Hi) as HI.
  destruct (nth i links (0%nat, 0%nat)) as [a b] eqn:E. cbn [fst snd]. rewrite (Hd a b HI).
  rewrite (link_val_nth 0 links (grow G n) i a b), (link_val_nth 0%Z links k i a b); auto using (pl_nodup gs Hps); [|apply Hk].
  rewrite grow_nth by (destruct HG; lia). reflexivity.
Qed.

Lemma cube_steps c U : smcf_sound smcf -> cu_data c = data -> classify e c = Ok is_ifg ->
  unwrap_cube smcf tsched ssched cpu e c = Ok U ->
  exists G sc, unwrap_gradients_in_time smcf tsched cpu e is_ifg data = Ok G /\
    pick_cost (s_cost_type (em_set e)) (length links) (em_sdist e) (em_scent e) = Ok sc /\
    gcong gs gt is_ifg data G /\
    forall n, (n < length ifgs)%nat -> unwrap_ifg_in_space smcf (dual_solver gs) sc (grow G n) = Ok (nth n U []).
Proof using Hes Het Hpt Hps Htsched Hssched Hlpb.
  intros Hs Ed Hcl H. unfold unwrap_cube in H. rewrite Hcl in H. cbn [bind] in H. rewrite Ed in H.
  destruct (unwrap_gradients_in_time _ _ _ _ _ _) as [G|er] eqn:EG; cbn [bind] in H; [|discriminate].
  assert (em_links e = links) as El by now apply links_eq. assert (em_ifgs e = ifgs) as Ei by now apply ifgs_eq.
  destruct (pick_cost (t_cost_type (em_set e)) (length (em_ifgs e)) (em_tdist e) (em_tcent e)) as [tc|er] eqn:Ec.
  2:{ unfold unwrap_gradients_in_time in EG. rewrite Ec in EG. discriminate. }
  pose proof (time_corrected smcf gs gt e Hes Het tsched cpu Htsched Hlpb is_ifg data tc G Ec EG) as HC.
  pose proof (corrected_gcong smcf gs gt Hpt e Hlpb is_ifg data tc G Hs HC) as HG.
  destruct (pick_cost (s_cost_type (em_set e)) (length (em_links e)) (em_sdist e) (em_scent e)) as [sc|er] eqn:Es.
  2:{ unfold unwrap_gradients_in_space in H. rewrite Es in H. discriminate. }
  assert (1 <= space_workers (s_worker_count (em_set e)) cpu)%Z as Hw.
  { unfold unwrap_gradients_in_space in H. rewrite Es in H. cbn [bind] in H.
    destruct (Z.leb_spec (space_workers (s_worker_count (em_set e)) cpu) 0); [discriminate|lia]. }
  apply (in_space_ok smcf ssched cpu e G sc Hssched Es Hw) in H as [HL H]. rewrite Ei in HL, H.
  exists G, sc. split; [reflexivity|]. split; [rewrite <- El; exact Es|]. split; [exact HG|].
  intros n Hn. specialize (H n Hn). rewrite Hes in H. exact H.
Qed.
End Cube.
