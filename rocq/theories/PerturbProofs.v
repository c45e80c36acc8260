(** Small changes of the phases pass through the unwrapping unchanged. *)
From Verif Require Import Base BaseLemmas GraphModel GraphSpec GraphProofs McfModel McfSpec
  PhaseProofs DualProofs ResidueProofs FlowProofs FloodProofs UnwrapProofs EmcfModel EmcfSpec PoolProofs BatchProofs BulkProofs EmcfProofs InvariantSpec InvariantProofs PerturbSpec.
From Coq Require Import ZifyBool.
Set Default Goal Selector "!".
Local Open Scope Q_scope.

Local Lemma ok_inj {A} (x y : A) : Ok x = Ok y -> x = y.
Proof. congruence. Qed.

(** The wrapped difference grows by [d]. *)
Lemma pd_raised pa pb pa' pb' d : no_jump pa pb pa' pb' d -> phase_diff pa' pb' 0 == phase_diff pa pb 0 + d.
Proof.
  intros (C & w & Cw & Bw & Bd).
  assert (phase_diff pa pb 0 == w) as E.
  { apply pd_unique; [exact Cw|]. lra. }
  rewrite E. apply pd_unique; [|lra].
  apply cong2pi_sym. eapply cong2pi_trans; [exact C|]. apply cong2pi_sym. destruct Cw as [k K]. exists k. rewrite K. ring.
Qed.

Lemma no_jump_cong pa pb pa' pb' d qa qb qa' qb' : no_jump pa pb pa' pb' d ->
  cong2pi (qb - qa) (pb - pa) -> cong2pi (qb' - qa') (pb' - pa') -> no_jump qa qb qa' qb' d.
Proof.
  intros (C & w & Cw & B) E E'. split.
  - eapply cong2pi_trans; [exact E'|]. eapply cong2pi_trans; [exact C|]. apply cong2pi_add; [now apply cong2pi_sym|apply cong2pi_refl].
  - exists w. split; [|exact B]. eapply cong2pi_trans; [exact Cw|]. now apply cong2pi_sym.
Qed.

(** * flood_fill *)
Lemma done_upd l j v : (j < length l)%nat -> nth v (upd l j true) false = true <-> v = j \/ nth v l false = true.
Proof.
  intros B. destruct (Nat.eq_dec v j) as [->|N].
  - rewrite nth_upd_eq by auto. tauto.
  - rewrite nth_upd_neq by auto. tauto.
Qed.

Section Flood.
Variable d : nat -> Q.

Definition ff_up (a b : ff) : Prop :=
  ff_done a = ff_done b /\ ff_todo a = ff_todo b /\ ff_err a = ff_err b /\
  length (ff_unw a) = length (ff_done a) /\ length (ff_unw b) = length (ff_done a) /\
  (forall v, In v (ff_todo a) -> nth v (ff_done a) false = true) /\
  (forall v, nth v (ff_done a) false = true -> nth v (ff_unw b) 0 == nth v (ff_unw a) 0 + d v).
Definition jg_up (i : nat) (a b : nat * Q) : Prop := fst a = fst b /\ snd b == snd a + (d (fst a) - d i).

Lemma ff_nbr_up i st st' jg jg' : ff_up st st' -> nth i (ff_done st) false = true -> (fst jg < length (ff_done st))%nat ->
  jg_up i jg jg' -> ff_up (ff_nbr i st jg) (ff_nbr i st' jg') /\ nth i (ff_done (ff_nbr i st jg)) false = true /\
    length (ff_done (ff_nbr i st jg)) = length (ff_done st).
Proof using.
  intros (D & T & R & L & L' & S & U) Di Bj [J G]. destruct jg as [j g], jg' as [j' g']. cbn [fst snd] in J, G, Bj. subst j'.
  unfold ff_nbr. rewrite <- D.
  destruct (nth j (ff_done st) false) eqn:F; cbn [negb].
  - assert (nth i (ff_unw st') 0 + g' - nth j (ff_unw st') 0 == nth i (ff_unw st) 0 + g - nth j (ff_unw st) 0) as E'.
    { rewrite G, (U i Di), (U j F). ring. }
    rewrite (Qle_bool_comp _ (1 # 1000) _ _ E' (Qeq_refl _)), (Qle_bool_comp (- (1 # 1000)) _ _ _ (Qeq_refl _) E').
    destruct (_ && _)%bool; [repeat split; auto|]. repeat split; cbn [ff_done ff_todo ff_unw ff_err]; auto.
  - unfold ff_up. cbn [ff_done ff_todo ff_unw ff_err]. rewrite !upd_length.
    split; [|split; [apply done_upd; auto|reflexivity]].
    split; [congruence|]. split; [congruence|]. split; [exact R|]. split; [exact L|]. split; [exact L'|]. split.
    + intros v I. apply done_upd; auto. apply in_app_or in I as [I|[<-|[]]]; auto.
    + intros v I. apply done_upd in I; auto. destruct (Nat.eq_dec v j) as [->|N].
      * rewrite !nth_upd_eq by lia. rewrite G, (U i Di). ring.
      * rewrite !nth_upd_neq by auto. apply U. tauto.
Qed.

Lemma ff_nbrs_up i adj adj' : Forall2 (jg_up i) adj adj' -> forall st st', ff_up st st' -> nth i (ff_done st) false = true ->
  (forall jg, In jg adj -> (fst jg < length (ff_done st))%nat) ->
  ff_up (fold_left (ff_nbr i) adj st) (fold_left (ff_nbr i) adj' st') /\
  length (ff_done (fold_left (ff_nbr i) adj st)) = length (ff_done st).
Proof using.
  induction 1 as [|x y adj adj' E _ IH]; intros st st' S Di B; cbn [fold_left]; auto.
  destruct (ff_nbr_up i st st' x y S Di (B x (or_introl eq_refl)) E) as (S' & Di' & L).
  destruct (IH _ _ S' Di') as [A L2]; [intros jg I; rewrite L; apply B; now right|]. split; [exact A|]. now rewrite L2.
Qed.

Lemma ff_loop_up adj adj' n : (forall i, Forall2 (jg_up i) (adj i) (adj' i)) -> (forall i jg, In jg (adj i) -> (fst jg < n)%nat) ->
  forall fuel st st', ff_up st st' -> length (ff_done st) = n ->
  same_outcome ff_up (ff_loop fuel adj st) (ff_loop fuel adj' st').
Proof using.
  intros HA HB. induction fuel as [|fuel IH]; intros st st' S Ln; pose proof S as (D & T & R & L & L' & St & U); cbn [ff_loop]; rewrite <- T;
    destruct (ff_todo st) as [|i rest] eqn:E; cbn [same_outcome]; auto.
  destruct (ff_nbrs_up i (adj i) (adj' i) (HA i) (FF (ff_done st) rest (ff_unw st) (ff_err st)) (FF (ff_done st') rest (ff_unw st') (ff_err st'))) as [A B].
  - repeat split; cbn [ff_done ff_todo ff_unw ff_err]; auto. intros v I. apply St. now right.
  - apply St. now left.
  - intros jg I. cbn [ff_done]. rewrite Ln. eapply HB; eauto.
  - apply IH; auto. rewrite B. exact Ln.
Qed.

Lemma nbrs_up links pt : forall gr gr', Forall2 (fun lg lg' => fst lg = fst lg' /\ snd lg' == snd lg + (d (snd (fst lg)) - d (fst (fst lg)))) (combine links gr) (combine links gr') ->
  Forall2 (jg_up pt) (nbrs links gr pt) (nbrs links gr' pt).
Proof using.
  intros gr gr'. unfold nbrs. induction 1 as [|[[a b] x] [[a' b'] y] l l' [E1 E2] _ IH]; cbn [flat_map]; [constructor|].
  cbn [fst snd] in E1, E2. injection E1 as <- <-. apply Forall2_app; [|exact IH].
  apply Forall2_app.
  - destruct (Nat.eqb_spec a pt) as [->|]; repeat constructor. cbn [fst snd]. exact E2.
  - destruct (Nat.eqb_spec b pt) as [->|]; repeat constructor. cbn [fst snd]. rewrite E2. ring.
Qed.
End Flood.

Lemma start_up d n : (0 < n)%nat -> d 0%nat == 0 ->
  ff_up d (FF (upd (repeat false n) 0 true) [0%nat] (repeat 0 n) 0) (FF (upd (repeat false n) 0 true) [0%nat] (repeat 0 n) 0).
Proof.
  intros B Z. unfold ff_up. cbn [ff_done ff_todo ff_unw ff_err].
  assert (length (repeat false n) = n) as Lf by apply repeat_length.
  assert (length (repeat 0 n) = length (upd (repeat false n) 0 true)) as L by (rewrite upd_length, Lf; apply repeat_length).
  split; [reflexivity|]. split; [reflexivity|]. split; [reflexivity|]. split; [exact L|]. split; [exact L|]. split.
  - intros v [<-|[]]. rewrite done_upd by lia. now left.
  - intros v I. rewrite done_upd in I by lia. destruct I as [->|I].
    + rewrite Z. ring.
    + exfalso. destruct (Nat.lt_ge_cases v n) as [C|C]; [rewrite nth_repeat_lt in I by auto|rewrite nth_overflow in I by lia]; discriminate.
Qed.

(** Gradients that differ by those of [d] give phases that differ by [d]. *)
Lemma flood_up m indata indata' links flows (d : nat -> Q) :
  length indata = length indata' -> d 0%nat == 0 ->
  (forall n, (n < length links)%nat ->
     nth n (link_grads m indata' links flows) 0 == nth n (link_grads m indata links flows) 0
       + (d (snd (nth n links (0, 0)%nat)) - d (fst (nth n links (0, 0)%nat)))) ->
  same_outcome (fun u u' => length u = length u' /\ forall v, (v < length u)%nat ->
      match m with
      | Points => nth v u' 0 - nth 0 indata' 0 == nth v u 0 - nth 0 indata 0 + d v
      | _ => nth v u' 0 == nth v u 0 + d v
      end)
    (flood_fill indata links flows m) (flood_fill indata' links flows m).
Proof.
  intros HL Z HG. unfold flood_fill. rewrite <- HL.
  destruct (negb (length links =? length flows)%nat); [destruct m; reflexivity|].
  destruct (max_point links) as [npts|er] eqn:Em; [|destruct m; reflexivity]. cbn [bind].
  assert (0 < npts)%nat as Pn by (unfold max_point in Em; destruct links; [discriminate|injection Em as <-; lia]).
  assert (same_outcome (ff_up d)
    (ff_loop npts (nbrs links (link_grads m indata links flows)) (FF (upd (repeat false npts) 0 true) [0%nat] (repeat 0 npts) 0))
    (ff_loop npts (nbrs links (link_grads m indata' links flows)) (FF (upd (repeat false npts) 0 true) [0%nat] (repeat 0 npts) 0))) as K.
  { apply ff_loop_up with (n := npts).
    - intros i. apply nbrs_up. apply (Forall2_nth_iff _ _ _ ((0, 0)%nat, 0) ((0, 0)%nat, 0)).
      assert (forall dd, length (link_grads m dd links flows) = length links) as Lg by (intros; unfold link_grads; now rewrite map_length, seq_length).
      rewrite !combine_length, !Lg, Nat.min_id. split; [reflexivity|]. intros n Bn.
      rewrite !combine_nth by now rewrite Lg. cbn [fst snd]. split; [reflexivity|]. now apply HG.
    - intros i jg I. unfold nbrs in I. apply in_flat_map in I as ([[a b] x] & I & Ij). apply in_combine_l in I.
      destruct (max_point_spec _ _ Em) as [Mp _]. destruct (Mp _ _ I). apply in_app_or in Ij as [Ij|Ij]; destruct (_ =? _)%nat; (destruct Ij as [<-|[]] || destruct Ij); cbn [fst]; auto.
    - now apply start_up.
    - cbn [ff_done]. now rewrite upd_length, repeat_length. }
  assert (forall r r' : res ff, same_outcome (ff_up d) r r' ->
    forall (f : ff -> res (list Q)) f' R, (forall a b, ff_up d a b -> same_outcome R (f a) (f' b)) ->
      same_outcome R (bind r f) (bind r' f')) as B.
  { intros [a|x] [b|y] H f f' R HF; cbn [same_outcome bind] in *; auto; contradiction. }
  destruct m; [| |reflexivity]; (destruct (negb _); [reflexivity|]); cbv zeta; (eapply B; [exact K|]); clear K B;
    intros a b (D & T & R & L & L' & S & U); rewrite <- R, <- D; (destruct (0 <? ff_err a)%nat; [reflexivity|]);
    (destruct (forallb (fun b => b) (ff_done a)) eqn:Fd; cbn [negb]; [|reflexivity]); cbn [same_outcome]; rewrite forallb_forall in Fd.
  - rewrite !map_length. split; [lia|]. intros v Hv.
    rewrite !(map_nth' _ _ _ 0) by lia. rewrite (U v); [ring|]. apply Fd, nth_In. lia.
  - split; [lia|]. intros v Hv. apply U, Fd, nth_In. lia.
Qed.

(** * Residues of gradients that differ by those of a potential *)
Lemma round_tail (r r' : list Z) N : length r = S N -> length r' = S N -> sumZ r = 0%Z -> sumZ r' = 0%Z ->
  (forall n, (n < N)%nat -> nth (n + 1) r 0%Z = nth (n + 1) r' 0%Z) -> r = r'.
Proof.
  intros L L' S S' K. destruct r as [|x r], r' as [|x' r']; cbn [length] in L, L'; try lia.
  assert (r = r') as ->.
  { apply (nth_ext_len _ _ 0%Z); [lia|]. intros n Hn. specialize (K n ltac:(lia)). now rewrite Nat.add_1_r in K. }
  rewrite !sumZ_cons in *. f_equal. lia.
Qed.

Definition up_links (links : list (nat * nat)) (d : nat -> Q) (gr gr' : list Q) : Prop :=
  length gr = length gr' /\
  forall n, (n < length links)%nat -> nth n gr' 0 == nth n gr 0 + (d (snd (nth n links (0, 0)%nat)) - d (fst (nth n links (0, 0)%nat))).

Lemma residues_up g gr gr' d : planar g -> up_links (g_links g) d gr gr' ->
  compute_residues_from_gradients (dual_solver g) gr = compute_residues_from_gradients (dual_solver g) gr'.
Proof.
  intros Hp [HL H]. destruct (Nat.eq_dec (length gr) (length (g_links g))) as [E|N].
  2:{ unfold compute_residues_from_gradients. cbn [dual_solver s_graph]. rewrite <- HL. destruct (Nat.eqb_spec (length gr) (length (g_links g))); [contradiction|]. reflexivity. }
  destruct (residues_from_gradients_spec g gr Hp E) as (r & -> & Lr & Sr & Hr).
  destruct (residues_from_gradients_spec g gr' Hp ltac:(congruence)) as (r' & -> & Lr' & Sr' & Hr').
  f_equal. apply (round_tail _ _ (length (g_cycles g))); auto. intros n Hn. rewrite Hr, Hr' by auto. apply rint_comp, Qmult_comp; [|reflexivity].
  pose proof (nth_In (g_cycles g) [] Hn) as Ic. symmetry.
  rewrite (circQ_ext g (link_val 0 (g_links g) gr') (fun a b => link_val 0 (g_links g) gr a b + (d b - d a)) _ Hp Ic).
  - rewrite circQ_add. rewrite (circQ_potential g d (fun a b => d b - d a) _ Hp Ic); [ring|]. intros a b _. reflexivity.
  - intros a b I. apply (In_nth _ _ (0, 0)%nat) in I as (k & Bk & Ek).
    pose proof (pl_nodup g Hp) as Sl. rewrite !(link_val_nth _ _ _ k a b) by (auto; lia).
    rewrite H, Ek by auto. reflexivity.
Qed.

(** * One interferogram in space *)
Lemma link_grads_grad_nth row links flows n : (n < length links)%nat ->
  nth n (link_grads Gradients row links flows) 0 = nth n row 0 + twopi * inject_Z (nth n flows 0%Z).
Proof. intros B. unfold link_grads. rewrite (map_nth' _ _ _ 0%nat) by now rewrite seq_length. now rewrite seq_nth. Qed.

Lemma space_up smcf g cost row row' (d : nat -> Q) : planar g -> up_links (g_links g) d row row' ->
  same_outcome (raised (fun v => d v - d 0%nat)) (unwrap_ifg_in_space smcf (dual_solver g) cost row) (unwrap_ifg_in_space smcf (dual_solver g) cost row').
Proof.
  intros Hp H. unfold unwrap_ifg_in_space. rewrite (residues_up g _ _ d Hp H).
  destruct (compute_residues_from_gradients _ row') as [r|er]; cbn [bind]; [|reflexivity].
  destruct (residues_to_flows smcf _ r cost None) as [k|er]; cbn [bind]; [|reflexivity].
  destruct H as [HL H]. cbn [dual_solver s_graph].
  pose proof (flood_up Gradients row row' (g_links g) k (fun v => d v - d 0%nat) HL ltac:(cbv beta; ring)) as F.
  match type of F with ?A -> _ => assert A as FA end.
  { intros n Bn. rewrite !link_grads_grad_nth, H by auto. ring. }
  specialize (F FA). destruct (flood_fill row _ _ _) as [u|x], (flood_fill row' _ _ _) as [u'|x']; cbn [same_outcome] in *; auto.
Qed.

Lemma same_kind_map {A B} (f f' : A -> res B) l : (forall a, In a l -> same_outcome (fun _ _ => True) (f a) (f' a)) ->
  same_outcome (fun _ _ => True) (map_res f l) (map_res f' l).
Proof. intros H. pose proof (map_res_same (fun _ _ => True) f f' l H) as K. destruct (map_res f l), (map_res f' l); cbn in *; auto. Qed.

Section Cube.
Variables (smcf : list arc -> list Z -> option (list Z)).
Variables (gs gt : graph) (Hps : planar gs) (Hpt : planar gt).
Variable e : emcf.
Hypothesis Hes : em_space e = dual_solver gs.
Hypothesis Het : em_time e = dual_solver gt.
Variables (tsched : nat -> list nat -> list nat) (ssched : list nat -> list nat) (cpu : Z).
Hypothesis Htsched : forall b l, Permutation (tsched b l) l.
Hypothesis Hssched : forall l, Permutation (ssched l) l.
Hypothesis Hlpb : (0 < links_per_batch (em_set e))%nat.
Variables (i i' : bool) (data data' : list (list Q)) (eps : nat -> nat -> Q).
Hypothesis HC : cols_ok data (em_links e) = true.
Hypothesis HC' : cols_ok data' (em_links e) = true.
Hypothesis HP : perturbed (em_ifgs e) (em_links e) i i' data data' eps.
Notation D := (drift (em_ifgs e) eps).

Lemma column_nth ii dd a b n : (n < length (em_ifgs e))%nat ->
  exists qa qb, nth n (link_column ii (em_ifgs e) dd (a, b)) 0 = phase_diff qa qb 0 /\
    cong2pi (qb - qa) (ifg_phase ii (em_ifgs e) dd n b - ifg_phase ii (em_ifgs e) dd n a).
Proof using.
  intros Hn. unfold link_column, ifg_phase. destruct ii.
  - rewrite (map_nth' _ _ _ 0%nat) by (rewrite seq_length; auto). rewrite seq_nth by auto. cbn [Nat.add].
    do 2 eexists. split; [reflexivity|]. unfold at2. apply cong2pi_refl.
  - rewrite (map_nth' _ _ _ (0%nat, 0%nat)) by auto. do 2 eexists. split; [reflexivity|]. unfold at2.
    apply cong2pi_sub; apply pd_cong.
Qed.

Lemma column_len ii dd ab : length (link_column ii (em_ifgs e) dd ab) = length (em_ifgs e).
Proof using. destruct ab. unfold link_column. destruct ii; now rewrite map_length, ?seq_length. Qed.

Lemma column_up a b : In (a, b) (em_links e) ->
  up_links (em_ifgs e) (fun t => eps t b - eps t a) (link_column i (em_ifgs e) data (a, b)) (link_column i' (em_ifgs e) data' (a, b)).
Proof using HP.
  intros Hl. split; [now rewrite !column_len|]. intros n Hn. pose proof (HP n a b Hn Hl) as J. cbv zeta in J.
  destruct (column_nth i data a b n Hn) as (qa & qb & E & C). destruct (column_nth i' data' a b n Hn) as (qa' & qb' & E' & C').
  rewrite E, E'. rewrite (pd_raised qa qb qa' qb' _ (no_jump_cong _ _ _ _ _ _ _ _ _ J C C')). unfold drift.
  destruct (nth n (em_ifgs e) (0%nat, 0%nat)) as [x y]. cbn [fst snd]. ring.
Qed.

Lemma time_residues_up a b : In (a, b) (em_links e) ->
  time_residues (em_time e) (link_column i (em_ifgs e) data (a, b)) = time_residues (em_time e) (link_column i' (em_ifgs e) data' (a, b)).
Proof using HP Het Hpt.
  intros Hl. pose proof (column_up a b Hl) as U. pose proof (column_len i data (a, b)) as L. pose proof (column_len i' data' (a, b)) as L'. unfold em_ifgs in *. rewrite Het in *. cbn [dual_solver s_graph] in *.
  pose proof (residues_up gt _ _ _ Hpt U) as R. rewrite !time_residues_eq in R; [congruence| |]; cbn [dual_solver s_graph]; auto.
Qed.

Lemma batch_kind cost sched bb g g' : same_outcome (fun _ _ => True) (time_batch smcf sched cpu e cost i data bb g) (time_batch smcf sched cpu e cost i' data' bb g').
Proof using HP Het Hpt HC HC'.
  unfold time_batch. destruct (_ =? 0)%nat; [exact I|]. set (inds := firstn _ _).
  assert (forall x, In x inds -> In x (em_links e)) as Sub.
  { intros x Hx. unfold inds in Hx. rewrite <- (firstn_skipn (bb * links_per_batch (em_set e)) (em_links e)).
    apply in_or_app. right. eapply firstn_In; exact Hx. }
  rewrite (cols_ok_sub data (em_links e) inds Sub HC), (cols_ok_sub data' (em_links e) inds Sub HC'). cbn [negb].
  assert (map (time_residues (em_time e)) (map (link_column i (em_ifgs e) data) inds) = map (time_residues (em_time e)) (map (link_column i' (em_ifgs e) data') inds)) as ->.
  { rewrite !map_map. apply map_ext_in. intros [a b] Ix. apply time_residues_up. now apply Sub. }
  destruct (residues_to_flows_many _ _ _ _ _ _ _ _) as [fl|er]; cbn [bind]; [exact I|reflexivity].
Qed.

Lemma time_kind : same_outcome (fun _ _ => True) (unwrap_gradients_in_time smcf tsched cpu e i data) (unwrap_gradients_in_time smcf tsched cpu e i' data').
Proof using HP Het Hpt HC HC'.
  unfold unwrap_gradients_in_time. destruct (pick_cost _ _ _ _) as [cost|er]; cbn [bind]; [|reflexivity].
  assert (forall l g g', same_outcome (fun _ _ => True) (time_batches smcf tsched cpu e cost i data l g) (time_batches smcf tsched cpu e cost i' data' l g')) as A; [|apply A].
  induction l as [|bb l IH]; intros g g'; cbn [time_batches]; [exact I|].
  pose proof (batch_kind cost (tsched bb) bb g g') as K.
  destruct (time_batch _ _ _ _ _ _ _ _ _), (time_batch _ _ _ _ _ _ _ _ _); cbn [bind]; [apply IH|contradiction|contradiction|exact K].
Qed.

Lemma flows_len g cost r k : residues_to_flows smcf (dual_solver g) r cost None = Ok k -> length k = length (g_links g).
Proof using.
  unfold residues_to_flows, solve_mcf. destruct (forallb _ _).
  { intros H. injection H as <-. apply repeat_length. }
  destruct (negb _); [discriminate|]. destruct (negb _); [discriminate|]. destruct (smcf _ _); [|discriminate].
  intros H. apply ok_inj in H. rewrite <- H, map_length, seq_length. apply dual_length.
Qed.

Lemma time_up G G' : unwrap_gradients_in_time smcf tsched cpu e i data = Ok G -> unwrap_gradients_in_time smcf tsched cpu e i' data' = Ok G' ->
  length G = length (em_links e) /\ length G' = length (em_links e) /\
  forall l n, (l < length (em_links e))%nat -> (n < length (em_ifgs e))%nat ->
    nth n (nth l G' []) 0 == nth n (nth l G []) 0 + (D n (snd (nth l (em_links e) (0, 0)%nat)) - D n (fst (nth l (em_links e) (0, 0)%nat))).
Proof using HP Het Hpt HC HC' Htsched Hlpb.
  intros H H'.
  destruct (pick_cost (t_cost_type (em_set e)) (length (em_ifgs e)) (em_tdist e) (em_tcent e)) as [cost|er] eqn:Ec.
  2:{ unfold unwrap_gradients_in_time in H. rewrite Ec in H. discriminate. }
  pose proof (in_time_sound smcf tsched) as S.
  destruct (S cpu e i data cost Htsched Ec Hlpb G H) as [L K]. destruct (S cpu e i' data' cost Htsched Ec Hlpb G' H') as [L' K'].
  split; [exact L|]. split; [exact L'|]. intros l n Bl Bn. specialize (K l Bl). specialize (K' l Bl). unfold link_out in K, K'. cbv zeta in K, K'.
  pose proof (nth_In (em_links e) (0, 0)%nat Bl) as Il. destruct (nth l (em_links e) (0, 0)%nat) as [a b]. cbn [fst snd].
  rewrite <- (time_residues_up a b Il) in K'.
  destruct (residues_to_flows smcf _ _ cost None) as [k|] eqn:Ek; [|discriminate]. cbn [bind] in K, K'. apply ok_inj in K. apply ok_inj in K'.
  rewrite <- K, <- K'. pose proof (column_up a b Il) as [_ U]. specialize (U n Bn).
  assert (length k = length (em_ifgs e)) as Lk by (unfold em_ifgs; rewrite Het in *; cbn [dual_solver s_graph]; eapply flows_len; eauto).
  rewrite !(map_nth' _ _ _ (0, 0%Z)) by (rewrite combine_length, column_len; lia).
  rewrite !combine_nth by (rewrite column_len; lia). cbn [fst snd]. rewrite U. unfold drift.
  destruct (nth n (em_ifgs e) (0%nat, 0%nat)) as [x y]. cbn [fst snd]. ring.
Qed.

Lemma rows_up G G' n : unwrap_gradients_in_time smcf tsched cpu e i data = Ok G -> unwrap_gradients_in_time smcf tsched cpu e i' data' = Ok G' ->
  (n < length (em_ifgs e))%nat -> up_links (g_links gs) (D n) (map (fun col => nth n col 0) G) (map (fun col => nth n col 0) G').
Proof using HP Het Hpt HC HC' Htsched Hlpb Hes.
  intros H H' Bn. destruct (time_up G G' H H') as (L & L' & K). split; [rewrite !map_length; congruence|].
  assert (em_links e = g_links gs) as EL by (unfold em_links; now rewrite Hes). rewrite EL in *.
  intros l Bl. rewrite !(map_nth' _ _ _ []) by lia. now apply K.
Qed.

Theorem cube_up c c' : cu_data c = data -> cu_data c' = data' -> classify e c = Ok i -> classify e c' = Ok i' ->
  same_outcome (fun U U' => length U = length (em_ifgs e) /\ length U' = length (em_ifgs e) /\
      forall n, (n < length (em_ifgs e))%nat -> raised (fun v => D n v - D n 0%nat) (nth n U []) (nth n U' []))
    (unwrap_cube smcf tsched ssched cpu e c) (unwrap_cube smcf tsched ssched cpu e c').
Proof using HP Het Hpt HC HC' Htsched Hlpb Hes Hps Hssched.
  intros Ed Ed' K K'. unfold unwrap_cube. rewrite K, K', Ed, Ed'. cbn [bind]. pose proof time_kind as T.
  destruct (unwrap_gradients_in_time smcf tsched cpu e i data) as [G|er] eqn:EG, (unwrap_gradients_in_time smcf tsched cpu e i' data') as [G'|er'] eqn:EG';
    cbn [same_outcome bind] in *; auto; try contradiction.
  assert (forall cost n, (n < length (em_ifgs e))%nat ->
    same_outcome (raised (fun v => D n v - D n 0%nat)) (unwrap_ifg_in_space smcf (em_space e) cost (map (fun col => nth n col 0) G))
      (unwrap_ifg_in_space smcf (em_space e) cost (map (fun col => nth n col 0) G'))) as SP.
  { intros cost n Bn. rewrite Hes. apply space_up; auto. now apply rows_up. }
  destruct (pick_cost (s_cost_type (em_set e)) (length (em_links e)) (em_sdist e) (em_scent e)) as [cost|er] eqn:Ec.
  2:{ unfold unwrap_gradients_in_space. rewrite Ec. reflexivity. }
  destruct (Z.leb_spec (space_workers (s_worker_count (em_set e)) cpu) 0) as [Lw|Lw].
  { unfold unwrap_gradients_in_space. rewrite Ec. cbn [bind]. destruct (Z.leb_spec (space_workers (s_worker_count (em_set e)) cpu) 0); [reflexivity|lia]. }
  assert (same_outcome (fun _ _ => True) (unwrap_gradients_in_space smcf ssched cpu e G) (unwrap_gradients_in_space smcf ssched cpu e G')) as Kd.
  { unfold unwrap_gradients_in_space. rewrite Ec. cbn [bind]. destruct (Z.leb_spec (space_workers (s_worker_count (em_set e)) cpu) 0); [reflexivity|]. cbv zeta.
    match goal with |- same_outcome _ (bind (map_res ?f ?l) _) (bind (map_res ?f' _) _) => pose proof (same_kind_map f f' l) as M end.
    match type of M with ?A -> _ => assert A as MA end.
    { intros n In_. assert (n < length (em_ifgs e))%nat as Bn by (apply (Permutation_in _ (Hssched _)), in_seq in In_; lia).
      specialize (SP cost n Bn). destruct (unwrap_ifg_in_space _ _ _ (map _ G)), (unwrap_ifg_in_space _ _ _ (map _ G')); cbn [same_outcome bind] in *; auto. }
    specialize (M MA). destruct (map_res _ _), (map_res _ _); cbn [same_outcome bind] in *; auto. }
  destruct (unwrap_gradients_in_space smcf ssched cpu e G) as [U|x] eqn:EU, (unwrap_gradients_in_space smcf ssched cpu e G') as [U'|x'] eqn:EU';
    cbn [same_outcome] in *; auto; try contradiction.
  apply (in_space_ok smcf ssched cpu e G cost Hssched Ec ltac:(lia)) in EU as [LU HU].
  apply (in_space_ok smcf ssched cpu e G' cost Hssched Ec ltac:(lia)) in EU' as [LU' HU'].
  split; [exact LU|]. split; [exact LU'|]. intros n Bn. specialize (SP cost n Bn). rewrite (HU n Bn), (HU' n Bn) in SP. exact SP.
Qed.
End Cube.

(** * unwrap_one *)
Section One.
Variables (g : graph) (Hp : planar g).
Variables (p p' : list Q) (d : nat -> Q).
Hypothesis HL : length p = g_npoints g.
Hypothesis HL' : length p' = g_npoints g.
Hypothesis HS : forall a b, In (a, b) (g_links g) -> no_jump (nth a p 0) (nth b p 0) (nth a p' 0) (nth b p' 0) (d b - d a).
Hypothesis H0 : nth 0 p' 0 == nth 0 p 0 + d 0%nat.

Lemma one_residues_up : compute_residues (dual_solver g) p = compute_residues (dual_solver g) p'.
Proof using Hp HL HL' HS.
  destruct (compute_residues_spec g p Hp HL) as (r & E & Lr & Sr & Hr).
  destruct (compute_residues_spec g p' Hp HL') as (r' & E' & Lr' & Sr' & Hr').
  rewrite E, E'. f_equal. apply (round_tail _ _ (length (g_cycles g))); auto. intros n Hn. rewrite Hr, Hr' by auto. apply rint_comp, Qmult_comp; [|reflexivity].
  pose proof (nth_In (g_cycles g) [] Hn) as Ic. symmetry.
  rewrite (circQ_ext g (pd_link p') (fun a b => pd_link p a b + (d b - d a)) _ Hp Ic).
  - rewrite circQ_add. rewrite (circQ_potential g d (fun a b => d b - d a) _ Hp Ic); [ring|]. intros a b _. reflexivity.
  - intros a b I. unfold pd_link. now apply pd_raised, HS.
Qed.

Theorem one_up smcf cost revcost :
  same_outcome (fun r r' => snd r = snd r' /\ raised d (fst r) (fst r'))
    (unwrap_one smcf (dual_solver g) p cost revcost) (unwrap_one smcf (dual_solver g) p' cost revcost).
Proof using Hp HL HL' HS H0.
  unfold unwrap_one. rewrite one_residues_up. destruct (compute_residues _ p') as [r|er]; cbn [bind]; [|reflexivity].
  destruct (residues_to_flows _ _ _ _ _) as [k|er]; cbn [bind]; [|reflexivity]. cbn [dual_solver s_graph].
  pose proof (flood_up Points p p' (g_links g) k (fun v => d v - d 0%nat) ltac:(congruence) ltac:(cbv beta; ring)) as F.
  match type of F with ?A -> _ => assert A as FA end.
  { intros n Bn. unfold link_grads. rewrite !(map_nth' _ _ _ 0%nat) by now rewrite seq_length. rewrite seq_nth by auto. cbn [Nat.add].
    pose proof (nth_In _ (0, 0)%nat Bn) as I. destruct (nth n (g_links g) (0, 0)%nat) as [a b]. cbn [fst snd].
    rewrite (pd_raised _ _ _ _ _ (HS a b I)). ring. }
  specialize (F FA). destruct (flood_fill p _ _ _), (flood_fill p' _ _ _); cbn [same_outcome bind fst snd] in *; auto.
  split; [reflexivity|]. destruct F as [L F]. split; [exact L|]. intros v Bv. specialize (F v Bv). rewrite H0 in F. lra.
Qed.
End One.
