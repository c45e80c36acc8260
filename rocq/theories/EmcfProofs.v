(** Temporal closure, congruence, totality and exact recovery for EMCFSolver. *)
From Verif Require Import Base BaseLemmas GraphModel GraphSpec GraphProofs McfModel McfSpec
  PhaseProofs DualProofs ResidueProofs FlowProofs FloodProofs UnwrapProofs EmcfModel EmcfSpec PoolProofs BatchProofs.
From Coq Require Import ZifyBool.
Set Default Goal Selector "!".
Local Open Scope Q_scope.

(** The per-interferogram accumulation loop and np.add.at agree. *)
Definition tstep (acc : list Q) (t : (nat * nat) * ((Z * Z) * Q)) : list Q :=
  let '((c0, c1), ((d0, d1), v)) := t in
  let acc := upd acc c0 (nth c0 acc 0 + inject_Z d0 * v) in
  if (c1 =? 0)%nat then acc else upd acc c1 (nth c1 acc 0 + inject_Z d1 * v).

Lemma tstep_nth acc t k : (0 < k < length acc)%nat ->
  nth k (tstep acc t) 0 == nth k acc 0
    + (if (fst (fst t) =? k)%nat then inject_Z (fst (fst (snd t))) * snd (snd t) else 0)
    + (if (snd (fst t) =? k)%nat then inject_Z (snd (fst (snd t))) * snd (snd t) else 0).
Proof.
  destruct t as [[c0 c1] [[d0 d1] v]]. intros Hk. cbn [tstep fst snd].
  destruct (Nat.eqb_spec c1 0) as [->|N1].
  - destruct (Nat.eqb_spec 0 k) as [E|_]; [lia|]. destruct (Nat.eqb_spec c0 k) as [->|N].
    + rewrite nth_upd_eq by lia. ring.
    + rewrite nth_upd_neq by auto. ring.
  - destruct (Nat.eqb_spec c1 k) as [->|N].
    + rewrite nth_upd_eq by (rewrite upd_length; lia). destruct (Nat.eqb_spec c0 k) as [->|N'].
      * rewrite nth_upd_eq by lia. ring.
      * rewrite nth_upd_neq by auto. ring.
    + rewrite nth_upd_neq by auto. destruct (Nat.eqb_spec c0 k) as [->|N'].
      * rewrite nth_upd_eq by lia. ring.
      * rewrite nth_upd_neq by auto. ring.
Qed.
Lemma tstep_length acc t : length (tstep acc t) = length acc.
Proof. destruct t as [[c0 c1] [[d0 d1] v]]. cbn [tstep]. destruct (c1 =? 0)%nat; now rewrite !upd_length. Qed.

Lemma tsteps_length l : forall acc, length (fold_left tstep l acc) = length acc.
Proof. induction l as [|t l IH]; intros acc; auto. cbn [fold_left]. now rewrite IH, tstep_length. Qed.

Lemma tsteps_nth k l : forall acc, (0 < k < length acc)%nat ->
  nth k (fold_left tstep l acc) 0 == nth k acc 0
    + sumQ (map (fun t => if (fst (fst t) =? k)%nat then inject_Z (fst (fst (snd t))) * snd (snd t) else 0) l)
    + sumQ (map (fun t => if (snd (fst t) =? k)%nat then inject_Z (snd (fst (snd t))) * snd (snd t) else 0) l).
Proof.
  induction l as [|t l IH]; intros acc Hk; cbn [fold_left map].
  - rewrite sumQ_nil. ring.
  - rewrite IH by (rewrite tstep_length; auto). rewrite tstep_nth by auto. rewrite !sumQ_cons. ring.
Qed.

Lemma add_at_sum (pe : nat * nat -> nat) (pd : Z * Z -> Z) k dual : forall dir col,
  sumQ (map (fun iv => if (fst iv =? k)%nat then snd iv else 0)
    (combine (map pe dual) (map (fun dg => inject_Z (fst dg) * snd dg) (combine (map pd dir) col))))
  == sumQ (map (fun t => if (pe (fst t) =? k)%nat then inject_Z (pd (fst (snd t))) * snd (snd t) else 0)
       (combine dual (combine dir col))).
Proof.
  induction dual as [|c dual IH]; intros [|d dir] [|v col]; try reflexivity.
  cbn [map combine]. rewrite !sumQ_cons, IH. cbn [fst snd]. reflexivity.
Qed.

Lemma time_residues_unfold s col : time_residues s col =
  round_residues (tl (fold_left tstep (combine (s_dual s) (combine (s_dir s) col))
    (repeat 0 (length (g_cycles (s_graph s)) + 1)))).
Proof. reflexivity. Qed.

Lemma round_ext l l' : length l = length l' -> (forall n, (n < length l)%nat -> nth n l 0 == nth n l' 0) ->
  round_residues l = round_residues l'.
Proof.
  intros HL H. unfold round_residues. cbv zeta.
  assert (map (fun x => rint (x / twopi)) l = map (fun x => rint (x / twopi)) l') as ->; [|reflexivity].
  apply (nth_ext_len _ _ 0%Z); [now rewrite !map_length|]. intros i Hi. rewrite map_length in Hi.
  rewrite !(map_nth' _ _ i 0) by lia. apply rint_comp. rewrite H by auto. reflexivity.
Qed.

Lemma time_residues_eq s col : length col = length (g_links (s_graph s)) ->
  compute_residues_from_gradients s col = Ok (time_residues s col).
Proof.
  intros HL. unfold compute_residues_from_gradients. rewrite HL, Nat.eqb_refl. cbn [negb]. cbv zeta. f_equal.
  rewrite time_residues_unfold.
  match goal with |- _ = ?r => change (round_residues (tl (grad_sums s col)) = r) end.
  set (N := length (g_cycles (s_graph s))). apply round_ext.
  - rewrite !length_tl, tsteps_length, grad_sums_length, repeat_length. fold N. lia.
  - intros n Hn. rewrite length_tl, grad_sums_length in Hn. fold N in Hn. rewrite !nth_tl.
    rewrite tsteps_nth by (rewrite repeat_length; lia). unfold grad_sums. cbv zeta. fold N.
    rewrite !add_at_nth by (rewrite ?add_at_length, repeat_length; lia). rewrite !add_at_sum. reflexivity.
Qed.

(** * Wrapped columns *)
Section Cube.
Variables (gs gt : graph) (Hps : planar gs) (Hpt : planar gt).
Variables (is_ifg : bool) (data : list (list Q)).
Notation ifgs := (g_links gt).
Notation links := (g_links gs).
Notation phase := (ifg_phase is_ifg ifgs data).

Definition wcol (ab : nat * nat) := link_column is_ifg ifgs data ab.

Lemma wcol_length ab : length (wcol ab) = length ifgs.
Proof. unfold wcol, link_column. destruct ab as [a b]. destruct is_ifg; rewrite map_length; auto using seq_length. Qed.

Lemma wcol_spec a b e : (e < length ifgs)%nat ->
  cong2pi (nth e (wcol (a, b)) 0) (phase e b - phase e a) /\ - half <= nth e (wcol (a, b)) 0 <= half.
Proof.
  intros He. unfold wcol, link_column, ifg_phase. destruct is_ifg.
  - rewrite (map_nth' _ _ _ 0%nat) by (rewrite seq_length; auto). rewrite seq_nth by auto. cbn [Nat.add].
    unfold at2. split; [apply pd_cong|]. pose proof (pd_near (nth a (nth e data []) 0) (nth b (nth e data []) 0) 0). lra.
  - rewrite (map_nth' _ _ _ (0%nat, 0%nat)) by auto. unfold at2. destruct (nth e ifgs (0%nat, 0%nat)) as [i j]. cbn [fst snd].
    split.
    + eapply cong2pi_trans; [apply pd_cong|]. apply cong2pi_sub; apply pd_cong.
    + match goal with |- _ <= phase_diff ?x ?y 0 <= _ => pose proof (pd_near x y 0) end. lra.
Qed.

(** Strictly below half a cycle: exact. *)
Lemma wcol_exact a b e D : (e < length ifgs)%nat -> cong2pi (phase e b - phase e a) D -> - half < D < half ->
  nth e (wcol (a, b)) 0 == D.
Proof.
  intros He HD Hb. unfold wcol, link_column, ifg_phase in *. destruct is_ifg.
  - rewrite (map_nth' _ _ _ 0%nat) by (rewrite seq_length; auto). rewrite seq_nth by auto. cbn [Nat.add].
    unfold at2. apply pd_unique; [now apply cong2pi_sym|]. lra.
  - rewrite (map_nth' _ _ _ (0%nat, 0%nat)) by auto. unfold at2. destruct (nth e ifgs (0%nat, 0%nat)) as [i j]. cbn [fst snd] in *.
    apply pd_unique; [|lra]. apply cong2pi_sym. eapply cong2pi_trans; [|exact HD].
    apply cong2pi_sub; apply pd_cong.
Qed.

(** Every link column is a temporal difference modulo at most two cycles. *)
Definition hist (s : nat -> nat -> Q) (a b t : nat) : Q := wrapped (s t b) - wrapped (s t a).

Lemma wrapped_cong x : cong2pi (wrapped x) x.
Proof. exists (- pd_cycles 0 x 0)%Z. rewrite wrapped_eq, inject_Z_opp. ring. Qed.

Lemma cong_some x y : cong2pi x y -> exists m : Z, x == y + twopi * inject_Z m.
Proof. intros [m H]. eauto. Qed.

(** Choice of the cycle counts: computed, not chosen. *)
Definition cycles_between (x y : Q) : Z := rint ((x - y) / twopi).
Lemma cycles_between_eq x y : cong2pi x y -> x == y + twopi * inject_Z (cycles_between x y).
Proof.
  intros [m H]. unfold cycles_between.
  assert (rint ((x - y) / twopi) = m) as ->; [|exact H].
  rewrite (rint_comp _ (inject_Z m)); [apply rint_inject|]. rewrite H. field. apply twopi_nz.
Qed.

Lemma time_congruent s : (forall e v, (e < length ifgs)%nat -> (v < g_npoints gs)%nat ->
    cong2pi (phase e v) (s (snd (nth e ifgs (0, 0)%nat)) v - s (fst (nth e ifgs (0, 0)%nat)) v)) ->
  forall a b, (a < g_npoints gs)%nat -> (b < g_npoints gs)%nat ->
  let m i j := cycles_between (link_val 0 ifgs (wcol (a, b)) i j) (hist s a b j - hist s a b i) in
  congruent_links gt (wcol (a, b)) (hist s a b) m /\
  forall i j, In (i, j) ifgs -> (-2 <= m i j <= 2)%Z.
Proof.
  intros Hs a b Ha Hb m.
  assert (forall i j, In (i, j) ifgs ->
    link_val 0 ifgs (wcol (a, b)) i j == hist s a b j - hist s a b i + twopi * inject_Z (m i j)
    /\ - half <= link_val 0 ifgs (wcol (a, b)) i j <= half) as K.
  { intros i j Hl. apply (In_nth _ _ (0%nat, 0%nat)) in Hl as (e & He & E).
    rewrite (link_val_nth 0 ifgs (wcol (a, b)) e i j); auto; [|apply (pl_nodup gt Hpt)|apply wcol_length].
    destruct (wcol_spec a b e He) as [Hc Hn]. split; auto.
    unfold m. rewrite (link_val_nth 0 ifgs (wcol (a, b)) e i j); auto; [|apply (pl_nodup gt Hpt)|apply wcol_length].
    apply cycles_between_eq. eapply cong2pi_trans; [exact Hc|].
    pose proof (Hs e a He Ha) as Sa. pose proof (Hs e b He Hb) as Sb. rewrite E in Sa, Sb. cbn [fst snd] in Sa, Sb.
    eapply cong2pi_trans; [apply cong2pi_sub; [exact Sb|exact Sa]|]. unfold hist.
    assert (forall x x' y y', (x - y) - (x' - y') == (x - x') - (y - y')) as R by (intros; ring).
    apply cong2pi_sym. eapply cong2pi_trans.
    { apply cong2pi_sub; (apply cong2pi_sub; apply wrapped_cong). }
    apply cong2pi_eq. ring. }
  split; [intros i j Hl; apply K; auto|]. intros i j Hl. destruct (K i j Hl) as [E [N1 N2]].
  cut (- (3) < m i j < 3)%Z; [lia|]. apply small_cycles. change (inject_Z 3) with 3.
  unfold hist in E. pose proof twopi_pos. unfold half in *.
  pose proof (wrapped_near (s i a)) as [A1 A2]. pose proof (wrapped_near (s i b)) as [B1 B2].
  pose proof (wrapped_near (s j a)) as [C1 C2]. pose proof (wrapped_near (s j b)) as [D1 D2]. unfold half in *.
  split; lra.
Qed.

(** * Unwrapping in time, one link *)
Definition ucol (ab : nat * nat) (k : list Z) : list Q :=
  map (fun vk => fst vk + twopi * inject_Z (snd vk)) (combine (wcol ab) k).

Lemma ucol_length ab k : length k = length ifgs -> length (ucol ab k) = length ifgs.
Proof. intros H. unfold ucol. rewrite map_length, combine_length, wcol_length. lia. Qed.

Lemma ucol_nth ab k e : length k = length ifgs -> (e < length ifgs)%nat ->
  nth e (ucol ab k) 0 == nth e (wcol ab) 0 + twopi * inject_Z (nth e k 0%Z).
Proof.
  intros H He. unfold ucol. rewrite (map_nth' _ _ _ (0, 0%Z)) by (rewrite combine_length, wcol_length; lia).
  rewrite combine_nth by (rewrite wcol_length; lia). reflexivity.
Qed.

Lemma link_val_ucol ab k i j : length k = length ifgs -> In (i, j) ifgs ->
  link_val 0 ifgs (ucol ab k) i j == link_val 0 ifgs (wcol ab) i j + twopi * inject_Z (link_val 0%Z ifgs k i j).
Proof.
  intros HL Hl. apply (In_nth _ _ (0%nat, 0%nat)) in Hl as (e & He & E).
  rewrite (link_val_nth 0 ifgs (ucol ab k) e i j), (link_val_nth 0 ifgs (wcol ab) e i j), (link_val_nth 0%Z ifgs k e i j);
    auto using wcol_length, ucol_length, (pl_nodup gt Hpt).
  now apply ucol_nth.
Qed.

(** Wrapped residual circulation in general; none for consistent data. *)
Lemma ucol_circ smcf cost a b k c : smcf_sound smcf ->
  residues_to_flows smcf (dual_solver gt) (time_residues (dual_solver gt) (wcol (a, b))) cost None = Ok k ->
  In c (g_cycles gt) ->
  - half <= circQ (link_val 0 ifgs (ucol (a, b) k)) c <= half.
Proof.
  intros Hsm Hk Hc.
  assert (compute_residues_from_gradients (dual_solver gt) (wcol (a, b)) = Ok (time_residues (dual_solver gt) (wcol (a, b)))) as Er.
  { apply time_residues_eq. cbn [dual_solver s_graph]. apply wcol_length. }
  destruct (residues_from_gradients_spec gt (wcol (a, b)) Hpt (wcol_length _)) as (r & Er' & HLr & _ & Hr).
  rewrite Er in Er'. injection Er' as <-.
  pose proof (flows_cancel smcf gt _ cost None k Hsm Hpt HLr Hk) as [HLk Hcan].
  rewrite (circQ_ext gt _ (fun i j => link_val 0 ifgs (wcol (a, b)) i j + twopi * inject_Z (link_val 0%Z ifgs k i j)) c Hpt Hc).
  2:{ intros i j Hl. now apply link_val_ucol. }
  rewrite circQ_add, circQ_scale, circ_inject. apply (In_nth _ _ []) in Hc as (n & Hn & <-).
  rewrite Hcan by auto. rewrite Hr by auto.
  set (X := circQ (link_val 0 ifgs (wcol (a, b))) (nth n (g_cycles gt) [])).
  pose proof (rint_bound (X / twopi)) as [B1 B2]. pose proof (twopi_mul_div X) as EX. pose proof twopi_pos.
  rewrite inject_Z_opp. unfold half. set (R := inject_Z (rint (X / twopi))) in *. set (Y := X / twopi) in *.
  split; nra.
Qed.

Lemma ucol_closed smcf cost a b k c s : smcf_sound smcf ->
  (forall e v, (e < length ifgs)%nat -> (v < g_npoints gs)%nat ->
    cong2pi (phase e v) (s (snd (nth e ifgs (0, 0)%nat)) v - s (fst (nth e ifgs (0, 0)%nat)) v)) ->
  (a < g_npoints gs)%nat -> (b < g_npoints gs)%nat ->
  residues_to_flows smcf (dual_solver gt) (time_residues (dual_solver gt) (wcol (a, b))) cost None = Ok k ->
  In c (g_cycles gt) -> circQ (link_val 0 ifgs (ucol (a, b) k)) c == 0.
Proof.
  intros Hsm Hs Ha Hb Hk Hc.
  assert (compute_residues_from_gradients (dual_solver gt) (wcol (a, b)) = Ok (time_residues (dual_solver gt) (wcol (a, b)))) as Er.
  { apply time_residues_eq. cbn [dual_solver s_graph]. apply wcol_length. }
  destruct (residues_from_gradients_spec gt (wcol (a, b)) Hpt (wcol_length _)) as (r & Er' & HLr & _ & _).
  rewrite Er in Er'. injection Er' as <-.
  pose proof (flows_cancel smcf gt _ cost None k Hsm Hpt HLr Hk) as [HLk Hcan].
  destruct (time_congruent s Hs a b Ha Hb) as [Hm _].
  rewrite (circQ_ext gt _ (fun i j => link_val 0 ifgs (wcol (a, b)) i j + twopi * inject_Z (link_val 0%Z ifgs k i j)) c Hpt Hc).
  2:{ intros i j Hl. now apply link_val_ucol. }
  rewrite circQ_add, circQ_scale, circ_inject. apply (In_nth _ _ []) in Hc as (n & Hn & <-).
  rewrite Hcan by auto. rewrite (residues_grad_exact gt _ _ _ _ Hpt (wcol_length _) Hm Er) by auto.
  rewrite (circ_congruent gt _ _ _ _ Hpt (nth_In _ _ Hn) Hm). rewrite inject_Z_opp. ring.
Qed.

(** Costs of at least one keep the optimal corrections small. *)
Lemma price_unit_bound cost k i : length k = length cost -> (forall c, In c cost -> (1 <= c)%Z) ->
  (i < length cost)%nat -> (Z.abs (nth i k 0) <= price cost cost k)%Z.
Proof.
  intros HL Hc Hi. unfold price. revert k i HL Hi. induction cost as [|c cost IH]; intros k i HL Hi; [cbn in Hi; lia|].
  destruct k as [|x k]; [discriminate|]. cbn [combine map]. rewrite sumZ_cons.
  assert (forall x', In x' cost -> (1 <= x')%Z) as Hc' by (intros; apply Hc; now right).
  assert (1 <= c)%Z as Hc1 by (apply Hc; now left).
  destruct i as [|i].
  - cbn [nth]. assert (0 <= price cost cost k)%Z as P.
    { apply price_nonneg; intros y Hy; specialize (Hc' y Hy); lia. }
    unfold price in P. nia.
  - cbn [nth]. cbn [length] in HL, Hi. specialize (IH Hc' k i ltac:(lia) ltac:(lia)). nia.
Qed.

Lemma price_le cost k M : (0 <= M)%Z -> (forall c, In c cost -> (1 <= c)%Z) -> (forall x, In x k -> (- M <= x <= M)%Z) ->
  (price cost cost k <= M * sumZ cost)%Z.
Proof.
  intros HM Hc. unfold price. revert k. induction cost as [|c cost IH]; intros k Hk; [destruct k; cbn; lia|].
  assert (forall x', In x' cost -> (1 <= x')%Z) as Hc' by (intros; apply Hc; now right).
  assert (1 <= c)%Z as Hc1 by (apply Hc; now left).
  assert (forall l, (forall x', In x' l -> (1 <= x')%Z) -> (0 <= sumZ l)%Z) as Hpos.
  { clear. induction l as [|y l IH]; intros H; [cbn; lia|]. rewrite sumZ_cons. assert (1 <= y)%Z by (apply H; now left).
    assert (0 <= sumZ l)%Z by (apply IH; intros; apply H; now right). lia. }
  destruct k as [|x k].
  - cbn [combine map]. change (sumZ []) with 0%Z. specialize (Hpos (c :: cost) Hc). nia.
  - cbn [combine map]. rewrite !sumZ_cons. specialize (IH Hc' k ltac:(intros; apply Hk; now right)).
    assert (- M <= x <= M)%Z by (apply Hk; now left). nia.
Qed.

Lemma time_flows_exist smcf cost a b s : smcf_sound smcf -> smcf_complete smcf ->
  (forall e v, (e < length ifgs)%nat -> (v < g_npoints gs)%nat ->
    cong2pi (phase e v) (s (snd (nth e ifgs (0, 0)%nat)) v - s (fst (nth e ifgs (0, 0)%nat)) v)) ->
  (a < g_npoints gs)%nat -> (b < g_npoints gs)%nat -> length cost = length ifgs ->
  exists k, residues_to_flows smcf (dual_solver gt) (time_residues (dual_solver gt) (wcol (a, b))) cost None = Ok k /\
    length k = length ifgs /\
    ((forall c, In c cost -> (1 <= c)%Z) ->
     forall e, (e < length ifgs)%nat -> (Z.abs (nth e k 0) <= 2 * sumZ cost)%Z).
Proof.
  intros Hsm Hcm Hs Ha Hb HC.
  assert (compute_residues_from_gradients (dual_solver gt) (wcol (a, b)) = Ok (time_residues (dual_solver gt) (wcol (a, b)))) as Er.
  { apply time_residues_eq. cbn [dual_solver s_graph]. apply wcol_length. }
  destruct (residues_from_gradients_spec gt (wcol (a, b)) Hpt (wcol_length _)) as (r & Er' & HLr & Hz & _).
  rewrite Er in Er'. injection Er' as <-.
  destruct (time_congruent s Hs a b Ha Hb) as [Hm Hmb].
  pose proof (grad_cancels gt _ _ _ _ Hpt (wcol_length _) Hm Er) as Hcan.
  set (k0 := map _ ifgs) in Hcan.
  assert (forall x, In x k0 -> (- (2) <= x <= 2)%Z) as Hk0.
  { intros x Hx. apply in_map_iff in Hx as ([i j] & <- & Hl). specialize (Hmb i j Hl). cbn [fst snd]. lia. }
  assert (fits_int32 k0) as Hf by (intros x Hx; specialize (Hk0 x Hx); unfold int32_max; lia).
  destruct (flows_exist smcf gt _ cost None k0 Hcm Hpt HLr Hz HC HC Hcan Hf) as [k Ek].
  exists k. split; auto.
  pose proof (flows_cancel smcf gt _ cost None k Hsm Hpt HLr Ek) as [HLk _]. split; auto.
  intros Hpos e He.
  destruct (flows_optimal smcf gt _ cost None k Hsm Hpt HLr) as [_ Hopt]; auto;
    try (intros c Hc; specialize (Hpos c Hc); lia).
  specialize (Hopt k0 Hcan Hf). cbn [rev_or] in Hopt.
  pose proof (price_unit_bound cost k e ltac:(lia) Hpos ltac:(lia)).
  pose proof (price_le cost k0 2 ltac:(lia) Hpos Hk0). lia.
Qed.

(** * Unwrapping in space, one interferogram *)
(** Temporally unwrapped gradients given by per-link corrections. *)
Definition grow (G : list (list Q)) (e : nat) : list Q := map (fun col => nth e col 0) G.

(** What the temporal step leaves on the links. *)
Definition gcong (G : list (list Q)) : Prop :=
  length G = length links /\
  forall n a b e, (n < length links)%nat -> nth n links (0, 0)%nat = (a, b) -> (e < length ifgs)%nat ->
    cong2pi (nth e (nth n G []) 0) (phase e b - phase e a).

Lemma grow_nth G e n : (n < length G)%nat -> nth n (grow G e) 0 = nth e (nth n G []) 0.
Proof. intros H. unfold grow. now rewrite (map_nth' _ _ n []). Qed.

Lemma grow_congruent G e : gcong G -> (e < length ifgs)%nat ->
  let x v := wrapped (phase e v) in
  congruent_links gs (grow G e) x
    (fun a b => cycles_between (link_val 0 links (grow G e) a b) (x b - x a)).
Proof.
  intros [HL HG] He x a b Hl. apply (In_nth _ _ (0%nat, 0%nat)) in Hl as (n & Hn & E).
  assert (length (grow G e) = length links) as HLg by (unfold grow; now rewrite map_length).
  apply cycles_between_eq. rewrite (link_val_nth 0 links (grow G e) n a b); auto; [|apply (pl_nodup gs Hps)].
  rewrite grow_nth by lia. eapply cong2pi_trans; [eapply HG; eauto|].
  apply cong2pi_sym. apply cong2pi_sub; apply wrapped_cong.
Qed.

Definition ifg_ok (e : nat) (u : list Q) : Prop :=
  length u = g_npoints gs /\ nth 0 u 0 == 0 /\
  forall v, (v < g_npoints gs)%nat -> cong2pi (nth v u 0) (phase e v - phase e 0%nat).

Lemma npoints_pos : (0 < g_npoints gs)%nat.
Proof. destruct (max_point_spec _ _ (planar_max gs Hps)) as (_ & H & _). exact H. Qed.

Lemma space_flood G e r k : gcong G -> (e < length ifgs)%nat ->
  compute_residues_from_gradients (dual_solver gs) (grow G e) = Ok r -> cancels gs r k ->
  exists u, flood_fill (grow G e) links k Gradients = Ok u /\ ifg_ok e u /\
    forall a b, In (a, b) links -> cong2pi (nth b u 0 - nth a u 0) (link_val 0 links (grow G e) a b).
Proof.
  intros HG He Er Hk. pose proof (grow_congruent G e HG He) as Hm. cbv zeta in Hm.
  assert (length (grow G e) = length links) as HLg by (unfold grow; rewrite map_length; apply HG).
  destruct (flood_gradients gs (grow G e) k Hps HLg (proj1 Hk)) as (u & Hu & HLu & H0 & Hd).
  { apply (span_corrected gs (link_val 0 links (grow G e)) r k Hps); auto.
    intros n Hn. rewrite (circ_congruent gs _ _ _ _ Hps (nth_In _ _ Hn) Hm).
    rewrite (residues_grad_exact gs _ _ _ _ Hps HLg Hm Er n Hn). reflexivity. }
  assert (forall a b, In (a, b) links -> cong2pi (nth b u 0 - nth a u 0) (link_val 0 links (grow G e) a b)) as Hdc.
  { intros a b Hl. rewrite (Hd a b Hl). apply cong2pi_shift. }
  exists u. split; auto. split; [|exact Hdc]. split; auto. split; auto.
  apply (cong_everywhere gs (fun v => nth v u 0) (fun v => phase e v - phase e 0%nat) Hps).
  - rewrite H0. ring.
  - intros a b Hl. eapply cong2pi_trans; [apply Hdc; auto|].
    apply (In_nth _ _ (0%nat, 0%nat)) in Hl as (n & Hn & E). destruct HG as [HL HG].
    rewrite (link_val_nth 0 links (grow G e) n a b); auto; [|apply (pl_nodup gs Hps)].
    rewrite grow_nth by lia. eapply cong2pi_trans; [eapply HG; eauto|]. apply cong2pi_eq. ring.
Qed.

Lemma space_sound smcf cost G e u : smcf_sound smcf -> gcong G -> (e < length ifgs)%nat ->
  unwrap_ifg_in_space smcf (dual_solver gs) cost (grow G e) = Ok u -> ifg_ok e u /\
    forall a b, In (a, b) links -> cong2pi (nth b u 0 - nth a u 0) (link_val 0 links (grow G e) a b).
Proof.
  intros Hsm HG He H. unfold unwrap_ifg_in_space in H.
  assert (length (grow G e) = length links) as HLg by (unfold grow; rewrite map_length; apply HG).
  destruct (residues_from_gradients_spec gs (grow G e) Hps HLg) as (r & Er & HLr & _ & _).
  rewrite Er in H. cbn [bind] in H.
  destruct (residues_to_flows _ _ _ _ _) as [k|er] eqn:Ek; cbn [bind] in H; [|discriminate].
  pose proof (flows_cancel smcf gs r cost None k Hsm Hps HLr Ek) as Hk.
  destruct (space_flood G e r k HG He Er Hk) as (u' & Hu & Hok).
  cbn [dual_solver s_graph] in H. rewrite Hu in H. injection H as <-. exact Hok.
Qed.

Lemma space_total smcf cost G e : smcf_sound smcf -> smcf_complete smcf -> gcong G -> (e < length ifgs)%nat ->
  length cost = length links ->
  (forall n a b, (n < length links)%nat -> nth n links (0, 0)%nat = (a, b) ->
     - (twopi * inject_Z (int32_max - 1)) <= nth e (nth n G []) 0 <= twopi * inject_Z (int32_max - 1)) ->
  exists u, unwrap_ifg_in_space smcf (dual_solver gs) cost (grow G e) = Ok u.
Proof.
  intros Hsm Hcm HG He HC Hb. unfold unwrap_ifg_in_space.
  assert (length (grow G e) = length links) as HLg by (unfold grow; rewrite map_length; apply HG).
  destruct (residues_from_gradients_spec gs (grow G e) Hps HLg) as (r & Er & HLr & Hz & _).
  rewrite Er. cbn [bind]. pose proof (grow_congruent G e HG He) as Hm. cbv zeta in Hm.
  pose proof (grad_cancels gs _ _ _ _ Hps HLg Hm Er) as Hcan.
  set (k0 := map _ links) in Hcan.
  assert (fits_int32 k0) as Hf.
  { intros y Hy. apply in_map_iff in Hy as ([a b] & <- & Hl). cbn [fst snd].
    pose proof (Hm a b Hl) as E. set (m := cycles_between _ _) in *.
    apply (In_nth _ _ (0%nat, 0%nat)) in Hl as (n & Hn & En).
    specialize (Hb n a b Hn En). rewrite (link_val_nth 0 links (grow G e) n a b) in E; auto; [|apply (pl_nodup gs Hps)].
    rewrite grow_nth in E by (destruct HG; lia). set (x := nth e (nth n G []) 0) in *.
    cut (- (int32_max + 1) < m < int32_max + 1)%Z; [lia|]. apply small_cycles.
    pose proof (wrapped_near (phase e a)). pose proof (wrapped_near (phase e b)). pose proof twopi_pos.
    unfold half in *. rewrite inject_Z_add, inject_Z_sub in *. change (inject_Z 1) with 1 in *.
    set (I := inject_Z int32_max) in *. set (wa := wrapped (phase e a)) in *. set (wb := wrapped (phase e b)) in *.
    assert (twopi * (I - 1) == twopi * I - twopi) as E1 by ring. rewrite E1 in Hb.
    assert (twopi * (I + 1) == twopi * I + twopi) as E2 by ring. rewrite E2. fold m in E. clearbody m I wa wb x. split; lra. }
  destruct (flows_exist smcf gs r cost None k0 Hcm Hps HLr Hz HC HC Hcan Hf) as [k Ek].
  rewrite Ek. cbn [bind].
  pose proof (flows_cancel smcf gs r cost None k Hsm Hps HLr Ek) as Hk.
  destruct (space_flood G e r k HG He Er Hk) as (u' & Hu & Hok). cbn [dual_solver s_graph]. rewrite Hu. eauto.
Qed.
End Cube.
