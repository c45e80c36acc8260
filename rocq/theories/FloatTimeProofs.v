(** Rounded temporal unwrapping of one link. *)
From Verif Require Import Base BaseLemmas GraphModel GraphSpec GraphProofs McfModel McfSpec PhaseProofs DualProofs
  ResidueProofs FlowProofs FloodProofs UnwrapProofs EmcfModel EmcfSpec PoolProofs BatchProofs EmcfProofs CubeProofs
  FloatMcfModel FloatMcfSpec FloatMcfRound FloatPhaseProofs FloatFloodProofs FloatResidueProofs FloatCubeModel FloatBatchProofs.
From Coq Require Import ZifyBool.
Set Default Goal Selector "!".
Local Open Scope Q_scope.

(** ** Residues *)
Definition contrib (k : nat) (t : (nat * nat) * ((Z * Z) * Q)) : list Q :=
  let '((c0, c1), ((d0, d1), v)) := t in
  (if (c0 =? k)%nat then [inject_Z d0 * v] else []) ++ (if (c1 =? k)%nat then [inject_Z d1 * v] else []).

Section Step.
Context (add : Q -> Q -> Q).
Definition tstep_fl (acc : list Q) (t : (nat * nat) * ((Z * Z) * Q)) : list Q :=
  let '((c0, c1), ((d0, d1), v)) := t in
  let acc := upd acc c0 (add (nth c0 acc 0) (inject_Z d0 * v)) in
  if (c1 =? 0)%nat then acc else upd acc c1 (add (nth c1 acc 0) (inject_Z d1 * v)).
Lemma tstep_fl_length acc t : length (tstep_fl acc t) = length acc.
Proof. destruct t as [[c0 c1] [[d0 d1] v]]. cbn [tstep_fl]. destruct (c1 =? 0)%nat; now rewrite !upd_length. Qed.
Lemma tsteps_fl_length l : forall acc, length (fold_left tstep_fl l acc) = length acc.
Proof. induction l as [|t l IH]; intros acc; auto. cbn [fold_left]. now rewrite IH, tstep_fl_length. Qed.
Lemma tstep_fl_nth acc t k : (0 < k < length acc)%nat ->
  nth k (tstep_fl acc t) 0 = fold_left add (contrib k t) (nth k acc 0).
Proof.
  destruct t as [[c0 c1] [[d0 d1] v]]. intros Hk. cbn [tstep_fl contrib].
  destruct (Nat.eqb_spec c1 0) as [->|N1].
  - destruct (Nat.eqb_spec 0 k) as [E|_]; [lia|]. rewrite app_nil_r. destruct (Nat.eqb_spec c0 k) as [->|N].
    + rewrite nth_upd_eq by lia. reflexivity.
    + rewrite nth_upd_neq by auto. reflexivity.
  - destruct (Nat.eqb_spec c1 k) as [->|N].
    + rewrite nth_upd_eq by (rewrite upd_length; lia). destruct (Nat.eqb_spec c0 k) as [->|N'].
      * rewrite nth_upd_eq by lia. reflexivity.
      * rewrite nth_upd_neq by auto. reflexivity.
    + rewrite nth_upd_neq by auto. destruct (Nat.eqb_spec c0 k) as [->|N'].
      * rewrite nth_upd_eq by lia. reflexivity.
      * rewrite nth_upd_neq by auto. reflexivity.
Qed.
Lemma tsteps_fl_nth k l : forall acc, (0 < k < length acc)%nat ->
  nth k (fold_left tstep_fl l acc) 0 = fold_left add (flat_map (contrib k) l) (nth k acc 0).
Proof.
  induction l as [|t l IH]; intros acc Hk; [reflexivity|]. cbn [fold_left flat_map].
  rewrite IH by (rewrite tstep_fl_length; auto). rewrite tstep_fl_nth by auto. now rewrite fold_left_app.
Qed.
End Step.

(** The entries touching cycle [k], paired with their ideal values. *)
Definition pairs g k (gr X : list Q) (i : nat) : list (Q * Q) :=
  (if (fst (row1 g i) =? k)%nat then [(inject_Z (snd (row1 g i)) * nth i gr 0, inject_Z (snd (row1 g i)) * nth i X 0)] else []) ++
  (if (fst (row2 g i) =? k)%nat then [(inject_Z (snd (row2 g i)) * nth i gr 0, inject_Z (snd (row2 g i)) * nth i X 0)] else []).

Lemma rows_combine g gr : length gr = length (g_links g) ->
  combine (s_dual (dual_solver g)) (combine (s_dir (dual_solver g)) gr)
  = map (fun i => ((fst (row1 g i), fst (row2 g i)), ((snd (row1 g i), snd (row2 g i)), nth i gr 0))) (seq 0 (length (g_links g))).
Proof.
  intros HL. cbn [dual_solver s_dual s_dir].
  rewrite (combine_seq (0%nat, 0%nat) ((0%Z, 0%Z), 0)) by (rewrite combine_length, !map_length; lia).
  rewrite map_length. apply map_ext_in. intros i Hi. apply in_seq in Hi.
  rewrite combine_nth by (rewrite !map_length; lia).
  rewrite !(map_nth' _ _ i (0, 0)%nat) by lia. unfold row1, row2. cbv zeta. cbn [fst snd].
  destruct (use_row _) as [[? ?] [? ?]]. reflexivity.
Qed.

Lemma pairs_fst g k gr X l : map fst (flat_map (pairs g k gr X) l)
  = flat_map (contrib k) (map (fun i => ((fst (row1 g i), fst (row2 g i)), ((snd (row1 g i), snd (row2 g i)), nth i gr 0))) l).
Proof.
  induction l as [|i l IH]; [reflexivity|]. cbn [flat_map map]. rewrite map_app, IH. f_equal.
  unfold pairs, contrib. destruct (fst (row1 g i) =? k)%nat, (fst (row2 g i) =? k)%nat; reflexivity.
Qed.
Lemma pairs_length g k gr X l : length (flat_map (pairs g k gr X) l)
  = (length (filter (fun i => fst (row1 g i) =? k) l) + length (filter (fun i => fst (row2 g i) =? k) l))%nat.
Proof.
  induction l as [|i l IH]; [reflexivity|]. cbn [flat_map filter]. rewrite app_length, IH. unfold pairs.
  destruct (fst (row1 g i) =? k)%nat, (fst (row2 g i) =? k)%nat; cbn [app length]; lia.
Qed.
Lemma pairs_sum g k gr X l : sumQ (map snd (flat_map (pairs g k gr X) l))
  == sumQ (map (fun i => inject_Z (snd (row1 g i)) * nth i X 0) (filter (fun i => fst (row1 g i) =? k)%nat l) ++
           map (fun i => inject_Z (snd (row2 g i)) * nth i X 0) (filter (fun i => fst (row2 g i) =? k)%nat l)).
Proof.
  assert (forall a b, sumQ (a ++ b) == sumQ a + sumQ b) as A.
  { induction a as [|x a IH]; intros b; cbn [app]; [rewrite sumQ_nil; ring|]. rewrite !sumQ_cons, IH. ring. }
  rewrite A. induction l as [|i l IH]; [reflexivity|]. cbn [flat_map filter]. rewrite map_app, A, IH. unfold pairs.
  destruct (fst (row1 g i) =? k)%nat, (fst (row2 g i) =? k)%nat; cbn [app map snd]; rewrite ?sumQ_cons, ?sumQ_nil; ring.
Qed.
Lemma pairs_In g k gr X l v V : In (v, V) (flat_map (pairs g k gr X) l) -> exists i d,
  In i l /\ v = inject_Z d * nth i gr 0 /\ V = inject_Z d * nth i X 0 /\
  ((d = snd (row1 g i) /\ fst (row1 g i) = k) \/ (d = snd (row2 g i) /\ fst (row2 g i) = k)).
Proof.
  intros H. apply in_flat_map in H as (i & Hi & H). unfold pairs in H. apply in_app_or in H as [H|H].
  - destruct (Nat.eqb_spec (fst (row1 g i)) k); [|destruct H]. destruct H as [H|[]]. injection H as <- <-. eauto 8.
  - destruct (Nat.eqb_spec (fst (row2 g i)) k); [|destruct H]. destruct H as [H|[]]. injection H as <- <-. eauto 8.
Qed.

Section TimeRes.
Context (F : formats) (w0 w : Q) (Hfs : rounding (f_s F) w0) (Hww : w0 <= w) (Hw : w <= 1 # 100) (Hadd : adds (a_t F) w).
Context (g : graph) (Hp : planar g) (n : nat) (Hn : forall c, In c (g_cycles g) -> length c = n).
Context (gr X : list Q) (HL : length gr = length (g_links g)) (HX : length X = length (g_links g)) (gamma c : Q).
Context (Hgr : forall i, (i < length (g_links g))%nat -> - gamma <= nth i gr 0 - nth i X 0 <= gamma /\ - c <= nth i X 0 <= c).
Context (Hg : 0 <= gamma <= 1) (Hc : 0 <= c).
Context (Hsmall : qn n * (gamma + w * ((qn n + 1) * c + 2)) <= 1).

Theorem time_residues_fl_spec (x : nat -> Q) (m : nat -> nat -> Z) : congruent_links g X x m ->
  let r := time_residues_fl F (dual_solver g) gr in
  length r = S (length (g_cycles g)) /\ sumZ r = 0%Z /\
  forall i, (i < length (g_cycles g))%nat -> nth (i + 1) r 0%Z = circZ m (nth i (g_cycles g) []).
Proof.
  intros Hm r. split; [unfold r; rewrite time_residues_fl_length; cbn [dual_solver s_graph]; lia|].
  split; [unfold r, time_residues_fl; cbv zeta; apply round_fl_sum|].
  intros i Hi. unfold r, time_residues_fl. cbv zeta.
  rewrite rows_combine by auto.
  match goal with |- context [fold_left ?f ?l ?a] => change (fold_left f l a) with (fold_left (tstep_fl (a_t F)) l a) end.
  set (ts := map _ (seq 0 (length (g_links g)))).
  assert (length (repeat 0%Q (length (g_cycles (s_graph (dual_solver g))) + 1)) = length (g_cycles g) + 1)%nat as Lr
    by (rewrite repeat_length; reflexivity).
  rewrite round_fl_nth by (rewrite length_tl, tsteps_fl_length, Lr; lia).
  rewrite nth_tl. rewrite tsteps_fl_nth by (rewrite Lr; lia). rewrite nth_repeat0.
  set (cc := nth i (g_cycles g) []). assert (In cc (g_cycles g)) as Hcc by (apply nth_In; auto).
  set (l := flat_map (pairs g (i + 1) gr X) (seq 0 (length (g_links g)))).
  replace (flat_map (contrib (i + 1)) ts) with (map fst l) by (apply pairs_fst).
  assert (3 <= n)%nat as Hn3 by (rewrite <- (Hn cc Hcc); apply (pl_poly g Hp); auto).
  apply (one_residue (f_s F) w0 (a_t F) w gamma c (f_s F twopi) n l); auto.
  - pose proof twopi_lo. apply (rd_bound (f_s F) w0 Hfs twopi twopi). lra.
  - unfold l. rewrite pairs_length. rewrite <- (Hn cc Hcc). now apply touch_count.
  - intros v V Hin. apply pairs_In in Hin as (j & d & Hj & -> & -> & Hd). pose proof Hj as Hj'. apply in_seq in Hj'.
    destruct (touch_dir g (i + 1) j Hp ltac:(lia)) as [T1 T2].
    apply signed_near; [|apply Hgr; lia|apply Hgr; lia].
    destruct Hd as [[-> E]|[-> E]]; [apply T1|apply T2]; apply filter_In; (split; [exact Hj|now apply Nat.eqb_eq]).
  - unfold l. rewrite pairs_sum. fold (touches g (i + 1) row1) (touches g (i + 1) row2).
    rewrite touch_sum by (auto; lia). rewrite grad_sums_circ by auto. now apply (circ_congruent g X x m).
Qed.
End TimeRes.

(** ** Columns *)
Section Columns.
Context (F : formats) (u w : Q) (H1 : rounding (f_d F) u) (H2 : rounding (f_o F) u) (H3 : rounding (f_s F) u) (H4 : rounding (f_e F) w).
Context (Ht : adds (a_t F) u) (Hac : adds (a_c F) u).
Context (M : Q) (HM0 : 0 <= M) (Hu : 200 * u * (M + 1) <= 1) (Hw : w <= 1 # 100).
Context (is_ifg : bool) (ifgs : list (nat * nat)) (data : list (list Q)).
Context (HM : forall row x, In row data -> In x row -> - M <= x <= M).
Notation phase := (ifg_phase is_ifg ifgs data).
Notation cyc := (cycles_fl (f_d F) (f_o F)).

Lemma u_facts : 0 <= u /\ u <= 1 # 200 /\ u * M <= 1 # 200 /\ 0 <= u * M.
Proof. pose proof (rd_nonneg _ _ H1) as U. assert (0 <= u * M) by nra. repeat split; lra. Qed.

Lemma at2_bound t v : - M <= at2 data t v <= M.
Proof.
  unfold at2. destruct (nth_in_or_default t data []) as [H|H].
  - destruct (nth_in_or_default v (nth t data []) 0) as [K|K]; [eapply HM; eauto|]. rewrite K. lra.
  - rewrite H. destruct v; cbn; lra.
Qed.

Lemma pd_one p0 p1 : - M <= p0 <= M -> - M <= p1 <= M ->
  - (20 * u * (M + 1)) <= pd_arr F p0 p1 - (p1 - p0 - twopi * inject_Z (cyc p0 p1 0)) <= 20 * u * (M + 1) /\
  - (4) <= pd_arr F p0 p1 <= 4.
Proof.
  intros A B. destruct u_facts as (U0 & U1 & U2 & U3).
  pose proof (pd_fl_near (f_d F) (f_o F) u H1 H2 ltac:(lra) M p0 p1 A B) as N. cbv zeta in N.
  pose proof (near_half (f_d F) (f_o F) u M p0 p1 H1 H2 ltac:(lra) A B) as H. apply abs_le in H.
  split; [exact N|]. unfold pd_arr. pose proof twopi_hi as T. unfold half in H. lra.
Qed.

(** Whole cycles taken off entry [e] of the link (a, b). *)
Definition taken (e a b : nat) : Z :=
  if is_ifg then cyc (at2 data e a) (at2 data e b) 0
  else let ij := nth e ifgs (0, 0)%nat in
    let p v := pd_arr F (at2 data (fst ij) v) (at2 data (snd ij) v) in
    let k v := cyc (at2 data (fst ij) v) (at2 data (snd ij) v) 0 in
    (k b - k a + cyc (p a) (p b) 0)%Z.
Definition ideal (a b e : nat) : Q := phase e b - phase e a - twopi * inject_Z (taken e a b).

Definition gam0 : Q := u * (40 * (M + 1) + 104).

Lemma col_length ab : length (link_column_fl F is_ifg ifgs data ab) = length ifgs.
Proof. unfold link_column_fl. destruct ab as [a b]. destruct is_ifg; rewrite map_length; auto using seq_length. Qed.

Lemma store_near x X g : - (4) <= x <= 4 -> - g <= x - X <= g -> - (g + 4 * u) <= f_s F x - X <= g + 4 * u.
Proof. intros Hx Hg. pose proof (rd_bound (f_s F) u H3 x 4 Hx). lra. Qed.

Lemma col_near a b e : (e < length ifgs)%nat ->
  let v := nth e (link_column_fl F is_ifg ifgs data (a, b)) 0 in
  - gam0 <= v - ideal a b e <= gam0 /\ - (5) <= v <= 5 /\ - (5) <= ideal a b e <= 5.
Proof.
  intros He. cbv zeta. destruct u_facts as (U0 & U1 & U2 & U3).
  assert (forall x v, - (4) <= x <= 4 -> v = f_s F x -> - gam0 <= v - ideal a b e <= gam0 ->
    - gam0 <= v - ideal a b e <= gam0 /\ - (5) <= v <= 5 /\ - (5) <= ideal a b e <= 5) as K.
  { intros x v Hx -> HN. pose proof (rd_bound (f_s F) u H3 x 4 Hx). split; [exact HN|]. unfold gam0 in HN.
    split; lra. }
  unfold link_column_fl, ideal, taken, ifg_phase in *. destruct is_ifg.
  - rewrite (map_nth' _ _ _ 0%nat) by (rewrite seq_length; auto). rewrite seq_nth by auto. cbn [Nat.add].
    destruct (pd_one (at2 data e a) (at2 data e b) (at2_bound e a) (at2_bound e b)) as [N B].
    eapply K; [exact B|reflexivity|]. apply (store_near _ _ _ B) in N.
    change (nth b (nth e data []) 0) with (at2 data e b). change (nth a (nth e data []) 0) with (at2 data e a).
    unfold gam0. lra.
  - rewrite (map_nth' _ _ _ (0%nat, 0%nat)) by auto. cbv zeta.
    set (i := fst (nth e ifgs (0, 0)%nat)) in *. set (j := snd (nth e ifgs (0, 0)%nat)) in *.
    destruct (pd_one (at2 data i a) (at2 data j a) (at2_bound i a) (at2_bound j a)) as [Na Ba].
    destruct (pd_one (at2 data i b) (at2 data j b) (at2_bound i b) (at2_bound j b)) as [Nb Bb].
    set (pa := pd_arr F (at2 data i a) (at2 data j a)) in *. set (pb := pd_arr F (at2 data i b) (at2 data j b)) in *.
    pose proof (pd_fl_near (f_d F) (f_o F) u H1 H2 ltac:(lra) 4 pa pb Ba Bb) as N. cbv zeta in N.
    pose proof (near_half (f_d F) (f_o F) u 4 pa pb H1 H2 ltac:(lra) Ba Bb) as H. apply abs_le in H.
    fold (pd_arr F pa pb) in N. pose proof twopi_hi as T. unfold half in H.
    assert (- (4) <= pd_arr F pa pb <= 4) as B by lra.
    eapply K; [exact B|reflexivity|]. apply (store_near _ _ _ B) in N.
    fold (at2 data j a) (at2 data j b) (at2 data i a) (at2 data i b).
    rewrite inject_Z_add, inject_Z_sub. unfold gam0.
    change (nth b (nth j data []) 0) with (at2 data j b). change (nth a (nth j data []) 0) with (at2 data j a).
    change (nth b (nth i data []) 0) with (at2 data i b). change (nth a (nth i data []) 0) with (at2 data i a).
    set (ka := inject_Z (cyc (at2 data i a) (at2 data j a) 0)) in *. set (kb := inject_Z (cyc (at2 data i b) (at2 data j b) 0)) in *.
    set (k := inject_Z (cyc pa pb 0)) in *. clearbody ka kb k. lra.
Qed.

(** Half a cycle at most, but for rounding. *)
Lemma ideal_half a b e : Qabs (ideal a b e) <= half + gam0 + 152 * u.
Proof.
  destruct u_facts as (U0 & U1 & U2 & U3). apply abs_le. unfold ideal, taken, ifg_phase, gam0. destruct is_ifg.
  - pose proof (near_half (f_d F) (f_o F) u M (at2 data e a) (at2 data e b) H1 H2 ltac:(lra) (at2_bound e a) (at2_bound e b)) as H.
    apply abs_le in H. change (nth b (nth e data []) 0) with (at2 data e b). change (nth a (nth e data []) 0) with (at2 data e a). lra.
  - cbv zeta. set (i := fst (nth e ifgs (0, 0)%nat)) in *. set (j := snd (nth e ifgs (0, 0)%nat)) in *.
    destruct (pd_one (at2 data i a) (at2 data j a) (at2_bound i a) (at2_bound j a)) as [Na Ba].
    destruct (pd_one (at2 data i b) (at2 data j b) (at2_bound i b) (at2_bound j b)) as [Nb Bb].
    set (pa := pd_arr F (at2 data i a) (at2 data j a)) in *. set (pb := pd_arr F (at2 data i b) (at2 data j b)) in *.
    pose proof (near_half (f_d F) (f_o F) u 4 pa pb H1 H2 ltac:(lra) Ba Bb) as H. apply abs_le in H.
    rewrite inject_Z_add, inject_Z_sub.
    change (nth b (nth j data []) 0) with (at2 data j b). change (nth a (nth j data []) 0) with (at2 data j a).
    change (nth b (nth i data []) 0) with (at2 data i b). change (nth a (nth i data []) 0) with (at2 data i a).
    set (ka := inject_Z (cyc (at2 data i a) (at2 data j a) 0)) in *. set (kb := inject_Z (cyc (at2 data i b) (at2 data j b) 0)) in *.
    set (k := inject_Z (cyc pa pb 0)) in *. clearbody ka kb k. lra.
Qed.

(** The link after adding [k] cycles. *)
Definition gam (c : Q) : Q := gam0 + u * (12 + 2 * c) + w * (5 + c).
Lemma shift_near a b e k c : (e < length ifgs)%nat -> let X := ideal a b e + twopi * inject_Z k in
  - c <= X <= c ->
  - gam c <= shift_fl F (nth e (link_column_fl F is_ifg ifgs data (a, b)) 0) k - X <= gam c.
Proof.
  intros He X HX. destruct (col_near a b e He) as (N & B & I). destruct u_facts as (U0 & U1 & U2 & U3).
  set (v := nth e _ 0) in *. unfold shift_fl. unfold X in *. set (T := twopi * inject_Z k) in *. clearbody T.
  assert (- (5 + c) <= T <= 5 + c) as HT by lra. assert (0 <= c) as Hc by lra.
  pose proof (rd_nonneg _ _ H4) as W. pose proof (rd_bound (f_e F) w H4 T _ HT) as R. set (T' := f_e F T) in *. clearbody T'.
  assert (w * (5 + c) <= (1 # 100) * (5 + c)) by (apply Qmult_le_compat_r; lra).
  pose proof (Hac v T') as A.
  assert (u * (Qabs v + Qabs T') <= u * (12 + 2 * c)) as A'.
  { rewrite !(Qmult_comm u). apply Qmult_le_compat_r; [|exact U0].
    assert (Qabs v <= 5) by (now apply abs_le). assert (Qabs T' <= 7 + 2 * c) by (apply abs_le; lra). lra. }
  assert (Qabs (a_c F v T' - (v + T')) <= u * (12 + 2 * c)) as A2 by lra. apply abs_le in A2.
  unfold gam. lra.
Qed.
End Columns.
