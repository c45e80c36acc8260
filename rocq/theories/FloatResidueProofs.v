(** Residues computed with rounding, and the cycles that cancel them. *)
From Verif Require Import Base BaseLemmas GraphModel GraphSpec GraphProofs McfModel McfSpec PhaseProofs DualProofs
  ResidueProofs FlowProofs FloodProofs UnwrapProofs FloatMcfModel FloatMcfSpec FloatMcfRound FloatPhaseProofs
  FloatFloodProofs.
From Coq Require Import ZifyBool.
Set Default Goal Selector "!".
Local Open Scope Q_scope.

(** * Common part *)
Lemma round_fl_sum fe t sums : sumZ (round_residues_fl fe t sums) = 0%Z.
Proof. unfold round_residues_fl. cbv zeta. rewrite sumZ_cons. lia. Qed.
Lemma round_fl_length fe t sums : length (round_residues_fl fe t sums) = S (length sums).
Proof. unfold round_residues_fl. cbv zeta. cbn. now rewrite map_length. Qed.
Lemma round_fl_nth fe t sums n : (n < length sums)%nat ->
  nth (n + 1) (round_residues_fl fe t sums) 0%Z = rint (fe (nth n sums 0 / t)).
Proof.
  intros H. unfold round_residues_fl. cbv zeta. rewrite Nat.add_1_r. cbn [nth].
  now rewrite (map_nth' _ _ n 0) by auto.
Qed.

Lemma sum_bound (c : Q) (l : list Q) : (forall x, In x l -> - c <= x <= c) ->
  - (qn (length l) * c) <= sumQ l <= qn (length l) * c.
Proof.
  induction l as [|x l IH]; intros H.
  - rewrite sumQ_nil. cbn [length]. change (qn 0) with 0. lra.
  - rewrite sumQ_cons. cbn [length]. rewrite qn_S. pose proof (H x (or_introl eq_refl)).
    assert (- (qn (length l) * c) <= sumQ l <= qn (length l) * c) by (apply IH; intros; apply H; now right). lra.
Qed.

(** One entry: values [v] near [V], the sum of the [V] a whole number of cycles. *)
Lemma one_residue (fe : Q -> Q) (w0 : Q) (add : Q -> Q -> Q) (w gamma c t : Q) (n : nat) (l : list (Q * Q)) (R : Z) :
  rounding fe w0 -> w0 <= w -> w <= 1 # 100 -> adds add w ->
  - (w0 * twopi) <= t - twopi <= w0 * twopi ->
  0 <= gamma <= 1 -> 0 <= c -> (3 <= n)%nat ->
  qn n * (gamma + w * ((qn n + 1) * c + 2)) <= 1 ->
  (length l <= n)%nat ->
  (forall v V, In (v, V) l -> - gamma <= v - V <= gamma /\ - c <= V <= c) ->
  sumQ (map snd l) == twopi * inject_Z R ->
  rint (fe (fold_left add (map fst l) 0 / t)) = R.
Proof.
  intros Hfe Hw0 Hw Hadd Ht Hg Hc Hn He HL Hl HS. pose proof (rd_nonneg fe w0 Hfe) as H0.
  assert (0 <= w) as Hw' by lra.
  pose proof (fold_near add w gamma c n Hadd Hw' ltac:(lra) Hc He ltac:(lra) l HL Hl) as F. cbv zeta in F.
  rewrite HS in F.
  pose proof (qn_le _ _ Hn) as Hn3. change (qn 3) with 3 in Hn3.
  assert (- (qn n * c) <= sumQ (map snd l) <= qn n * c) as SB.
  { assert (- (qn (length (map snd l)) * c) <= sumQ (map snd l) <= qn (length (map snd l)) * c) as SB.
    { apply sum_bound. intros x Hx. apply in_map_iff in Hx as ([v V] & <- & Hin). apply (Hl v V Hin). }
    rewrite map_length in SB. pose proof (qn_le _ _ HL).
    assert (qn (length l) * c <= qn n * c) by (apply Qmult_le_compat_r; auto). lra. }
  rewrite HS in SB.
  apply (rint_sum fe w0); auto; try lra.
  apply Qle_trans with (w * Qabs (twopi * inject_Z R)).
  { apply Qmult_le_compat_r; [lra|apply Qabs_nonneg]. }
  apply Qle_trans with (w * (qn n * c)).
  { rewrite !(Qmult_comm w). apply Qmult_le_compat_r; [now apply abs_le|auto]. }
  assert (0 <= w * c) as Hwc by nra.
  assert (0 <= qn n * gamma) by nra. assert (0 <= qn n * w) by nra.
  assert (qn n * (w * ((qn n + 1) * c)) <= 1) as K by lra.
  set (N := qn n) in *. clearbody N.
  assert (0 <= N * (N - 3)) as K1 by nra.
  assert (0 <= N * (N - 3) * (w * c)) as K2 by (apply Qmult_le_0_compat; auto).
  assert (N * (w * ((N + 1) * c)) == 4 * (w * (N * c)) + N * (N - 3) * (w * c)) by ring. lra.
Qed.

(** * From points *)
Lemma fold_left_map {A B C} (f : A -> B -> A) (h : C -> B) l a :
  fold_left f (map h l) a = fold_left (fun x y => f x (h y)) l a.
Proof. revert a. induction l as [|x l IH]; intros a; cbn; auto. Qed.

Definition kfl (f1 f2 : Q -> Q) (p : list Q) (a b : nat) : Z := cycles_fl f1 f2 (nth a p 0) (nth b p 0) 0.

Lemma sides_length c : length (sides c) = length c.
Proof. destruct c as [|a t]; [reflexivity|]. unfold sides. rewrite combine_length, app_length. cbn [length]. lia. Qed.

Section Points.
Context (f1 f2 fe : Q -> Q) (u w : Q) (H1 : rounding f1 u) (H2 : rounding f2 u) (He : rounding fe w).
Context (Hu : u <= 1 # 100) (Hw : w <= 1 # 100).
Context (g : graph) (Hp : planar g) (p : list Q) (HL : length p = g_npoints g) (M : Q).
Context (HM : forall x, In x p -> - M <= x <= M) (n : nat) (Hn : forall c, In c (g_cycles g) -> length c = n).
Context (Hsmall : qn n * (20 * u * (M + 1) + w * ((qn n + 1) * (5 * (M + 1)) + 2)) <= 1).

Lemma p_bound v : (v < g_npoints g)%nat -> - M <= nth v p 0 <= M.
Proof. intros H. apply HM, nth_In. lia. Qed.
Lemma M_nonneg : 0 <= M.
Proof.
  assert (0 < g_npoints g)%nat as H by (destruct (max_point_spec _ _ (planar_max g Hp)) as (_ & H & _); exact H).
  pose proof (p_bound 0%nat H). lra.
Qed.

Lemma circ_kfl c : In c (g_cycles g) ->
  sumQ (map (fun e => nth (snd e) p 0 - nth (fst e) p 0 - twopi * inject_Z (kfl f1 f2 p (fst e) (snd e))) (sides c))
  == twopi * inject_Z (circZ (fun a b => - kfl f1 f2 p a b)%Z c).
Proof.
  intros Hc. rewrite sumQ_map_sub, (tele (fun v => nth v p 0)), sumQ_map_mul.
  assert (sumQ (map (fun e => inject_Z (kfl f1 f2 p (fst e) (snd e))) (sides c)) == - inject_Z (circZ (fun a b => - kfl f1 f2 p a b)%Z c)) as ->.
  2:{ ring. }
  rewrite <- inject_Z_opp. unfold circZ. rewrite <- sumZ_map_opp, <- sumQ_inject, map_map. apply sumQ_map_ext.
  intros [a b] Hs. cbn [fst snd]. apply inject_Z_eq_iff. pose proof (planar_side_neq g c a b Hp Hc Hs).
  unfold alongZ, kfl. destruct (Nat.ltb_spec a b); [lia|]. rewrite (cycles_fl_swap f1 f2 u H1 H2 (nth b p 0) (nth a p 0)). lia.
Qed.

Theorem residues_fl_spec : exists r, compute_residues_fl f1 f2 fe (dual_solver g) p = Ok r /\
  length r = S (length (g_cycles g)) /\ sumZ r = 0%Z /\
  forall i, (i < length (g_cycles g))%nat ->
    nth (i + 1) r 0%Z = circZ (fun a b => - kfl f1 f2 p a b)%Z (nth i (g_cycles g) []).
Proof.
  unfold compute_residues_fl. cbn [dual_solver s_graph]. rewrite HL, Nat.eqb_refl. cbn [negb].
  destruct (g_cycles g) as [|c0 ct] eqn:EC; [exfalso; now apply (pl_cycles g Hp)|].
  unfold cycle_length. rewrite EC. cbn [bind]. rewrite <- EC. rewrite <- EC in Hn.
  assert (existsb (existsb (fun v => (g_npoints g <=? v)%nat)) (g_cycles g) = false) as ->.
  { apply not_true_is_false. intros H. apply existsb_exists in H as (c & Hc & H).
    apply existsb_exists in H as (v & Hv & H). pose proof (planar_vertex g c v Hp Hc Hv). lia. }
  eexists. split; [reflexivity|]. rewrite round_fl_length, map_length.
  split; [auto|]. split; [apply round_fl_sum|].
  intros i Hi. rewrite round_fl_nth by (rewrite map_length; auto).
  rewrite (map_nth' _ _ i []) by auto.
  set (c := nth i (g_cycles g) []). assert (In c (g_cycles g)) as Hc by (apply nth_In; auto).
  assert (length c0 = length c) as -> by (apply (pl_len g Hp); auto; rewrite EC; now left).
  rewrite steps_sides.
  set (V := fun e : nat * nat => nth (snd e) p 0 - nth (fst e) p 0 - twopi * inject_Z (kfl f1 f2 p (fst e) (snd e))).
  set (v := fun e : nat * nat => phase_diff_fl f1 f2 (nth (fst e) p 0) (nth (snd e) p 0) 0).
  set (l := map (fun e => (v e, V e)) (sides c)).
  assert (fold_left (fun acc e => fe (acc + phase_diff_fl f1 f2 (nth (fst e) p 0) (nth (snd e) p 0) 0)) (sides c) 0
    = fold_left (fun a x => fe (a + x)) (map fst l) 0) as ->.
  { unfold l. rewrite map_map, fold_left_map. reflexivity. }
  pose proof M_nonneg as HM0. pose proof (rd_nonneg f1 u H1) as Hu0. pose proof (rd_nonneg fe w He) as Hw0.
  assert (3 <= n)%nat as Hn3 by (rewrite <- (Hn c Hc); apply (pl_poly g Hp); auto).
  assert (0 <= 20 * u * (M + 1)) as Hg0 by nra.
  assert (20 * u * (M + 1) <= 1) as Hg1.
  { pose proof (qn_le _ _ Hn3) as Q3. change (qn 3) with 3 in Q3. set (N := qn n) in *. clearbody N.
    assert (0 <= w * ((N + 1) * (5 * (M + 1)) + 2)).
    { assert (0 <= (N + 1) * (5 * (M + 1))) by nra. nra. }
    set (A := 20 * u * (M + 1)) in *. set (W := w * ((N + 1) * (5 * (M + 1)) + 2)) in *. clearbody A W. nra. }
  apply (one_residue fe w (fun a x => fe (a + x)) w (20 * u * (M + 1)) (5 * (M + 1)) twopi n l); auto; try lra.
  - now apply rounding_adds.
  - pose proof twopi_lo. nra.
  - unfold l. rewrite map_length, sides_length. rewrite (Hn c Hc). auto.
  - intros x X Hin. apply in_map_iff in Hin as ([a b] & E & Hs). injection E as <- <-.
    assert (In (a, b) (all_sides g)) as Hall by (apply in_flat_map; eauto).
    assert ((a < g_npoints g)%nat /\ (b < g_npoints g)%nat) as [La Lb].
    { apply (pl_side g Hp) in Hall as [Hall|Hall]; apply (pl_lt g Hp) in Hall; lia. }
    unfold v, V, kfl. cbn [fst snd]. split.
    + apply (pd_fl_near f1 f2 u H1 H2 Hu M); now apply p_bound.
    + apply (pd_ideal_bound f1 f2 u H1 H2 Hu M); now apply p_bound.
  - unfold l. rewrite map_map. cbn [snd]. unfold V. now apply circ_kfl.
Qed.

(** Whole cycles per point. *)
End Points.

Lemma cycles_at g (r k : list Z) (m : nat -> nat -> Z) : planar g ->
  (forall i, (i < length (g_cycles g))%nat -> nth (i + 1) r 0%Z = circZ m (nth i (g_cycles g) [])) ->
  cancels g r k ->
  exists mm, cycle_map (g_links g) (fun a b => m a b + link_val 0 (g_links g) k a b)%Z mm.
Proof.
  intros Hp Hr [HLk Hk].
  set (h := fun a b => (m a b + link_val 0 (g_links g) k a b)%Z).
  destruct (pl_span g Hp (fun a b => inject_Z (h a b))) as [phi Hphi].
  { intros c Hc. rewrite circ_inject. apply (In_nth _ _ []) in Hc as (i & Hi & <-).
    assert (circZ h (nth i (g_cycles g) []) = 0)%Z as ->; [|reflexivity].
    specialize (Hk i Hi). rewrite (Hr i Hi) in Hk. set (c := nth i (g_cycles g) []) in *.
    assert (circZ h c = circZ m c + circZ (link_val 0%Z (g_links g) k) c)%Z; [|lia].
    unfold circZ. rewrite <- sumZ_map_add. apply sumZ_map_ext. intros [a b] _. cbn [fst snd]. unfold alongZ, h.
    destruct (a <? b)%nat; lia. }
  assert (forall v, reach (g_links g) 0 v -> phi v - phi 0%nat == inject_Z (Qfloor (phi v - phi 0%nat))) as HZ.
  { intros v R. cut (exists z, phi v - phi 0%nat == inject_Z z).
    { intros [z Hz]. apply Qle_antisym.
      - assert (Qfloor (phi v - phi 0%nat) = z) as ->; [|lra]. apply Qfloor_unique; lra.
      - assert (Qfloor (phi v - phi 0%nat) = z) as ->; [|lra]. apply Qfloor_unique; lra. }
    induction R as [|x v R [z Hz] Hl].
    - exists 0%Z. change (inject_Z 0) with 0. ring.
    - destruct Hl as [Hl|Hl]; apply Hphi in Hl.
      + exists (z + h x v)%Z. rewrite inject_Z_add. lra.
      + exists (z - h v x)%Z. rewrite inject_Z_sub. lra. }
  exists (fun v => Qfloor (phi v - phi 0%nat)). split.
  - apply Qfloor_unique; change (inject_Z 0) with 0; lra.
  - intros a b Hl. pose proof (pl_lt g Hp a b Hl) as Hlt. apply inject_Z_eq_iff. rewrite inject_Z_sub.
    rewrite <- !HZ by (apply (pl_conn g Hp); lia). fold (h a b). rewrite (Hphi a b Hl). ring.
Qed.

(** * From gradients *)
Lemma add_at_fl_length add acc idx vals : length (add_at_fl add acc idx vals) = length acc.
Proof.
  unfold add_at_fl. revert acc. induction (combine idx vals) as [|[i v] t IH]; intros acc; [reflexivity|].
  cbn [fold_left]. rewrite IH. apply upd_length.
Qed.
Lemma add_at_fl_nth add idx vals acc k : (k < length acc)%nat ->
  nth k (add_at_fl add acc idx vals) 0
  = fold_left add (map snd (filter (fun iv => (fst iv =? k)%nat) (combine idx vals))) (nth k acc 0).
Proof.
  unfold add_at_fl. revert acc. induction (combine idx vals) as [|[i v] t IH]; intros acc Hk; [reflexivity|].
  cbn [fold_left filter fst snd]. rewrite IH by (rewrite upd_length; auto).
  destruct (Nat.eqb_spec i k) as [->|Hne].
  - rewrite nth_upd_eq by auto. reflexivity.
  - rewrite nth_upd_neq by auto. reflexivity.
Qed.

Lemma combine_seq {A B} (da : A) (db : B) la lb : length la = length lb ->
  combine la lb = map (fun i => (nth i la da, nth i lb db)) (seq 0 (length la)).
Proof.
  revert lb. induction la as [|a la IH]; intros [|b lb] H; cbn [length] in H; try lia; [reflexivity|].
  cbn [combine length seq map nth]. f_equal. rewrite (IH lb) by lia. rewrite <- seq_shift, map_map. reflexivity.
Qed.

Lemma filter_map {A B} (P : B -> bool) (h : A -> B) l : filter P (map h l) = map h (filter (fun x => P (h x)) l).
Proof. induction l as [|a l IH]; [reflexivity|]. cbn. destruct (P (h a)); cbn; now rewrite IH. Qed.

Lemma pick_list (F : nat * nat -> nat * Z) links vals k : length vals = length links ->
  map snd (filter (fun iv => (fst iv =? k)%nat)
    (combine (map (fun l => fst (F l)) links)
       (map (fun dg => inject_Z (fst dg) * snd dg) (combine (map (fun l => snd (F l)) links) vals))))
  = map (fun i => inject_Z (snd (F (nth i links (0, 0)%nat))) * nth i vals 0)
      (filter (fun i => (fst (F (nth i links (0, 0)%nat)) =? k)%nat) (seq 0 (length links))).
Proof.
  intros HL.
  rewrite (combine_seq 0%Z 0 (map (fun l => snd (F l)) links) vals) by (rewrite map_length; lia).
  rewrite (combine_seq 0%nat 0) by (rewrite !map_length, seq_length; auto).
  rewrite !map_length, filter_map, map_map. cbn [fst snd].
  rewrite (filter_ext_in _ (fun i => (fst (F (nth i links (0, 0)%nat)) =? k)%nat)).
  2:{ intros i Hi. apply in_seq in Hi. now rewrite (map_nth' _ _ i (0, 0)%nat) by lia. }
  apply map_ext_in. intros i Hi. apply filter_In in Hi as [Hi _]. apply in_seq in Hi.
  rewrite (map_nth' _ _ i (0%Z, 0)) by (rewrite map_length, seq_length; lia).
  rewrite (map_nth' _ _ i 0%nat) by (rewrite seq_length; lia).
  rewrite seq_nth by lia. cbn [fst snd Nat.add]. now rewrite (map_nth' _ _ i (0, 0)%nat) by lia.
Qed.

(** Row [i] of the dual: first and second use. *)
Definition row1 g i : nat * Z :=
  let l := nth i (g_links g) (0, 0)%nat in let r := use_row (uses g (fst l) (snd l)) in (fst (fst r), fst (snd r)).
Definition row2 g i : nat * Z :=
  let l := nth i (g_links g) (0, 0)%nat in let r := use_row (uses g (fst l) (snd l)) in (snd (fst r), snd (snd r)).
Definition touches g k (row : graph -> nat -> nat * Z) : list nat :=
  filter (fun i => (fst (row g i) =? k)%nat) (seq 0 (length (g_links g))).

Definition grad_sums_fl (add : Q -> Q -> Q) (s : solver) (gr : list Q) : list Q :=
  let acc := repeat 0 (length (g_cycles (s_graph s)) + 1) in
  let acc := add_at_fl add acc (map fst (s_dual s))
               (map (fun dg => inject_Z (fst dg) * snd dg) (combine (map fst (s_dir s)) gr)) in
  add_at_fl add acc (map snd (s_dual s))
    (map (fun dg => inject_Z (fst dg) * snd dg) (combine (map snd (s_dir s)) gr)).

Lemma grad_sums_fl_nth add g gr k : length gr = length (g_links g) -> (k < length (g_cycles g) + 1)%nat ->
  nth k (grad_sums_fl add (dual_solver g) gr) 0
  = fold_left add
      (map (fun i => inject_Z (snd (row1 g i)) * nth i gr 0) (touches g k row1) ++
       map (fun i => inject_Z (snd (row2 g i)) * nth i gr 0) (touches g k row2)) 0.
Proof.
  intros HL Hk. unfold grad_sums_fl. cbv zeta. cbn [dual_solver s_graph s_dual s_dir].
  assert (k < length (repeat 0%Q (length (g_cycles g) + 1)))%nat as Hlen by (rewrite repeat_length; lia).
  rewrite add_at_fl_nth by (rewrite add_at_fl_length; auto). rewrite add_at_fl_nth by auto.
  rewrite nth_repeat0, !map_map, fold_left_app.
  pose (U := fun l : nat * nat => use_row (uses g (fst l) (snd l))).
  pose proof (pick_list (fun l => (fst (fst (U l)), fst (snd (U l)))) (g_links g) gr k HL) as P1.
  pose proof (pick_list (fun l => (snd (fst (U l)), snd (snd (U l)))) (g_links g) gr k HL) as P2.
  cbn [fst snd] in P1, P2. unfold U in P1, P2. rewrite P1, P2. reflexivity.
Qed.

Lemma fold_plus l a : fold_left Qplus l a == a + sumQ l.
Proof.
  revert a. induction l as [|x l IH]; intros a; cbn [fold_left].
  - rewrite sumQ_nil. ring.
  - rewrite IH, sumQ_cons. ring.
Qed.

Lemma touch_sum g X k : length X = length (g_links g) -> (k < length (g_cycles g) + 1)%nat ->
  sumQ (map (fun i => inject_Z (snd (row1 g i)) * nth i X 0) (touches g k row1) ++
        map (fun i => inject_Z (snd (row2 g i)) * nth i X 0) (touches g k row2))
  == nth k (grad_sums (dual_solver g) X) 0.
Proof.
  intros HL Hk. change (grad_sums (dual_solver g) X) with (grad_sums_fl Qplus (dual_solver g) X).
  rewrite grad_sums_fl_nth by auto. rewrite fold_plus. ring.
Qed.

(** Each cycle is touched once per side. *)
Definition sumN (l : list nat) : nat := fold_right Nat.add 0%nat l.
Lemma sumN_add {A} (f h : A -> nat) l : sumN (map (fun x => f x + h x)%nat l) = (sumN (map f l) + sumN (map h l))%nat.
Proof. induction l as [|a l IH]; cbn; auto. unfold sumN in IH. rewrite IH. lia. Qed.
Lemma sumN_le {A} (f h : A -> nat) l : (forall x, In x l -> f x <= h x)%nat -> (sumN (map f l) <= sumN (map h l))%nat.
Proof.
  induction l as [|a l IH]; intros H; cbn; auto.
  assert (sumN (map f l) <= sumN (map h l))%nat by (apply IH; intros; apply H; now right).
  pose proof (H a (or_introl eq_refl)). unfold sumN in *. lia.
Qed.

Lemma uses_count k cycles a b : forall n, (n < length cycles)%nat ->
  length (filter (fun u => (fst u =? n + k)%nat) (uses_from k cycles a b))
  = length (flat_map (side_use 0 a b) (sides (nth n cycles []))).
Proof.
  revert k. induction cycles as [|c t IH]; intros k n Hn; cbn [length] in Hn; [lia|].
  cbn [uses_from]. rewrite filter_app, app_length.
  assert (forall u, In u (flat_map (side_use k a b) (sides c)) -> fst u = k) as Hk.
  { intros u H. apply in_flat_map in H as (s & _ & H).
    unfold side_use in H. destruct (_ && _); [|destruct (_ && _)]; cbn in H; try tauto;
      destruct H as [<-|[]]; auto. }
  destruct n as [|n].
  - rewrite filter_all; [|intros u Hu; apply Hk in Hu; lia].
    rewrite filter_none; [|intros u Hu; apply uses_from_ge in Hu; lia].
    cbn [nth length]. rewrite Nat.add_0_r. clear. induction (sides c) as [|s sd IH]; [reflexivity|].
    cbn [flat_map]. rewrite !app_length, IH. f_equal.
    unfold side_use. destruct (_ && _); [|destruct (_ && _)]; reflexivity.
  - rewrite filter_none; [|intros u Hu; apply Hk in Hu; lia]. cbn [nth length].
    rewrite <- (IH (S k) n) by lia. cbn [Nat.add]. f_equal. apply filter_ext. intros u. f_equal. lia.
Qed.

Lemma sides_touched links sd : NoDup links -> (forall a b, In (a, b) links -> (a < b)%nat) ->
  (sumN (map (fun l => length (flat_map (side_use 0 (fst l) (snd l)) sd)) links) <= length sd)%nat.
Proof.
  intros Hnd Hlt. induction sd as [|[x y] sd IH].
  - cbn [flat_map length]. clear. induction links; cbn; auto.
  - cbn [flat_map length].
    assert (sumN (map (fun l => length (side_use 0 (fst l) (snd l) (x, y) ++ flat_map (side_use 0 (fst l) (snd l)) sd)) links)
      = sumN (map (fun l => length (side_use 0 (fst l) (snd l) (x, y)) + length (flat_map (side_use 0 (fst l) (snd l)) sd))%nat links))
      as ->.
    { f_equal. apply map_ext. intros. apply app_length. }
    rewrite sumN_add.
    cut (sumN (map (fun l => length (side_use 0 (fst l) (snd l) (x, y))) links) <= 1)%nat; [lia|].
    clear IH sd. induction Hnd as [|[a b] t Ha Hn IH]; [cbn; lia|].
    assert (sumN (map (fun l => length (side_use 0 (fst l) (snd l) (x, y))) t) <= 1)%nat as IH'
      by (apply IH; intros; apply Hlt; now right).
    cbn [map sumN fold_right fst snd]. fold (sumN (map (fun l => length (side_use 0 (fst l) (snd l) (x, y))) t)).
    destruct (side_use 0 a b (x, y)) as [|z zs] eqn:E; [cbn; lia|].
    assert (length (z :: zs) = 1)%nat as ->.
    { rewrite <- E. unfold side_use in *. cbn [fst snd] in *. destruct (_ && _); [reflexivity|].
      destruct (_ && _); [reflexivity|discriminate]. }
    assert (sumN (map (fun l => length (side_use 0 (fst l) (snd l) (x, y))) t) = 0)%nat as ->; [|lia].
    assert (a < b)%nat by (apply Hlt; now left).
    assert ((a = x /\ b = y) \/ (a = y /\ b = x)) as Hab.
    { unfold side_use in E. cbn [fst snd] in E. destruct ((x =? a) && (y =? b))%nat eqn:E1; [left; lia|].
      destruct ((x =? b) && (y =? a))%nat eqn:E2; [right; lia|discriminate]. }
    assert (forall l, In l t -> length (side_use 0 (fst l) (snd l) (x, y)) = 0)%nat as Hz.
    { intros [c d] Hin. assert (c < d)%nat by (apply Hlt; now right).
      assert ((c, d) <> (a, b)) as Hcd by congruence. unfold side_use. cbn [fst snd].
      destruct ((x =? c) && (y =? d))%nat eqn:E1.
      { exfalso. apply Hcd. f_equal; lia. }
      destruct ((x =? d) && (y =? c))%nat eqn:E2; [|reflexivity].
      exfalso. apply Hcd. f_equal; lia. }
    clear - Hz. induction t as [|l t IH]; [reflexivity|]. cbn [map sumN fold_right].
    rewrite Hz by now left. apply IH. intros; apply Hz; now right.
Qed.

Lemma filter_count {A} (P : A -> bool) l : length (filter P l) = sumN (map (fun x => if P x then 1 else 0)%nat l).
Proof. induction l as [|a l IH]; [reflexivity|]. cbn. unfold sumN in IH. destruct (P a); cbn; lia. Qed.

Lemma map_seq_nth {A B} (f : A -> B) (l : list A) d : map (fun i => f (nth i l d)) (seq 0 (length l)) = map f l.
Proof.
  induction l as [|a l IH]; [reflexivity|]. cbn [length seq map nth]. f_equal.
  rewrite <- seq_shift, map_map. exact IH.
Qed.

Lemma touch_count g i : planar g -> (i < length (g_cycles g))%nat ->
  (length (touches g (i + 1) row1) + length (touches g (i + 1) row2) <= length (nth i (g_cycles g) []))%nat.
Proof.
  intros Hp Hi. destruct (planar_simple g Hp) as [Hnd Hlt].
  unfold touches. rewrite !filter_count, <- sumN_add.
  rewrite <- (sides_length (nth i (g_cycles g) [])).
  eapply Nat.le_trans; [|apply (sides_touched (g_links g)); auto].
  rewrite <- (map_seq_nth _ (g_links g) (0, 0)%nat). apply sumN_le. intros n Hn. apply in_seq in Hn.
  unfold row1, row2. cbv zeta. cbn [fst snd].
  destruct (nth n (g_links g) (0, 0)%nat) as [a b] eqn:E. cbn [fst snd].
  assert (In (a, b) (g_links g)) as Hl by (rewrite <- E; apply nth_In; lia).
  rewrite <- (uses_count 1 (g_cycles g) a b i) by auto. fold (uses g a b).
  destruct (planar_uses_ok g a b Hp Hl) as [c d Hd Hc|c c' d Hd Hc Hc']; unfold use_row; cbn [nth fst snd filter].
  - destruct (Nat.eqb_spec 0 (i + 1)); [lia|]. destruct (c =? i + 1)%nat; cbn; lia.
  - destruct (c =? i + 1)%nat, (c' =? i + 1)%nat; cbn; lia.
Qed.

Lemma touch_dir g k j : planar g -> (1 <= k)%nat ->
  (In j (touches g k row1) -> snd (row1 g j) = 1%Z \/ snd (row1 g j) = (-1)%Z) /\
  (In j (touches g k row2) -> snd (row2 g j) = 1%Z \/ snd (row2 g j) = (-1)%Z).
Proof.
  intros Hp Hk. unfold touches. split; intros H; apply filter_In in H as [Hj H]; apply in_seq in Hj;
  unfold row1, row2 in *; cbv zeta in *; cbn [fst snd] in *;
  destruct (nth j (g_links g) (0, 0)%nat) as [a b] eqn:E; cbn [fst snd] in *;
  (assert (In (a, b) (g_links g)) as Hl by (rewrite <- E; apply nth_In; lia));
  destruct (planar_uses_ok g a b Hp Hl) as [c d Hd Hc|c c' d Hd Hc Hc']; unfold use_row in *; cbn [nth fst snd] in *; lia.
Qed.

Lemma signed_near (d : Z) v V gamma c : (d = 1 \/ d = -1)%Z ->
  - gamma <= v - V <= gamma -> - c <= V <= c ->
  - gamma <= inject_Z d * v - inject_Z d * V <= gamma /\ - c <= inject_Z d * V <= c.
Proof. intros [->| ->] H1 H2; [change (inject_Z 1) with 1|change (inject_Z (-1)) with (-(1))]; lra. Qed.

Section Grads.
Context (fs : Q -> Q) (add : Q -> Q -> Q) (w0 w : Q) (Hfs : rounding fs w0) (Hww : w0 <= w) (Hw : w <= 1 # 100) (Hadd : adds add w).
Context (g : graph) (Hp : planar g) (n : nat) (Hn : forall c, In c (g_cycles g) -> length c = n).
Context (gr X : list Q) (HL : length gr = length (g_links g)) (HX : length X = length (g_links g)) (gamma c : Q).
Context (Hgr : forall i, (i < length (g_links g))%nat -> - gamma <= nth i gr 0 - nth i X 0 <= gamma /\ - c <= nth i X 0 <= c).
Context (Hg : 0 <= gamma <= 1) (Hc : 0 <= c).
Context (Hsmall : qn n * (gamma + w * ((qn n + 1) * c + 2)) <= 1).

Theorem grad_residues_fl_spec (x : nat -> Q) (m : nat -> nat -> Z) : congruent_links g X x m ->
  exists r, compute_residues_from_gradients_fl fs add (dual_solver g) gr = Ok r /\
  length r = S (length (g_cycles g)) /\ sumZ r = 0%Z /\
  forall i, (i < length (g_cycles g))%nat -> nth (i + 1) r 0%Z = circZ m (nth i (g_cycles g) []).
Proof.
  intros Hm. exists (round_residues_fl fs (fs twopi) (tl (grad_sums_fl add (dual_solver g) gr))). split.
  { unfold compute_residues_from_gradients_fl. cbn [dual_solver s_graph]. rewrite HL, Nat.eqb_refl. reflexivity. }
  assert (length (tl (grad_sums_fl add (dual_solver g) gr)) = length (g_cycles g)) as L.
  { rewrite length_tl. unfold grad_sums_fl. cbv zeta. rewrite !add_at_fl_length, repeat_length. cbn. lia. }
  split; [now rewrite round_fl_length, L|]. split; [apply round_fl_sum|].
  intros i Hi. rewrite round_fl_nth by lia. rewrite nth_tl, grad_sums_fl_nth by (auto; lia).
  set (cc := nth i (g_cycles g) []). assert (In cc (g_cycles g)) as Hcc by (apply nth_In; auto).
  set (l := map (fun j => (inject_Z (snd (row1 g j)) * nth j gr 0, inject_Z (snd (row1 g j)) * nth j X 0)) (touches g (i + 1) row1) ++
            map (fun j => (inject_Z (snd (row2 g j)) * nth j gr 0, inject_Z (snd (row2 g j)) * nth j X 0)) (touches g (i + 1) row2)).
  assert (map (fun j => inject_Z (snd (row1 g j)) * nth j gr 0) (touches g (i + 1) row1) ++
          map (fun j => inject_Z (snd (row2 g j)) * nth j gr 0) (touches g (i + 1) row2) = map fst l) as ->.
  { unfold l. rewrite map_app, !map_map. reflexivity. }
  assert (3 <= n)%nat as Hn3 by (rewrite <- (Hn cc Hcc); apply (pl_poly g Hp); auto).
  apply (one_residue fs w0 add w gamma c (fs twopi) n l); auto.
  - pose proof twopi_lo. apply (rd_bound fs w0 Hfs twopi twopi). lra.
  - unfold l. rewrite app_length, !map_length. rewrite <- (Hn cc Hcc). now apply touch_count.
  - intros v V Hin. unfold l in Hin. apply in_app_or in Hin as [Hin|Hin]; apply in_map_iff in Hin as (j & E & Hj);
      injection E as <- <-.
    + assert (j < length (g_links g))%nat as Lj by (apply filter_In in Hj as [Hj _]; apply in_seq in Hj; lia).
      apply touch_dir in Hj; auto; [|lia]. apply signed_near; auto; now apply Hgr.
    + assert (j < length (g_links g))%nat as Lj by (apply filter_In in Hj as [Hj _]; apply in_seq in Hj; lia).
      apply touch_dir in Hj; auto; [|lia]. apply signed_near; auto; now apply Hgr.
  - assert (map snd l = map (fun j => inject_Z (snd (row1 g j)) * nth j X 0) (touches g (i + 1) row1) ++
          map (fun j => inject_Z (snd (row2 g j)) * nth j X 0) (touches g (i + 1) row2)) as ->.
    { unfold l. rewrite map_app, !map_map. reflexivity. }
    rewrite touch_sum by (auto; lia). rewrite grad_sums_circ by auto. now apply (circ_congruent g X x m).
Qed.
End Grads.
