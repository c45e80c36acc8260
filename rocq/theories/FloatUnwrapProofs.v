(** Unwrapping with rounding: residues, flows and integration together. *)
From Verif Require Import Base BaseLemmas GraphModel GraphSpec GraphProofs McfModel McfSpec PhaseProofs DualProofs
  ResidueProofs FlowProofs FloodProofs UnwrapProofs FloatMcfModel FloatMcfSpec FloatMcfRound FloatPhaseProofs
  FloatFloodProofs FloatResidueProofs FloatMcfProofs.
From Coq Require Import ZifyBool.
Set Default Goal Selector "!".
Local Open Scope Q_scope.

Section PointsU.
Context (smcf : list arc -> list Z -> option (list Z)) (Hs : smcf_sound smcf) (Hc : smcf_complete smcf).
Context (f1 f2 g1 g2 fe : Q -> Q) (u v w : Q).
Context (H1 : rounding f1 u) (H2 : rounding f2 u) (G1 : rounding g1 v) (G2 : rounding g2 v) (He : rounding fe w).
Context (Hu : u <= 1 # 100) (Hv : v <= 1 # 100) (Hw : w <= 1 # 100).
Context (g : graph) (Hp : planar g) (p : list Q) (HL : length p = g_npoints g) (M : Q).
Context (HM : forall x, In x p -> - M <= x <= M) (HM9 : M <= 1000000000).
Context (n : nat) (Hn : forall c, In c (g_cycles g) -> length c = n).
Context (Hsmall : qn n * (20 * u * (M + 1) + w * ((qn n + 1) * (5 * (M + 1)) + 2)) <= 1).
Context (cost : list Z) (revcost : option (list Z)) (HC : length cost = length (g_links g))
        (HR : length (rev_or cost revcost) = length (g_links g)).
Context (Hsame : forall a b, In (a, b) (g_links g) -> kfl f1 f2 p a b = kfl g1 g2 p a b).

Lemma kfl_cancels r :
  (forall i, (i < length (g_cycles g))%nat -> nth (i + 1) r 0%Z = circZ (fun a b => - kfl f1 f2 p a b)%Z (nth i (g_cycles g) [])) ->
  cancels g r (map (fun l => kfl f1 f2 p (fst l) (snd l)) (g_links g)).
Proof.
  intros Hr. split; [now rewrite map_length|]. intros i Hi. rewrite Hr by auto.
  rewrite (circZ_link_val g (kfl f1 f2 p)) by (auto; now apply nth_In). rewrite circZ_opp. lia.
Qed.

Lemma kfl_int32 : fits_int32 (map (fun l => kfl f1 f2 p (fst l) (snd l)) (g_links g)).
Proof.
  intros x Hx. apply in_map_iff in Hx as ([a b] & <- & Hl). cbn [fst snd].
  destruct (pl_lt g Hp a b Hl) as [La Lb].
  pose proof (cycles_bound f1 f2 u H1 H2 Hu M (nth a p 0) (nth b p 0) ltac:(apply HM, nth_In; lia) ltac:(apply HM, nth_In; lia)) as B.
  fold (kfl f1 f2 p a b) in B. set (k := kfl f1 f2 p a b) in *. clearbody k.
  pose proof twopi_lo as L. unfold int32_max.
  assert (- inject_Z 2147483647 <= inject_Z k <= inject_Z 2147483647) as K.
  { change (inject_Z 2147483647) with 2147483647.
    destruct (Qlt_le_dec (inject_Z k) 0) as [N|N].
    - assert (6 * (- inject_Z k) <= twopi * (- inject_Z k)) by (apply Qmult_le_compat_r; lra). split; lra.
    - assert (6 * inject_Z k <= twopi * inject_Z k) by (apply Qmult_le_compat_r; lra). split; lra. }
  rewrite <- inject_Z_opp in K. destruct K as [K1 K2]. rewrite inject_Z_le_iff in K1, K2. lia.
Qed.

Theorem unwrap_fl_near : exists r k m,
  compute_residues_fl f1 f2 fe (dual_solver g) p = Ok r /\
  (forall i, (i < length (g_cycles g))%nat -> nth (i + 1) r 0%Z = circZ (fun a b => - kfl f1 f2 p a b)%Z (nth i (g_cycles g) [])) /\
  length r = S (length (g_cycles g)) /\ sumZ r = 0%Z /\
  residues_to_flows smcf (dual_solver g) r cost (Some (rev_or cost revcost)) = Ok k /\
  cancels g r k /\
  cycle_map (g_links g) (fun a b => - kfl f1 f2 p a b + link_val 0 (g_links g) k a b)%Z m /\
  forall L B, depth_le (g_links g) (g_npoints g) L ->
    (forall x, (x < g_npoints g)%nat -> - B <= nth x p 0 + twopi * inject_Z (m x) - nth 0 p 0 <= B) ->
    let eps := 20 * v * (M + 1) + w * (6 * B + 2 * (5 * (M + 1)) + 2) in
    (qn L + 1) * eps <= 1 ->
    exists uu, checked ((qn L + 1) * eps <= 1 # 4000) (unwrap_one_fl f1 f2 g1 g2 fe smcf (dual_solver g) p cost revcost) (uu, k) /\
      length uu = g_npoints g /\
      forall x, (x < g_npoints g)%nat ->
        within (qn L * eps + w * (B + M + 1)) (nth x uu 0) (nth x p 0 + twopi * inject_Z (m x)).
Proof.
  destruct (residues_fl_spec f1 f2 fe u w H1 H2 He Hu Hw g Hp p HL M HM n Hn Hsmall) as (r & Er & HLr & Hz & Hr).
  destruct (flows_exist smcf g r cost (Some (rev_or cost revcost)) _ Hc Hp HLr Hz HC HR (kfl_cancels r Hr) kfl_int32) as [k Ek].
  pose proof (flows_cancel smcf g r cost _ k Hs Hp HLr Ek) as Hk.
  destruct (cycles_at g r k (fun a b => - kfl f1 f2 p a b)%Z Hp Hr Hk) as [m Hm].
  exists r, k, m. do 7 (split; [auto|]). intros L B HD HB eps Heps.
  pose proof (planar_max g Hp) as Hmax. destruct Hk as [HLk _]. destruct Hm as [Hm0 Hmm].
  pose proof (M_nonneg g Hp p HL M HM) as HM0. pose proof (rd_nonneg g1 v G1) as Hv0.
  destruct (planar_simple g Hp) as [Hnd _].
  destruct (max_point_spec _ _ Hmax) as (_ & Hpos & _).
  destruct (flood_fl_near fe w He Hw (fun a b => phase_diff_fl g1 g2 a b 0) p (g_links g) k Points (g_npoints g) L
    ltac:(discriminate) (eq_sym HLk) Hmax HL HD
    (fun x => nth x p 0 + twopi * inject_Z (m x) - nth 0 p 0)
    (fun i => nth (snd (nth i (g_links g) (0, 0)%nat)) p 0 - nth (fst (nth i (g_links g) (0, 0)%nat)) p 0
       - twopi * inject_Z (kfl f1 f2 p (fst (nth i (g_links g) (0, 0)%nat)) (snd (nth i (g_links g) (0, 0)%nat))))
    B (5 * (M + 1)) (20 * v * (M + 1)) M) as (uu & Eu & Lu & Hb).
  - rewrite Hm0. change (inject_Z 0) with 0. ring.
  - exact HB.
  - intros i a b Hi E. rewrite E. cbn [fst snd].
    assert (In (a, b) (g_links g)) as Hl by (rewrite <- E; apply nth_In; auto).
    destruct (pl_lt g Hp a b Hl) as [La Lb].
    assert (- M <= nth a p 0 <= M) as Ba by (apply HM, nth_In; lia).
    assert (- M <= nth b p 0 <= M) as Bb by (apply HM, nth_In; lia).
    repeat split.
    + specialize (Hmm a b Hl). rewrite (link_val_nth 0%Z _ k i a b) in Hmm by auto.
      assert (inject_Z (m b) - inject_Z (m a) == - inject_Z (kfl f1 f2 p a b) + inject_Z (nth i k 0%Z)) as Q1.
      { rewrite <- inject_Z_sub, Hmm, inject_Z_add, inject_Z_opp. reflexivity. }
      assert (inject_Z (nth i k 0%Z) == inject_Z (m b) - inject_Z (m a) + inject_Z (kfl f1 f2 p a b)) as Q2 by lra.
      rewrite Q2. ring.
    + apply (pd_ideal_bound f1 f2 u H1 H2 Hu M); auto.
    + apply (pd_ideal_bound f1 f2 u H1 H2 Hu M); auto.
    + unfold in_grad. rewrite E. cbn [fst snd]. rewrite (Hsame a b Hl).
      apply (pd_fl_near g1 g2 v G1 G2 Hv M); auto.
    + unfold in_grad. rewrite E. cbn [fst snd]. rewrite (Hsame a b Hl).
      apply (pd_fl_near g1 g2 v G1 G2 Hv M); auto.
  - nra.
  - unfold base. apply HM, nth_In. lia.
  - exact Heps.
  - exists uu. split; [|split; [auto|]].
    + unfold unwrap_one_fl. rewrite Er. cbn [bind]. fold (rev_or cost revcost). rewrite Ek. cbn [bind dual_solver s_graph].
      destruct Eu as [[Eu|Eu] Eu']; (split; [rewrite Eu; auto|]); intros Ht; rewrite (Eu' Ht); reflexivity.
    + intros x Hx. specialize (Hb x Hx). unfold base in Hb. unfold within. apply abs_le. fold eps in Hb. lra.
Qed.
End PointsU.

(** Residues are determined by the entries of the cycles. *)
Lemma residues_eq (r r' : list Z) n : length r = S n -> length r' = S n -> sumZ r = 0%Z -> sumZ r' = 0%Z ->
  (forall i, (i < n)%nat -> nth (i + 1) r 0%Z = nth (i + 1) r' 0%Z) -> r = r'.
Proof.
  destruct r as [|a r], r' as [|a' r']; cbn [length]; intros L L' S S' H; try lia.
  assert (r = r') as <-.
  { apply (nth_ext _ _ 0%Z 0%Z); [lia|]. intros i Hi. specialize (H i ltac:(lia)). rewrite Nat.add_1_r in H. exact H. }
  rewrite sumZ_cons in S, S'. f_equal. lia.
Qed.

Lemma exact_residue g p i : planar g -> length p = g_npoints g -> (i < length (g_cycles g))%nat ->
  rint (circQ (pd_link p) (nth i (g_cycles g) []) / twopi) = circZ (fun a b => - pdk p a b)%Z (nth i (g_cycles g) []).
Proof.
  intros Hp HL Hi. assert (In (nth i (g_cycles g) []) (g_cycles g)) as Hc by now apply nth_In.
  rewrite (rint_comp _ (inject_Z (circZ (fun a b => - pdk p a b)%Z (nth i (g_cycles g) [])))); [apply rint_inject|].
  rewrite (circ_cong (fun v => nth v p 0) (pd_link p) (fun a b => - pdk p a b)%Z).
  - pose proof twopi_lo. field. lra.
  - intros a b Hs. now apply (planar_side_neq g (nth i (g_cycles g) [])).
  - intros a b _ _. unfold pd_link, pdk. rewrite pd_eq, inject_Z_opp. ring.
Qed.

Theorem exact_unwrap smcf g p cost revcost r k m : smcf_sound smcf -> smcf_complete smcf -> planar g ->
  length p = g_npoints g -> length cost = length (g_links g) -> length (rev_or cost revcost) = length (g_links g) ->
  length r = S (length (g_cycles g)) -> sumZ r = 0%Z ->
  (forall i, (i < length (g_cycles g))%nat -> nth (i + 1) r 0%Z = circZ (fun a b => - pdk p a b)%Z (nth i (g_cycles g) [])) ->
  residues_to_flows smcf (dual_solver g) r cost (Some (rev_or cost revcost)) = Ok k ->
  cycle_map (g_links g) (fun a b => - pdk p a b + link_val 0 (g_links g) k a b)%Z m ->
  compute_residues (dual_solver g) p = Ok r /\
  exists U, unwrap_one smcf (dual_solver g) p cost revcost = Ok (U, k) /\
    length U = g_npoints g /\ forall x, (x < g_npoints g)%nat -> nth x U 0 == nth x p 0 + twopi * inject_Z (m x).
Proof.
  intros Hs Hc Hp HL HC HR HLr Hz Hr Ek [Hm0 Hm].
  destruct (compute_residues_spec g p Hp HL) as (r' & Er' & HLr' & Hz' & Hr').
  assert (r' = r) as ->.
  { apply (residues_eq _ _ (length (g_cycles g))); auto. intros i Hi. rewrite Hr, Hr' by auto. now apply exact_residue. }
  split; [auto|].
  destruct (unwrap_total smcf g p cost revcost Hs Hc Hp HL HC HR) as (U & k' & EU & _ & (LU & U0 & _ & HU)).
  pose proof EU as EU'. unfold unwrap_one in EU'. rewrite Er' in EU'. cbn [bind] in EU'. fold (rev_or cost revcost) in EU'.
  rewrite Ek in EU'. cbn [bind] in EU'. destruct (flood_fill p _ k Points) as [u0|]; cbn [bind] in EU'; [|discriminate].
  injection EU' as -> ->. exists U. split; [auto|]. split; [auto|].
  intros x Hx. pose proof (pl_conn g Hp x Hx) as R. clear Hx.
  induction R as [|y x R IH Hl].
  - rewrite U0, Hm0. change (inject_Z 0) with 0. ring.
  - assert (forall a b, In (a, b) (g_links g) ->
      nth b U 0 - nth a U 0 == nth b p 0 + twopi * inject_Z (m b) - (nth a p 0 + twopi * inject_Z (m a))) as D.
    { intros a b Hab. rewrite (HU a b Hab), pd_eq. specialize (Hm a b Hab). unfold pdk in Hm.
      assert (inject_Z (m b) - inject_Z (m a) == - inject_Z (pd_cycles (nth a p 0) (nth b p 0) 0) + inject_Z (link_val 0%Z (g_links g) k' a b)) as Q1.
      { rewrite <- inject_Z_sub, Hm, inject_Z_add, inject_Z_opp. reflexivity. }
      assert (inject_Z (link_val 0%Z (g_links g) k' a b) == inject_Z (m b) - inject_Z (m a) + inject_Z (pd_cycles (nth a p 0) (nth b p 0) 0)) as Q2 by lra.
      rewrite Q2. ring. }
    destruct Hl as [Hl|Hl]; apply D in Hl; lra.
Qed.

Section GradsU.
Context (smcf : list arc -> list Z -> option (list Z)) (Hs : smcf_sound smcf) (Hc : smcf_complete smcf).
Context (fs fe : Q -> Q) (add : Q -> Q -> Q) (w0 ws w : Q) (Hfs : rounding fs w0) (Hww : w0 <= ws) (Hws : ws <= 1 # 100) (Hadd : adds add ws).
Context (He : rounding fe w) (Hw : w <= 1 # 100).
Context (g : graph) (Hp : planar g) (n : nat) (Hn : forall c, In c (g_cycles g) -> length c = n).
Context (gr X : list Q) (HL : length gr = length (g_links g)) (HX : length X = length (g_links g)) (gamma c : Q).
Context (Hgr : forall i, (i < length (g_links g))%nat -> - gamma <= nth i gr 0 - nth i X 0 <= gamma /\ - c <= nth i X 0 <= c).
Context (Hg : 0 <= gamma <= 1) (Hc0 : 0 <= c).
Context (Hsmall : qn n * (gamma + ws * ((qn n + 1) * c + 2)) <= 1).
Context (x : nat -> Q) (q : nat -> nat -> Z) (Hq : congruent_links g X x q).
Context (Hq32 : forall a b, In (a, b) (g_links g) -> (- int32_max <= q a b <= int32_max)%Z).
Context (cost : list Z) (HC : length cost = length (g_links g)).

Theorem grads_fl_near : exists r k m,
  compute_residues_from_gradients_fl fs add (dual_solver g) gr = Ok r /\
  (forall i, (i < length (g_cycles g))%nat -> nth (i + 1) r 0%Z = circZ q (nth i (g_cycles g) [])) /\
  residues_to_flows smcf (dual_solver g) r cost None = Ok k /\
  cancels g r k /\
  cycle_map (g_links g) (fun a b => q a b + link_val 0 (g_links g) k a b)%Z m /\
  forall L B, depth_le (g_links g) (g_npoints g) L ->
    (forall y, (y < g_npoints g)%nat -> - B <= x y - x 0%nat + twopi * inject_Z (m y) <= B) ->
    let eps := gamma + w * (6 * B + 2 * c + 2) in
    (qn L + 1) * eps <= 1 ->
    exists uu, checked ((qn L + 1) * eps <= 1 # 4000) (unwrap_ifg_in_space_fl fs fe add smcf (dual_solver g) cost gr) uu /\
      length uu = g_npoints g /\
      forall y, (y < g_npoints g)%nat ->
        within (qn L * eps + w * (B + 1)) (nth y uu 0) (x y - x 0%nat + twopi * inject_Z (m y)).
Proof.
  destruct (grad_residues_fl_spec fs add w0 ws Hfs Hww Hws Hadd g Hp n Hn gr X HL HX gamma c Hgr Hg Hc0 Hsmall x q Hq)
    as (r & Er & HLr & Hz & Hr).
  assert (cancels g r (map (fun l => - q (fst l) (snd l))%Z (g_links g))) as Hk0.
  { split; [now rewrite map_length|]. intros i Hi. rewrite Hr by auto.
    rewrite (circZ_link_val g (fun a b => - q a b)%Z) by (auto; now apply nth_In). now rewrite circZ_opp. }
  assert (fits_int32 (map (fun l => - q (fst l) (snd l))%Z (g_links g))) as H32.
  { intros z Hz'. apply in_map_iff in Hz' as ([a b] & <- & Hl). cbn [fst snd]. specialize (Hq32 a b Hl). lia. }
  destruct (flows_exist smcf g r cost None _ Hc Hp HLr Hz HC HC Hk0 H32) as [k Ek].
  pose proof (flows_cancel smcf g r cost _ k Hs Hp HLr Ek) as Hk.
  destruct (cycles_at g r k q Hp Hr Hk) as [m Hm].
  exists r, k, m. do 5 (split; [auto|]). intros L B HD HB eps Heps.
  pose proof (planar_max g Hp) as Hmax. destruct Hk as [HLk _]. destruct Hm as [Hm0 Hmm].
  destruct (planar_simple g Hp) as [Hnd _].
  destruct (flood_fl_near fe w He Hw (fun _ _ => 0) gr (g_links g) k Gradients (g_npoints g) L
    ltac:(discriminate) (eq_sym HLk) Hmax HL HD
    (fun y => x y - x 0%nat + twopi * inject_Z (m y)) (fun i => nth i X 0) B c gamma 0) as (uu & Eu & Lu & Hb).
  - rewrite Hm0. change (inject_Z 0) with 0. ring.
  - exact HB.
  - intros i a b Hi E. assert (In (a, b) (g_links g)) as Hl by (rewrite <- E; apply nth_In; auto).
    destruct (Hgr i Hi) as [G1 G2]. repeat split; try lra.
    + specialize (Hmm a b Hl). rewrite (link_val_nth 0%Z _ k i a b) in Hmm by auto.
      specialize (Hq a b Hl). rewrite (link_val_nth 0 _ X i a b) in Hq by auto. rewrite Hq.
      assert (inject_Z (m b) - inject_Z (m a) == inject_Z (q a b) + inject_Z (nth i k 0%Z)) as Q1.
      { rewrite <- inject_Z_sub, Hmm, inject_Z_add. reflexivity. }
      assert (inject_Z (nth i k 0%Z) == inject_Z (m b) - inject_Z (m a) - inject_Z (q a b)) as Q2 by lra.
      rewrite Q2. ring.
    + unfold in_grad. lra.
    + unfold in_grad. lra.
  - lra.
  - unfold base. lra.
  - exact Heps.
  - exists uu. split; [|split; [auto|]].
    + unfold unwrap_ifg_in_space_fl. rewrite Er. cbn [bind]. rewrite Ek. cbn [bind dual_solver s_graph]. exact Eu.
    + intros y Hy. specialize (Hb y Hy). unfold base in Hb. unfold within. apply abs_le. fold eps in Hb. lra.
Qed.
End GradsU.
