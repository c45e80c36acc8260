(** Property C62: what rounding does to residues, flows and integration.
    [rounding f u]: f rounds with relative error at most u (FloatMcfSpec.v). *)
From Verif Require Import Base BaseLemmas GraphModel GraphSpec GraphProofs Hop3Proofs Reg2DProofs
  McfModel McfSpec PhaseProofs DualProofs ResidueProofs FlowProofs FloodProofs UnwrapProofs OracleProofs Props_Mcf
  FloatModel FloatMcfModel FloatMcfSpec FloatMcfRound FloatPhaseProofs FloatResidueProofs FloatUnwrapProofs.
From Coq Require Import ZifyBool.
Set Default Goal Selector "!".
Local Open Scope Q_scope.

(** Number of links or sides, as a rational. *)
Definition num (n : nat) : Q := inject_Z (Z.of_nat n).

(** Error per link: phases up to [M], results up to [B] from point 0; unit
    roundoff [v] of the differences, [w] of the sums. *)
Definition link_err (v w M B : Q) : Q := 20 * v * (M + 1) + w * (6 * B + 2 * (5 * (M + 1)) + 2).
(** Error after [L] links. *)
Definition path_err (v w M B : Q) (L : nat) : Q := num L * link_err v w M B + w * (B + M + 1).
(** Cycles of [n] sides are rounded to the right number of turns. *)
Definition turns_ok (u w M : Q) (n : nat) : Prop :=
  num n * (20 * u * (M + 1) + w * ((num n + 1) * (5 * (M + 1)) + 2)) <= 1.

(** ** The formats of the code round *)
Theorem C62_formats : rounding rnd32 (pow2 (-(24))) /\ rounding rnd64 (pow2 (-(53))) /\ rounding (fun x => x) 0.
Proof. exact (conj rnd32_rounding (conj rnd64_rounding id_rounding)). Qed.
Example C62_formats_witness :
  rnd32 (1 # 10) == 13421773 # 134217728 /\ rnd32 16777217 == 16777216 /\ rnd64 (1 # 10) == 3602879701896397 # 36028797018963968 /\
  rnd32 (-(16777219)) == -(16777220) /\ pow2 (-(24)) == 1 # 16777216.
Proof. vm_compute. repeat split; reflexivity. Qed.

(** ** Points
    The residues are turns of the cycles, they can be cancelled, and unless the
    result itself is large the integration accepts them: every link of the
    integration closes, and each point ends within [path_err] of its phase plus
    whole cycles. The same rounding is used for arrays and for scalars. With
    larger errors the integration may reject the flows, but what it returns is
    still within [path_err]. *)
Theorem C62_points : forall smcf f1 f2 fe u w g s p M n cost revcost, smcf_sound smcf -> smcf_complete smcf ->
  rounding f1 u -> rounding f2 u -> rounding fe w -> u <= 1 # 100 -> w <= 1 # 100 ->
  planar g -> make_solver g = Ok s -> length p = g_npoints g ->
  (forall x, In x p -> - M <= x <= M) -> M <= 1000000000 ->
  (forall c, In c (g_cycles g) -> length c = n) -> turns_ok u w M n ->
  length cost = length (g_links g) -> length (rev_or cost revcost) = length (g_links g) ->
  exists r k m,
    compute_residues_fl f1 f2 fe s p = Ok r /\
    residues_to_flows smcf s r cost (Some (rev_or cost revcost)) = Ok k /\ cancels g r k /\
    (m 0%nat = 0%Z /\ forall a b, In (a, b) (g_links g) ->
       Qabs (nth b p 0 - nth a p 0 + twopi * inject_Z (m b - m a - link_val 0%Z (g_links g) k a b)) <= half + 13 * u * M) /\
    forall L B, depth_le (g_links g) (g_npoints g) L ->
      (forall x, (x < g_npoints g)%nat -> - B <= nth x p 0 + twopi * inject_Z (m x) - nth 0 p 0 <= B) ->
      (num L + 1) * link_err u w M B <= 1 ->
      exists uu, checked ((num L + 1) * link_err u w M B <= 1 # 4000) (unwrap_one_fl f1 f2 f1 f2 fe smcf s p cost revcost) (uu, k) /\
        length uu = g_npoints g /\
        forall x, (x < g_npoints g)%nat -> within (path_err u w M B L) (nth x uu 0) (nth x p 0 + twopi * inject_Z (m x)).
Proof.
  intros smcf f1 f2 fe u w g s p M n cost revcost Hs Hc H1 H2 He Hu Hw Hp Hm HL HM HM9 Hn Hsm HC HR.
  rewrite (solver_of g s Hp Hm). clear s Hm.
  destruct (unwrap_fl_near smcf Hs Hc f1 f2 f1 f2 fe u u w H1 H2 H1 H2 He Hu Hu Hw g Hp p HL M HM HM9 n Hn Hsm cost revcost HC HR
    (fun _ _ _ => eq_refl)) as (r & k & m & Er & _ & _ & _ & Ek & Hk & [Hm0 Hm] & Hall).
  exists r, k, m. do 3 (split; [auto|]). split; [split; [auto|]|exact Hall].
  intros a b Hl. rewrite (Hm a b Hl). destruct (pl_lt g Hp a b Hl) as [La Lb].
  assert (nth b p 0 - nth a p 0 + twopi * inject_Z (- kfl f1 f2 p a b + link_val 0%Z (g_links g) k a b - link_val 0%Z (g_links g) k a b)
    == nth b p 0 - nth a p 0 - twopi * inject_Z (kfl f1 f2 p a b)) as ->.
  { replace (- kfl f1 f2 p a b + link_val 0%Z (g_links g) k a b - link_val 0%Z (g_links g) k a b)%Z with (- kfl f1 f2 p a b)%Z by lia.
    rewrite inject_Z_opp. ring. }
  apply near_half; auto; apply HM, nth_In; lia.
Qed.

(** ** Off half cycles
    When no difference of linked phases is within rounding of half a cycle, the
    rounded computation has the residues and the flows of the exact one, and its
    values differ by rounding only. The formats of arrays and scalars may then
    differ. *)
Theorem C62_off_tie : forall smcf f1 f2 g1 g2 fe u v w g s p M n cost revcost, smcf_sound smcf -> smcf_complete smcf ->
  rounding f1 u -> rounding f2 u -> rounding g1 v -> rounding g2 v -> rounding fe w ->
  u <= 1 # 100 -> v <= 1 # 100 -> w <= 1 # 100 ->
  planar g -> make_solver g = Ok s -> length p = g_npoints g ->
  (forall x, In x p -> - M <= x <= M) -> M <= 1000000000 ->
  (forall c, In c (g_cycles g) -> length c = n) -> turns_ok u w M n ->
  length cost = length (g_links g) -> length (rev_or cost revcost) = length (g_links g) ->
  (forall a b, In (a, b) (g_links g) -> off_tie (13 * u * M) (nth a p 0) (nth b p 0) /\ off_tie (13 * v * M) (nth a p 0) (nth b p 0)) ->
  compute_residues_fl f1 f2 fe s p = compute_residues s p /\
  exists U k, unwrap_one smcf s p cost revcost = Ok (U, k) /\
    forall L B, depth_le (g_links g) (g_npoints g) L ->
      (forall x, (x < g_npoints g)%nat -> - B <= nth x U 0 - nth 0 U 0 <= B) ->
      (num L + 1) * link_err v w M B <= 1 ->
      exists uu, checked ((num L + 1) * link_err v w M B <= 1 # 4000) (unwrap_one_fl f1 f2 g1 g2 fe smcf s p cost revcost) (uu, k) /\
        length uu = g_npoints g /\
        forall x, (x < g_npoints g)%nat -> within (path_err v w M B L) (nth x uu 0) (nth x U 0).
Proof.
  intros smcf f1 f2 g1 g2 fe u v w g s p M n cost revcost Hs Hc H1 H2 G1 G2 He Hu Hv Hw Hp Hm HL HM HM9 Hn Hsm HC HR Ht.
  rewrite (solver_of g s Hp Hm). clear s Hm.
  assert (forall a b, In (a, b) (g_links g) -> - M <= nth a p 0 <= M /\ - M <= nth b p 0 <= M) as HM'.
  { intros a b Hl. destruct (pl_lt g Hp a b Hl) as [La Lb]. split; apply HM, nth_In; lia. }
  assert (forall a b, In (a, b) (g_links g) -> kfl f1 f2 p a b = pdk p a b) as E1.
  { intros a b Hl. destruct (HM' a b Hl). apply (cycles_off_tie f1 f2 u H1 H2 Hu M); auto. now apply Ht. }
  assert (forall a b, In (a, b) (g_links g) -> kfl g1 g2 p a b = pdk p a b) as E2.
  { intros a b Hl. destruct (HM' a b Hl). apply (cycles_off_tie g1 g2 v G1 G2 Hv M); auto. now apply Ht. }
  destruct (unwrap_fl_near smcf Hs Hc f1 f2 g1 g2 fe u v w H1 H2 G1 G2 He Hu Hv Hw g Hp p HL M HM HM9 n Hn Hsm cost revcost HC HR)
    as (r & k & m & Er & Hr & HLr & Hz & Ek & Hk & [Hm0 Hm] & Hall).
  { intros a b Hl. now rewrite E1, E2. }
  destruct (exact_unwrap smcf g p cost revcost r k m Hs Hc Hp HL HC HR HLr Hz) as (Er' & U & EU & LU & HU); auto.
  { intros i Hi. rewrite (Hr i Hi). unfold circZ. apply sumZ_map_ext. intros [a b] Hsd. cbn [fst snd].
    assert (In (nth i (g_cycles g) []) (g_cycles g)) as Hcc by now apply nth_In.
    pose proof (planar_side_neq g _ a b Hp Hcc Hsd) as Hne. unfold alongZ. destruct (Nat.ltb_spec a b).
    - rewrite E1; [reflexivity|]. eapply planar_side_link; eauto.
    - rewrite E1; [reflexivity|]. eapply planar_side_link; eauto. lia. }
  { split; [auto|]. intros a b Hl. rewrite (Hm a b Hl). now rewrite E1. }
  split; [now rewrite Er, Er'|]. exists U, k. split; [auto|]. intros L B HD HB Heps.
  destruct (max_point_spec _ _ (planar_max g Hp)) as (_ & Hpos & _).
  destruct (Hall L B HD) as (uu & Eu & Lu & Hw').
  - intros x Hx. specialize (HB x Hx). rewrite (HU x Hx), (HU 0%nat Hpos), Hm0 in HB.
    change (inject_Z 0) with 0 in HB. lra.
  - exact Heps.
  - exists uu. split; [auto|]. split; [auto|]. intros x Hx. specialize (Hw' x Hx). unfold within in *.
    rewrite (HU x Hx). exact Hw'.
Qed.

(** ** Gradients
    Link gradients [gr] within [gamma] of [X], which are differences of [x] up to
    [q] whole cycles. *)
Theorem C62_gradients : forall smcf fs fe add w0 ws w g s n gr X gamma c x q cost, smcf_sound smcf -> smcf_complete smcf ->
  rounding fs w0 -> w0 <= ws -> ws <= 1 # 100 -> adds add ws -> rounding fe w -> w <= 1 # 100 ->
  planar g -> make_solver g = Ok s -> (forall c, In c (g_cycles g) -> length c = n) ->
  length gr = length (g_links g) -> length X = length (g_links g) ->
  (forall i, (i < length (g_links g))%nat -> - gamma <= nth i gr 0 - nth i X 0 <= gamma /\ - c <= nth i X 0 <= c) ->
  0 <= gamma <= 1 -> 0 <= c -> num n * (gamma + ws * ((num n + 1) * c + 2)) <= 1 ->
  (forall a b, In (a, b) (g_links g) -> link_val 0 (g_links g) X a b == x b - x a + twopi * inject_Z (q a b) /\
     (- int32_max <= q a b <= int32_max)%Z) ->
  length cost = length (g_links g) ->
  exists r k m,
    compute_residues_from_gradients_fl fs add s gr = Ok r /\
    (forall i, (i < length (g_cycles g))%nat -> nth (i + 1) r 0%Z = circZ q (nth i (g_cycles g) [])) /\
    residues_to_flows smcf s r cost None = Ok k /\ cancels g r k /\
    (m 0%nat = 0%Z /\ forall a b, In (a, b) (g_links g) -> (m b - m a = q a b + link_val 0%Z (g_links g) k a b)%Z) /\
    forall L B, depth_le (g_links g) (g_npoints g) L ->
      (forall y, (y < g_npoints g)%nat -> - B <= x y - x 0%nat + twopi * inject_Z (m y) <= B) ->
      (num L + 1) * (gamma + w * (6 * B + 2 * c + 2)) <= 1 ->
      exists uu, checked ((num L + 1) * (gamma + w * (6 * B + 2 * c + 2)) <= 1 # 4000) (unwrap_ifg_in_space_fl fs fe add smcf s cost gr) uu /\ length uu = g_npoints g /\
        forall y, (y < g_npoints g)%nat ->
          within (num L * (gamma + w * (6 * B + 2 * c + 2)) + w * (B + 1)) (nth y uu 0) (x y - x 0%nat + twopi * inject_Z (m y)).
Proof.
  intros smcf fs fe add w0 ws w g s n gr X gamma c x q cost Hs Hc Hfs Hww Hws Hadd He Hw Hp Hm Hn HL HX Hgr Hg Hc0 Hsm Hq HC.
  rewrite (solver_of g s Hp Hm). clear s Hm.
  destruct (grads_fl_near smcf Hs Hc fs fe add w0 ws w Hfs Hww Hws Hadd He Hw g Hp n Hn gr X HL HX gamma c Hgr Hg Hc0 Hsm x q)
    with (cost := cost) as (r & k & m & Er & Hr & Ek & Hk & Hmm & Hall); auto.
  - intros a b Hl. now apply Hq.
  - intros a b Hl. now apply Hq.
  - exists r, k, m. do 5 (split; [auto|]). exact Hall.
Qed.

(** ** Double precision: angles on grids and triangulations *)
Theorem C62_binary64 : forall smcf g s p cost revcost, smcf_sound smcf -> smcf_complete smcf ->
  planar g -> make_solver g = Ok s -> length p = g_npoints g -> (forall x, In x p -> - (4) <= x <= 4) ->
  (forall c, In c (g_cycles g) -> length c = 3%nat) \/ (forall c, In c (g_cycles g) -> length c = 4%nat) ->
  length cost = length (g_links g) -> length (rev_or cost revcost) = length (g_links g) ->
  exists r k m,
    compute_residues_fl rnd64 rnd64 rnd64 s p = Ok r /\
    residues_to_flows smcf s r cost (Some (rev_or cost revcost)) = Ok k /\ cancels g r k /\ m 0%nat = 0%Z /\
    (depth_le (g_links g) (g_npoints g) (1000 * 1000) ->
     (forall x, (x < g_npoints g)%nat -> - (100000) <= nth x p 0 + twopi * inject_Z (m x) - nth 0 p 0 <= 100000) ->
     exists uu, unwrap_one_fl rnd64 rnd64 rnd64 rnd64 rnd64 smcf s p cost revcost = Ok (uu, k) /\
       length uu = g_npoints g /\
       forall x, (x < g_npoints g)%nat -> within (1 # 10000) (nth x uu 0) (nth x p 0 + twopi * inject_Z (m x))).
Proof.
  intros smcf g s p cost revcost Hs Hc Hp Hm HL HM Hn HC HR.
  assert (pow2 (-(53)) == 1 # 9007199254740992) as E53 by (vm_compute; reflexivity).
  assert (exists n, (n <= 4)%nat /\ forall c, In c (g_cycles g) -> length c = n) as (n & Hn4 & Hn')
    by (destruct Hn; [exists 3%nat|exists 4%nat]; auto).
  assert (turns_ok (pow2 (-(53))) (pow2 (-(53))) 4 n) as Hsm.
  { unfold turns_ok, num. rewrite E53. do 5 (destruct n as [|n]; [cbv; discriminate|]). lia. }
  destruct (C62_points smcf rnd64 rnd64 rnd64 _ _ g s p 4 n cost revcost Hs Hc rnd64_rounding rnd64_rounding rnd64_rounding
    ltac:(rewrite E53; lra) ltac:(rewrite E53; lra) Hp Hm HL HM ltac:(lra) Hn' Hsm HC HR)
    as (r & k & m & Er & Ek & Hk & [Hm0 _] & Hall).
  exists r, k, m. do 4 (split; [auto|]). intros HD HB.
  assert (num (1000 * 1000) == 1000000) as EN.
  { unfold num. rewrite Nat2Z.inj_mul. reflexivity. }
  destruct (Hall (1000 * 1000)%nat 100000 HD HB) as (uu & Eu & Lu & Hw).
  { unfold link_err. rewrite EN, E53. lra. }
  destruct Eu as [_ Eu]. exists uu. split; [apply Eu; unfold link_err; rewrite EN, E53; lra|]. split; [auto|]. intros x Hx. specialize (Hw x Hx). unfold within in *.
  eapply Qle_trans; [exact Hw|]. unfold path_err, link_err. rewrite EN, E53. lra.
Qed.

(** A grid with a residue, in single and in double precision. *)
Definition show (r : res (list Q * list Z)) : option (list Q * list Z) :=
  match r with Ok (u, k) => Some (map (fun x => inject_Z (rint (1000 * x))) u, k) | Err _ => None end.
Example C62_witness :
  (show (unwrap_one_fl rnd32 rnd32 rnd32 rnd32 rnd64 (fixed_flow [0; 0; 0; 0; 0; 1; 0; 0]%Z) s22 p22 [3; 1; 3; 3]%Z None),
   show (unwrap_one_fl rnd64 rnd64 rnd64 rnd64 rnd64 (fixed_flow [0; 0; 0; 0; 0; 1; 0; 0]%Z) s22 p22 [3; 1; 3; 3]%Z None))
  = (Some ([0; 2000; -2000; 4000], [0; 1; 0; 0]%Z), Some ([0; 2000; -2000; 4000], [0; 1; 0; 0]%Z))
  /\ compute_residues_fl rnd32 rnd32 rnd64 s22 p22 = Ok [1; -1]%Z.
Proof. split; vm_compute; reflexivity. Qed.

Lemma g22_depth : depth_le (g_links g22) (g_npoints g22) 2.
Proof.
  assert (hops (g_links g22) 0 0) as H0 by constructor.
  assert (hops (g_links g22) 1 1) as H1 by (eapply hops_S; [exact H0|]; left; cbn; tauto).
  assert (hops (g_links g22) 1 2) as H2 by (eapply hops_S; [exact H0|]; left; cbn; tauto).
  assert (hops (g_links g22) 2 3) as H3 by (eapply hops_S; [exact H1|]; left; cbn; tauto).
  intros v Hv. cbn in Hv. destruct v as [|[|[|[|v]]]]; [exists 0%nat|exists 1%nat|exists 1%nat|exists 2%nat|lia]; auto.
Qed.
Lemma pow2_24 : pow2 (-(24)) == 1 # 16777216. Proof. vm_compute. reflexivity. Qed.
Lemma pow2_53 : pow2 (-(53)) == 1 # 9007199254740992. Proof. vm_compute. reflexivity. Qed.

(** All hypotheses of [C62_off_tie] hold for single precision arrays, NumPy 1
    scalars and the following angles; the error is then at most 1e-4. *)
Definition a22 : list Q := [3; -(3); 2; -(3)].
Example C62_nonvacuous : exists U uu,
  unwrap_one brute s22 a22 [3; 1; 3; 3]%Z None = Ok (U, [0; 0; 0; 0]%Z) /\ map Qred U = map Qred [3; twopi - 3; 2; twopi - 3] /\
  unwrap_one_fl rnd32 rnd32 rnd32 rnd64 rnd64 brute s22 a22 [3; 1; 3; 3]%Z None = Ok (uu, [0; 0; 0; 0]%Z) /\
  forall x, (x < 4)%nat -> within (1 # 10000) (nth x uu 0) (nth x U 0).
Proof.
  assert (rounding rnd64 (pow2 (-(24)))) as R64.
  { destruct rnd64_rounding as [E O Er]. constructor; auto. intros x. eapply Qle_trans; [apply Er|].
    apply Qmult_le_compat_r; [rewrite pow2_24, pow2_53; lra|apply Qabs_nonneg]. }
  destruct (C62_off_tie brute rnd32 rnd32 rnd32 rnd64 rnd64 (pow2 (-(24))) (pow2 (-(24))) (pow2 (-(53))) g22 s22 a22 4 4 [3; 1; 3; 3]%Z None
    brute_sound brute_complete rnd32_rounding rnd32_rounding rnd32_rounding R64 rnd64_rounding) as (_ & U & k & EU & Hall);
    try (rewrite ?pow2_24, ?pow2_53; lra); try reflexivity.
  - exact g22_planar.
  - intros x Hx. cbn in Hx. repeat destruct Hx as [<-|Hx]; [lra|lra|lra|lra|destruct Hx].
  - intros c Hc. cbn in Hc. destruct Hc as [<-|[]]. reflexivity.
  - unfold turns_ok, num. rewrite pow2_24, pow2_53. cbv. discriminate.
  - assert (forall d, Qabs d <= 6 -> (1 # 100) < Qabs (Qabs d - twopi * (1 # 2)) ->
      forall j : Z, 13 * pow2 (-(24)) * 4 < Qabs (d - twopi * (inject_Z j + (1 # 2)))) as Far.
    { intros d Hd Hf j. rewrite pow2_24. pose proof twopi_lo as T. pose proof twopi_hi as T'.
      apply Qnot_le_lt. intros K. apply abs_le in K. apply abs_le in Hd. apply Qlt_not_le in Hf. apply Hf.
      assert (j = 0 \/ j = -1 \/ 1 <= j \/ j <= -2)%Z as [-> | [-> | [J|J]]] by lia.
      - change (inject_Z 0) with 0 in K. rewrite (Qabs_pos d) by lra. apply abs_le. lra.
      - change (inject_Z (-1)) with (-(1)) in K. rewrite (Qabs_neg d) by lra. apply abs_le. lra.
      - exfalso. rewrite <- inject_Z_le_iff in J. change (inject_Z 1) with 1 in J.
        assert (0 <= (twopi - 6) * (inject_Z j - 1)) by (apply Qmult_le_0_compat; lra). lra.
      - exfalso. rewrite <- inject_Z_le_iff in J. change (inject_Z (-2)) with (-(2)) in J.
        assert (0 <= (twopi - 6) * (- (2) - inject_Z j)) by (apply Qmult_le_0_compat; lra). lra. }
    intros a b Hl. cbn in Hl.
    repeat destruct Hl as [E|Hl]; try (injection E as <- <-); try destruct Hl;
      split; intros j; apply Far; vm_compute; first [reflexivity|discriminate].
  - assert (exists V, unwrap_one brute s22 a22 [3; 1; 3; 3]%Z None = Ok (V, [0; 0; 0; 0]%Z) /\
      map Qred V = map Qred [3; twopi - 3; 2; twopi - 3]) as (V & EV & HV).
    { eexists. split; vm_compute; reflexivity. }
    rewrite EU in EV. injection EV as -> ->.
    assert (forall x, (x < 4)%nat -> nth x V 0 == nth x [3; twopi - 3; 2; twopi - 3] 0) as HV'.
    { intros x Hx. rewrite <- (Qred_correct (nth x V 0)), <- (map_nth Qred V 0 x). change (Qred 0) with 0.
      rewrite HV, <- (Qred_correct (nth x [_; _; _; _] 0)), <- (map_nth Qred _ 0 x). reflexivity. }
    destruct (Hall 2%nat 4 g22_depth) as (uu & E1 & _ & E2).
    + intros x Hx. cbn [g22 g_npoints] in Hx. rewrite !HV' by lia. pose proof twopi_lo. pose proof twopi_hi.
      destruct x as [|[|[|[|x]]]]; cbn [nth]; try lra. lia.
    + unfold link_err. rewrite pow2_24, pow2_53. change (num 2) with 2. lra.
    + destruct E1 as [_ E1].
      assert (unwrap_one_fl rnd32 rnd32 rnd32 rnd64 rnd64 brute s22 a22 [3; 1; 3; 3]%Z None = Ok (uu, [0; 0; 0; 0]%Z)) as E3.
      { apply E1. unfold link_err. rewrite pow2_24, pow2_53. change (num 2) with 2. lra. }
      exists V, uu. do 3 (split; [auto|]). intros x Hx. specialize (E2 x Hx). unfold within in *. eapply Qle_trans; [exact E2|].
      unfold path_err, link_err. rewrite pow2_24, pow2_53. change (num 2) with 2. lra.
Qed.

(** ** What fails
    With NumPy 1 and complex64 samples the residues round in float32 and the
    integration in float64. Samples 1, -1, e^{i/2}, e^i: the difference between
    the first two is half a cycle, removed by one and kept by the other, and the
    integration rejects flows that are right for the residues. *)
Definition t22 : list Q := [0; rnd32 (twopi / 2); 1 # 2; 1].
Theorem C62_mixed_refuted :
  (forall smcf, unwrap_one_fl rnd32 rnd32 rnd32 rnd64 rnd64 smcf s22 t22 [1; 1; 1; 1]%Z None = Err ValueError) /\
  (forall smcf, exists uu, unwrap_one_fl rnd32 rnd32 rnd32 rnd32 rnd64 smcf s22 t22 [1; 1; 1; 1]%Z None = Ok (uu, [0; 0; 0; 0]%Z)) /\
  compute_residues_fl rnd32 rnd32 rnd64 s22 t22 = Ok [0; 0]%Z.
Proof.
  split; [|split]; [intros smcf; vm_compute; reflexivity|intros smcf; eexists; vm_compute; reflexivity|vm_compute; reflexivity].
Qed.

(** Differences of points that close exactly, but not once stored as float32
    (_solver.py:161), because they are large. *)
Definition x22 : list Q := [0; 16384 + (3 # 2048); 16384 + (1 # 2048); 32768 + (2 # 2048)].
Definition d22 : list Q := map (fun l => nth (snd l) x22 0 - nth (fst l) x22 0) (g_links g22).
Theorem C62_float32_gradients_refuted :
  (forall smcf, unwrap_ifg_in_space_fl rnd32 rnd64 (fun a v => rnd32 (a + v)) smcf s22 [1; 1; 1; 1]%Z (map rnd32 d22) = Err ValueError) /\
  (forall smcf, exists uu, unwrap_ifg_in_space_fl rnd32 rnd64 (fun a v => rnd32 (a + v)) smcf s22 [1; 1; 1; 1]%Z d22 = Ok uu /\
     map Qred uu = map Qred x22) /\
  (forall x, In x d22 -> Qabs (rnd32 x - x) <= 1 # 2000).
Proof.
  split; [intros smcf; vm_compute; reflexivity|]. split.
  - intros smcf. eexists. split; vm_compute; reflexivity.
  - intros x Hx. vm_compute in Hx. repeat destruct Hx as [<-|Hx]; [vm_compute; discriminate..|destruct Hx].
Qed.

(** Small gradients stored as float32 meet the hypotheses. *)
Example C62_gradients_nonvacuous : exists uu,
  unwrap_ifg_in_space_fl rnd32 rnd64 (fun a v => rnd32 (a + v)) brute s22 [1; 1; 1; 1]%Z (map rnd32 [10 # 3; 7 # 3; 1 # 3; - (2 # 3)]) = Ok uu /\
  forall y, (y < 4)%nat -> within (1 # 1000) (nth y uu 0) (nth y [0; 10 # 3; 1 # 3; 8 # 3] 0).
Proof.
  set (X := [10 # 3; 7 # 3; 1 # 3; - (2 # 3)]). set (x := fun y => nth y [0; 10 # 3; 1 # 3; 8 # 3] 0).
  destruct (C62_gradients brute rnd32 rnd64 (fun a v => rnd32 (a + v)) (pow2 (-(24))) (pow2 (-(24))) (pow2 (-(53))) g22 s22 4
    (map rnd32 X) X (1 # 1000000) 4 x (fun _ _ => 0%Z) [1; 1; 1; 1]%Z brute_sound brute_complete rnd32_rounding)
    as (r & k & m & Er & Hr & Ek & Hk & [Hm0 Hm] & Hall);
    try (rewrite ?pow2_24, ?pow2_53; lra); try reflexivity.
  - exact (rounding_adds rnd32 _ rnd32_rounding).
  - exact rnd64_rounding.
  - exact g22_planar.
  - intros c Hc. cbn in Hc. destruct Hc as [<-|[]]. reflexivity.
  - intros i Hi. cbn in Hi. destruct i as [|[|[|[|i]]]]; [vm_compute; repeat split; discriminate..|lia].
  - rewrite pow2_24. cbv. discriminate.
  - intros a b Hl. cbn in Hl. split; [|unfold int32_max; lia].
    repeat destruct Hl as [E|Hl]; try (injection E as <- <-); try destruct Hl; vm_compute; reflexivity.
  - assert (k = [0; 0; 0; 0]%Z) as ->.
    { assert (r = [0; 0]%Z) as -> by (vm_compute in Er; congruence). vm_compute in Ek. congruence. }
    assert (m 1%nat = 0%Z /\ m 2%nat = 0%Z /\ m 3%nat = 0%Z) as (M1 & M2 & M3).
    { pose proof (Hm 0%nat 1%nat ltac:(cbn; tauto)) as K1. pose proof (Hm 0%nat 2%nat ltac:(cbn; tauto)) as K2.
      pose proof (Hm 1%nat 3%nat ltac:(cbn; tauto)) as K3. cbn in K1, K2, K3. lia. }
    assert (forall y, (y < 4)%nat -> x y - x 0%nat + twopi * inject_Z (m y) == x y) as Hx.
    { intros y Hy. destruct y as [|[|[|[|y]]]]; [rewrite Hm0|rewrite M1|rewrite M2|rewrite M3|lia];
        change (inject_Z 0) with 0; change (x 0%nat) with 0; ring. }
    destruct (Hall 2%nat 4 g22_depth) as (uu & E1 & _ & E2).
    + intros y Hy. rewrite Hx by auto. cbn [g22 g_npoints] in Hy.
      destruct y as [|[|[|[|y]]]]; unfold x; cbn [nth]; try lra. lia.
    + rewrite pow2_53. change (num 2) with 2. lra.
    + exists uu. split; [apply E1; rewrite pow2_53; change (num 2) with 2; lra|]. intros y Hy. specialize (E2 y Hy). unfold within in *. rewrite Hx in E2 by auto.
      eapply Qle_trans; [exact E2|]. rewrite pow2_53. change (num 2) with 2. lra.
Qed.

Print Assumptions C62_formats.
Print Assumptions C62_points.
Print Assumptions C62_off_tie.
Print Assumptions C62_gradients.
Print Assumptions C62_binary64.
Print Assumptions C62_mixed_refuted.
Print Assumptions C62_float32_gradients_refuted.
