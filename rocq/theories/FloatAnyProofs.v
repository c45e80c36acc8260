(** Rounded unwrapping of an arbitrary stack: congruence of the result. *)
From Verif Require Import Base BaseLemmas GraphModel GraphSpec McfModel McfSpec PhaseProofs DualProofs ResidueProofs FlowProofs FloodProofs UnwrapProofs Props_Mcf
  EmcfModel EmcfSpec FloatMcfModel FloatMcfSpec FloatMcfRound FloatPhaseProofs FloatFloodProofs FloatTreeProofs
  FloatCubeModel FloatBatchProofs FloatTimeProofs Props_FloatMcf Props_FloatCube FloatAnySpec.
From Coq Require Import ZifyBool.
Set Default Goal Selector "!".
Local Open Scope Q_scope.
Opaque twopi.

Lemma near_cong_le e e' y x : e <= e' -> near_cong e y x -> near_cong e' y x.
Proof. intros H [k K]. exists k. unfold within in *. lra. Qed.

(** Undoing a rounding. *)
Lemma rd_back f u x b : rounding f u -> u <= 1 # 100 -> - b <= f x <= b ->
  - ((102 # 100) * b) <= x <= (102 # 100) * b /\ - (u * ((102 # 100) * b)) <= f x - x <= u * ((102 # 100) * b).
Proof.
  intros H Hu Hb. pose proof (rd_nonneg _ _ H) as U. assert (- ((102 # 100) * b) <= x <= (102 # 100) * b) as X.
  { pose proof (rd_err f u H x) as E. assert (Qabs x <= (102 # 100) * b) as A; [|now apply abs_le].
    assert (Qabs (f x) <= b) as B by (now apply abs_le).
    assert (Qabs x <= Qabs (f x) + Qabs (f x - x)) as T.
    { setoid_replace x with (f x - (f x - x)) at 1 by ring. eapply Qle_trans; [apply Qabs_triangle|]. rewrite Qabs_opp. lra. }
    assert (u * Qabs x <= (1 # 100) * Qabs x) by (apply Qmult_le_compat_r; [exact Hu|apply Qabs_nonneg]). lra. }
  split; [exact X|]. exact (rd_bound f u H x _ X).
Qed.

(** ** Integration *)
Section Flood.
Context (fe : Q -> Q) (w : Q) (Hfe : rounding fe w) (Hw : w <= 1 # 100).
Context (pd : Q -> Q -> Q) (row : list Q) (links : list (nat * nat)) (flows : list Z) (npts L : nat) (un : list Q).
Context (HN : max_point links = Ok npts) (HL : depth_le links npts L).
Context (E : flood_fill_fl fe pd row links flows Gradients = Ok un).
Context (x : nat -> Q) (B c g : Q).
Context (HB : forall v, (v < npts)%nat -> - B <= nth v un 0 <= B).
Context (Hrow : forall n a b, (n < length links)%nat -> nth n links (0, 0)%nat = (a, b) ->
  - c <= nth n row 0 <= c /\ near_cong g (nth n row 0) (x b - x a)).

Definition any_hop : Q := g + w * (6 * B + 2 * c).

Lemma link_any n a b bg : (n < length links)%nat -> nth n links (0, 0)%nat = (a, b) ->
  let gr := nth n (link_grads_fl fe pd Gradients row links flows) 0 in
  - bg <= gr <= bg -> near_cong (g + w * ((102 # 100) * bg) + w * ((105 # 100) * bg + (102 # 100) * c)) gr (x b - x a).
Proof using Hfe Hw Hrow.
  intros Hn Ea. unfold link_grads_fl. rewrite (map_nth' _ _ _ 0%nat) by (rewrite seq_length; auto). rewrite seq_nth by auto. cbn [Nat.add]. cbv zeta.
  destruct (Hrow n a b Hn Ea) as [R1 [k R2]]. set (r := nth n row 0) in *. set (T := twopi * inject_Z (nth n flows 0%Z)). intros Hg.
  destruct (rd_back fe w _ bg Hfe Hw Hg) as [A1 A2].
  destruct (rd_back fe w T ((102 # 100) * bg + c) Hfe Hw ltac:(lra)) as [A3 A4].
  exists (k + nth n flows 0)%Z. unfold within in *. rewrite inject_Z_add, Qmult_plus_distr_r. fold T. apply abs_le in R2. apply abs_le.
  assert (0 <= w * bg) as Q0 by (apply Qmult_le_0_compat; [apply (rd_nonneg _ _ Hfe)|lra]). set (T' := fe T) in *. lra.
Qed.

Theorem flood_any : length un = npts /\ forall v, (v < npts)%nat -> near_cong (qn L * any_hop) (nth v un 0) (x v - x 0%nat).
Proof using Hfe Hw HN HL E HB Hrow.
  pose proof E as E'. unfold flood_fill_fl in E'. destruct (negb _) eqn:EF; [discriminate|]. rewrite HN in E'. cbn [bind] in E'.
  destruct (negb (length row =? length links)%nat) eqn:EI; [discriminate|]. cbv zeta in E'.
  set (grads := link_grads_fl fe pd Gradients row links flows) in *. set (adj := nbrs links grads) in *.
  destruct (ff_loop_fl fe npts adj _) as [st|] eqn:EL; [|discriminate]. cbn [bind] in E'.
  destruct (0 <? ff_err st)%nat; [discriminate|]. destruct (forallb (fun b => b) (ff_done st)) eqn:ED; [|discriminate]. cbn [negb] in E'. injection E' as E'.
  assert (length grads = length links) as LG by (unfold grads, link_grads_fl; now rewrite map_length, seq_length).
  destruct (max_point_spec links npts HN) as (K & K2 & _).
  assert (0 < npts)%nat as Hnp.
  { destruct links as [|[a b] l]; [discriminate HN|]. destruct (K a b); [now left|]. lia. }
  assert (forall i j gr, In (j, gr) (adj i) -> (j < npts)%nat) as Hadj.
  { intros i j gr H. apply nbrs_In in H as (n & a & b & Hn & En & H); [|exact LG].
    destruct (K a b) as [K1 K3]; [rewrite <- En; now apply nth_In|]. destruct H as [(_ & <- & _)|(_ & <- & _)]; auto. }
  assert (forall i j, In (i, j) links \/ In (j, i) links -> exists gr, In (j, gr) (adj i)) as Hnb.
  { intros i j [H|H]; apply (In_nth _ _ (0, 0)%nat) in H as (n & Hn & En).
    - exists (nth n grads 0%Q). apply nbrs_In; [exact LG|]. exists n, i, j. split; [auto|]. split; [exact En|]. left. auto.
    - exists (- nth n grads 0)%Q. apply nbrs_In; [exact LG|]. exists n, j, i. split; [auto|]. split; [exact En|]. right. auto. }
  pose proof (loop_done_length fe links adj npts L Hadj Hnb HL Hnp st EL) as Ld.
  assert (forall v, (v < npts)%nat -> isdone st v) as Hd.
  { intros v Hv. rewrite forallb_forall in ED. apply ED, nth_In. lia. }
  destruct (flood_loop_tree fe links adj npts L Hadj Hnb HL Hnp st EL Hd) as (Lu & dep & D0 & V0 & DL & HT).
  rewrite E' in Lu. unfold val in V0, HT. rewrite E' in V0, HT. split; [exact Lu|].
  pose proof (rd_nonneg _ _ Hfe) as W. assert (0 <= B) as B0 by (specialize (HB 0%nat Hnp); lra). assert (0 <= w * B) as WB by (now apply Qmult_le_0_compat).
  assert (0 <= any_hop) as H0.
  { unfold any_hop. destruct links as [|[a b] l] eqn:Elinks; [discriminate HN|]. destruct (Hrow 0%nat a b ltac:(cbn; lia) eq_refl) as [R1 [k R2]].
    unfold within in R2. pose proof (Qabs_nonneg (nth 0 row 0 - (x b - x a + twopi * inject_Z k))).
    assert (0 <= w * c) by (apply Qmult_le_0_compat; lra). lra. }
  assert (forall d v, dep v = d -> (v < npts)%nat -> near_cong (qn d * any_hop) (nth v un 0) (x v - x 0%nat)) as HD.
  { induction d as [d IH] using lt_wf_ind. intros v Ed Hv. destruct (Nat.eq_dec v 0) as [->|N].
    - exists 0%Z. unfold within. apply abs_le. change (inject_Z 0) with 0.
      assert (0 <= qn d * any_hop) by (apply Qmult_le_0_compat; [apply qn_nonneg|exact H0]). lra.
    - destruct (HT v Hv N) as (i & gr & Hi & Hin & Edep & Ev).
      destruct (IH (dep i) ltac:(lia) i eq_refl Hi) as [ki Ki].
      replace d with (S (dep i)) by lia.
      pose proof (HB v Hv) as Bv. pose proof (HB i Hi) as Bi. rewrite Ev in Bv.
      destruct (rd_back fe w _ B Hfe Hw Bv) as [A1 A2]. rewrite <- Ev in A2.
      assert (near_cong (g + w * ((9 # 2) * B + 2 * c)) gr (x v - x i)) as [kg Kg].
      { assert (- ((202 # 100) * B) <= gr <= (202 # 100) * B) as Bg by lra.
        apply nbrs_In in Hin as (n & a & b & Hn & En & H); [|exact LG].
        assert (forall gr', - ((202 # 100) * B) <= gr' <= (202 # 100) * B -> gr' = nth n grads 0 ->
          near_cong (g + w * ((9 # 2) * B + 2 * c)) gr' (x b - x a)) as G.
        { intros gr' Bg' ->. eapply near_cong_le; [|apply (link_any n a b ((202 # 100) * B) Hn En Bg')].
          destruct (Hrow n a b Hn En) as [R1 _]. assert (0 <= w * c) by (apply Qmult_le_0_compat; lra). lra. }
        destruct H as [(<- & <- & ->)|(<- & <- & ->)]; [now apply G|].
        destruct (G (nth n grads 0) ltac:(lra) eq_refl) as [k Kk]. exists (- k)%Z. unfold within in *. apply abs_le in Kk. apply abs_le.
        rewrite inject_Z_opp. set (z := inject_Z k) in *. clearbody z. lra. }
      exists (ki + kg)%Z. unfold within in *. rewrite qn_S, inject_Z_add. apply abs_le in Ki, Kg. apply abs_le.
      assert ((qn (dep i) + 1) * any_hop == qn (dep i) * any_hop + any_hop) as -> by ring. set (e := qn (dep i) * any_hop) in *.
      set (z1 := inject_Z ki) in *. set (z2 := inject_Z kg) in *. clearbody e z1 z2. unfold any_hop. clear - A2 Ki Kg WB. lra. }
  intros v Hv. eapply near_cong_le; [|apply (HD (dep v) v eq_refl Hv)].
  apply Qmult_le_compat_r; [|exact H0]. apply qn_le, DL, Hv.
Qed.
End Flood.

(** ** Flows *)
Lemma dir_small g i : planar g -> (Z.abs (nth i (map fst (s_dir (dual_solver g))) 0) <= 1)%Z.
Proof.
  intros Hp. destruct (Nat.lt_ge_cases i (length (g_links g))) as [Hi|Hi].
  - rewrite (map_nth' _ _ _ (0, 0)%Z) by (rewrite (proj2 (dual_length g)); exact Hi). destruct (dual_nth g i Hi) as [_ ->]. cbn [use_row snd fst].
    pose proof (nth_In _ (0, 0)%nat Hi) as Il. destruct (nth i (g_links g) (0, 0)%nat) as [a b]. cbn [fst snd].
    destruct (nth_in_or_default 0 (uses g a b) (0%nat, 0%Z)) as [I| ->]; [|cbn; lia].
    destruct (nth 0 (uses g a b) (0%nat, 0%Z)) as [c d]. cbn [snd]. apply uses_In in I as (n & _ & _ & H); [lia|]. now apply (planar_simple g Hp).
  - rewrite nth_overflow; [lia|]. rewrite map_length, (proj2 (dual_length g)). exact Hi.
Qed.

Lemma ok_inj {A} (a b : A) : Ok a = Ok b -> a = b.
Proof. congruence. Qed.
Lemma flows_small smcf K g r cost rc k : planar g -> (0 <= K)%Z -> flows_within K smcf ->
  residues_to_flows smcf (dual_solver g) r cost rc = Ok k ->
  length k = length (g_links g) /\ forall i, (Z.abs (nth i k 0) <= K)%Z.
Proof.
  intros Hp HK Hs E. unfold residues_to_flows in E. destruct (forallb _ r).
  - injection E as <-. split; [apply repeat_length|]. intros i. match goal with |- context [nth i ?l _] => destruct (nth_in_or_default i l 0%Z) as [I|I] end; [|rewrite I; lia].
    apply repeat_spec in I. rewrite I. lia.
  - unfold solve_mcf in E. destruct (negb _); [discriminate|]. destruct (negb _); [discriminate|].
    destruct (smcf _ r) as [f|] eqn:Ef; [|discriminate]. apply ok_inj in E as <-. rewrite (proj1 (dual_length g)), map_length, seq_length. split; [reflexivity|].
    assert (forall j, (0 <= nth j f 0 <= K)%Z) as Hf.
    { intros j. destruct (nth_in_or_default j f 0%Z) as [I| ->]; [|lia]. eapply Hs; eauto. }
    intros i. destruct (Nat.lt_ge_cases i (length (g_links g))) as [Hi|Hi].
    + rewrite (map_nth' _ _ _ 0%nat) by (rewrite seq_length; exact Hi). rewrite seq_nth by exact Hi. cbn [Nat.add].
      pose proof (dir_small g i Hp) as D. pose proof (Hf i). pose proof (Hf (i + length (g_links g))%nat). set (d := nth i (map fst _) 0%Z) in *.
      set (x := nth (i + _) f 0%Z) in *. set (y := nth i f 0%Z) in *. clearbody d x y.
      assert (d = -1 \/ d = 0 \/ d = 1)%Z as [->|[->| ->]] by lia; lia.
    + rewrite nth_overflow; [lia|]. now rewrite map_length, seq_length.
Qed.

(** Error of the interferometric gradients of the links, for at most [K] cycles
    per link; and of the unwrapped phases, when they are at most [B]. *)
Definition any_link (u w M K : Q) : Q := grad_err u w M (5 + 7 * K).
Definition any_cube (u w M K B : Q) (L : nat) : Q := num L * (any_link u w M K + w * (7 * B + 2 * (7 + 8 * K))) + 2 * u * B.

Section Cube.
Context (F : formats) (u w : Q) (HF : formats_ok F u w) (M : Q) (HM0 : 0 <= M) (Hu : 200 * u * (M + 1) <= 1) (Hw : w <= 1 # 100).
Context (smcf : list arc -> list Z -> option (list Z)) (K : Z) (HK : (0 <= K)%Z) (Hs : flows_within K smcf).
Context (gs gt : graph) (Hps : planar gs) (Hpt : planar gt) (e : emcf) (Es : em_space e = dual_solver gs) (Et : em_time e = dual_solver gt).
Context (tsched : nat -> list nat -> list nat) (ssched : list nat -> list nat) (cpu : Z).
Context (Ht : forall b l, Permutation (tsched b l) l) (Hss : forall l, Permutation (ssched l) l) (Hlpb : (0 < links_per_batch (em_set e))%nat).
Context (is_ifg : bool) (data : list (list Q)) (HM : forall row x, In row data -> In x row -> - M <= x <= M).
Notation ph := (ifg_phase is_ifg (g_links gt) data).
Notation q := (inject_Z K).

Lemma K_pos : 0 <= q.
Proof. change 0 with (inject_Z 0). now rewrite <- Zle_Qle. Qed.

Lemma em_links_is : em_links e = g_links gs.
Proof. unfold em_links. now rewrite Es. Qed.
Lemma em_ifgs_is : em_ifgs e = g_links gt.
Proof. unfold em_ifgs. now rewrite Et. Qed.

Lemma time_any G : unwrap_gradients_in_time_fl F smcf tsched cpu e is_ifg data = Ok G ->
  length G = length (g_links gs) /\
  forall i a b n, (i < length (g_links gs))%nat -> nth i (g_links gs) (0, 0)%nat = (a, b) -> (n < length (g_links gt))%nat ->
    let v := nth n (nth i G []) 0 in
    - (7 + 8 * q) <= v <= 7 + 8 * q /\ near_cong (any_link u w M q) v (ph n b - ph n a).
Proof using HF HM0 Hu Hw HK Hs Hps Hpt Es Et Ht Hlpb HM.
  intros E. assert (exists cost, pick_cost (t_cost_type (em_set e)) (length (em_ifgs e)) (em_tdist e) (em_tcent e) = Ok cost) as [cost Ec].
  { unfold unwrap_gradients_in_time_fl in E. destruct (pick_cost _ _ _ _) as [c|]; [eauto|discriminate]. }
  destruct (in_time_sound_fl F smcf tsched cpu e is_ifg data cost Ht Ec Hlpb G E) as [L H]. rewrite em_links_is in L, H. split; [exact L|].
  intros i a b n Hi Eab Hn. specialize (H i Hi). unfold link_out_fl in H. cbv zeta in H. rewrite em_links_is, em_ifgs_is, Eab, Et in H.
  destruct (residues_to_flows _ _ _ _ _) as [k|] eqn:Ek; [|discriminate]. cbn [bind] in H. apply ok_inj in H.
  destruct (flows_small smcf K gt _ _ _ k Hpt HK Hs Ek) as [Lk Bk]. destruct HF as [F1 F2 F3 F4 F5 F6 F7].
  cbv zeta. rewrite <- H. set (col := link_column_fl F is_ifg (g_links gt) data (a, b)) in *.
  assert (length col = length (g_links gt)) as Lc by apply col_length.
  rewrite (map_nth' _ _ _ (0, 0%Z)) by (rewrite combine_length; lia). rewrite combine_nth by lia. cbn [fst snd].
  pose proof K_pos as K0. pose proof twopi_hi as T1. pose proof twopi_lo as T2. specialize (Bk n). set (kn := nth n k 0%Z) in *.
  assert (- (7 * q) <= twopi * inject_Z kn <= 7 * q) as BT.
  { assert (- q <= inject_Z kn <= q) as A by (rewrite <- inject_Z_opp, <- !Zle_Qle; lia). clearbody kn. set (z := inject_Z kn) in *. clearbody z. clear -A K0 T1 T2. nra. }
  destruct (col_near F u F1 F2 F3 M HM0 Hu is_ifg (g_links gt) data HM a b n Hn) as (C1 & C2 & C3).
  pose proof (shift_near F u w F1 F2 F3 F4 F6 M HM0 Hu Hw is_ifg (g_links gt) data HM a b n kn (5 + 7 * q) Hn ltac:(lra)) as S1. cbv zeta in S1. fold col in S1.
  set (X := ideal F is_ifg (g_links gt) data a b n) in *. set (sh := shift_fl F _ kn) in *.
  assert (gam u w M (5 + 7 * q) = any_link u w M q) as Eg by reflexivity. rewrite Eg in S1. split.
  - pose proof (rd_nonneg _ _ F1) as U0. pose proof (rd_nonneg _ _ F4) as W0. assert (0 <= u * M) as UM by (now apply Qmult_le_0_compat).
    assert (any_link u w M q <= 1 + (1 # 2) * q) as A.
    { unfold any_link, grad_err, diff_err. assert (u * q <= (1 # 200) * q) by (apply Qmult_le_compat_r; lra). assert (w * q <= (1 # 100) * q) by (apply Qmult_le_compat_r; lra). lra. }
    lra.
  - exists (kn - taken F is_ifg (g_links gt) data n a b)%Z. unfold within. rewrite inject_Z_sub. apply abs_le.
    unfold X, ideal in S1. set (z1 := inject_Z kn) in *. set (z2 := inject_Z (taken _ _ _ _ _ _ _)) in *. clearbody z1 z2. lra.
Qed.

Lemma cube_any c0 U L : cu_data c0 = data -> classify e c0 = Ok is_ifg -> unwrap_cube_fl F smcf tsched ssched cpu e c0 = Ok U ->
  depth_le (g_links gs) (g_npoints gs) L ->
  length U = length (g_links gt) /\
  forall n, (n < length (g_links gt))%nat -> length (nth n U []) = g_npoints gs /\
    forall B, (forall y, In y (nth n U []) -> - B <= y <= B) ->
    forall v, (v < g_npoints gs)%nat -> near_cong (any_cube u w M q B L) (nth v (nth n U []) 0) (ph n v - ph n 0%nat).
Proof using HF HM0 Hu Hw HK Hs Hps Hpt Es Et Ht Hss Hlpb HM.
  intros Ed Ecl E HD. unfold unwrap_cube_fl in E. rewrite Ecl, Ed in E. cbn [bind] in E.
  destruct (unwrap_gradients_in_time_fl _ _ _ _ _ _ _) as [G|] eqn:EG; [|discriminate]. cbn [bind] in E. apply time_any in EG as [LG HG].
  assert (exists cost, pick_cost (s_cost_type (em_set e)) (length (em_links e)) (em_sdist e) (em_scent e) = Ok cost /\
    (1 <= space_workers (s_worker_count (em_set e)) cpu)%Z) as (cost & Ec & Hsw).
  { unfold unwrap_gradients_in_space_fl in E. destruct (pick_cost _ _ _ _) as [c|]; [|discriminate]. cbn [bind] in E. exists c. split; [reflexivity|].
    destruct (Z.leb_spec (space_workers (s_worker_count (em_set e)) cpu) 0); [discriminate|lia]. }
  apply (in_space_ok_fl F smcf ssched cpu e G cost Hss Ec Hsw) in E as [LU HU]. rewrite em_ifgs_is in LU, HU. split; [exact LU|].
  intros n Hn. specialize (HU n Hn). set (row := map (fun col => nth n col 0) G) in *.
  unfold unwrap_ifg_in_space_fl in HU. rewrite Es in HU.
  destruct (compute_residues_from_gradients_fl _ _ _ _) as [r|]; [|discriminate]. cbn [bind] in HU.
  destruct (residues_to_flows _ _ _ _ _) as [k|]; [|discriminate]. cbn [bind] in HU. cbn [dual_solver s_graph] in HU.
  destruct (flood_fill_fl _ _ _ _ _ _) as [un|] eqn:EF; [|discriminate]. cbn [bind] in HU. apply ok_inj in HU. rewrite <- HU, map_length.
  destruct HF as [F1 F2 F3 F4 F5 F6 F7]. pose proof (rd_nonneg _ _ F1) as U0. pose proof (rd_nonneg _ _ F4) as W0. pose proof K_pos as K0.
  assert (0 <= u * M) as UM by (now apply Qmult_le_0_compat).
  assert (forall B, (forall v, (v < g_npoints gs)%nat -> - B <= nth v un 0 <= B) -> length un = g_npoints gs /\
    forall v, (v < g_npoints gs)%nat -> near_cong (qn L * any_hop w B (7 + 8 * q) (any_link u w M q)) (nth v un 0) (ph n v - ph n 0%nat)) as A.
  { intros B HB. apply (flood_any (f_e F) w F4 Hw (fun _ _ => 0) row (g_links gs) k (g_npoints gs) L un (planar_max gs Hps) HD EF (ph n) B (7 + 8 * q) (any_link u w M q) HB).
    intros i a b Hi Eab. unfold row. rewrite (map_nth' _ _ _ []) by lia. now apply (HG i a b n). }
  assert (length un = g_npoints gs) as Lun.
  { set (mx := fold_right (fun y m => Qabs y + m) 0 un). apply (A mx). intros v _. apply abs_le.
    assert (forall l, 0 <= fold_right (fun y m => Qabs y + m) 0 l) as P0 by (induction l as [|y l IH]; cbn [fold_right]; [lra|pose proof (Qabs_nonneg y); lra]).
    unfold mx. clear - P0. revert v. induction un as [|y l IH]; intros [|v]; cbn [nth fold_right].
    - change (Qabs 0) with 0. lra.
    - change (Qabs 0) with 0. lra.
    - pose proof (P0 l). lra.
    - pose proof (Qabs_nonneg y). specialize (IH v). lra. }
  split; [exact Lun|]. intros B HB v Hv.
  assert (forall v, (v < g_npoints gs)%nat -> - B <= f_s F (nth v un 0) <= B) as HB'.
  { intros v' Hv'. apply HB. apply in_map, nth_In. lia. }
  assert (u <= 1 # 100) as Hu1 by lra.
  destruct (A ((102 # 100) * B)) as [_ A2].
  { intros v' Hv'. apply (rd_back _ _ _ _ F3 Hu1 (HB' v' Hv')). }
  rewrite (map_nth' _ _ _ 0) by lia. destruct (rd_back _ _ _ _ F3 Hu1 (HB' v Hv)) as [_ R]. destruct (A2 v Hv) as [z Z]. exists z. unfold within in *.
  apply abs_le in Z. apply abs_le. unfold any_cube.
  assert (0 <= B) as B0 by (specialize (HB' v Hv); lra). assert (0 <= u * B) as UB by (now apply Qmult_le_0_compat). assert (0 <= w * B) as WB by (now apply Qmult_le_0_compat).
  assert (qn L * any_hop w ((102 # 100) * B) (7 + 8 * q) (any_link u w M q) <= num L * (any_link u w M q + w * (7 * B + 2 * (7 + 8 * q)))) as S1.
  { unfold num. rewrite !(Qmult_comm (qn L)). apply Qmult_le_compat_r; [|apply qn_nonneg]. unfold any_hop. lra. }
  set (X := qn L * any_hop _ _ _ _) in *. set (Y := num L * _) in *. clearbody X Y. lra.
Qed.
End Cube.
