(** Rounded unwrapping: residues, flows and integration together. *)
From Verif Require Import Base BaseLemmas GraphModel GraphSpec GraphProofs McfModel McfSpec PhaseProofs DualProofs
  ResidueProofs FlowProofs FloodProofs UnwrapProofs FloatMcfModel FloatMcfSpec FloatMcfRound FloatPhaseProofs
  FloatFloodProofs.
From Coq Require Import ZifyBool.
Set Default Goal Selector "!".
Local Open Scope nat_scope.

Lemma hops_reach links n v : hops links n v -> reach links 0 v.
Proof. induction 1 as [|n w v _ IH H]; [constructor|]. apply reach_step with w; auto. Qed.

Section FF.
Context (fe : Q -> Q) (w : Q) (Hfe : rounding fe w) (Hw : (w <= 1 # 100)%Q) (pd : Q -> Q -> Q).
Context (indata : list Q) (links : list (nat * nat)) (flows : list Z) (m : mode) (npts L : nat).
Context (Hm : m <> OtherMode) (HF : length links = length flows) (HN : max_point links = Ok npts)
        (HI : length indata = match m with Gradients => length links | _ => npts end).
Context (HL : depth_le links npts L).
Context (psi : nat -> Q) (X : nat -> Q) (B c gamma M : Q).
Definition in_grad (n : nat) : Q :=
  match m with
  | Points => pd (nth (fst (nth n links (0, 0))) indata 0%Q) (nth (snd (nth n links (0, 0))) indata 0%Q)
  | _ => nth n indata 0%Q
  end.
Context (Hpsi0 : (psi 0%nat == 0)%Q) (HB : forall v, v < npts -> (- B <= psi v <= B)%Q)
  (HX : forall n a b, n < length links -> nth n links (0, 0) = (a, b) ->
     (X n + twopi * inject_Z (nth n flows 0%Z) == psi b - psi a /\ - c <= X n <= c /\
      - gamma <= in_grad n - X n <= gamma)%Q)
  (Hgam : (0 <= gamma)%Q) (HM : (- M <= base indata m <= M)%Q).
Let eps : Q := (gamma + w * (6 * B + 2 * c + 2))%Q.
Context (HLe : ((qn L + 1) * eps <= 1)%Q).

Lemma npts_pos : 0 < npts.
Proof. apply (max_point_spec links); auto. Qed.

Lemma links_fl_length : length (link_grads_fl fe pd m indata links flows) = length links.
Proof. unfold link_grads_fl. now rewrite map_length, seq_length. Qed.

Lemma eps_ok : (0 <= B /\ 0 <= w /\ 0 <= c /\ gamma <= 1 /\ 0 <= w * B /\ 0 <= w * c)%Q.
Proof.
  pose proof (HB 0 npts_pos). assert (0 <= B)%Q by lra. pose proof (rd_nonneg fe w Hfe) as W.
  assert (0 <= c)%Q.
  { destruct (max_point_spec links npts HN) as (_ & _ & Hne). destruct links as [|[a b] t] eqn:E; [contradiction|].
    destruct (HX 0 a b) as (_ & K & _); [cbn; lia|reflexivity|]. lra. }
  assert (0 <= w * B /\ 0 <= w * c)%Q by (split; nra).
  pose proof (qn_nonneg L). assert (0 <= eps)%Q by (unfold eps; lra).
  assert (eps <= (qn L + 1) * eps)%Q by nra. unfold eps in *. repeat split; lra.
Qed.

Lemma grads_near n a b : n < length links -> nth n links (0, 0) = (a, b) ->
  let g := nth n (link_grads_fl fe pd m indata links flows) 0%Q in
  let e := (gamma + w * (5 * B + 2 * c + 1))%Q in
  (- e <= g - (psi b - psi a) <= e)%Q.
Proof.
  intros Hn E. destruct (HX n a b Hn E) as (E1 & E2 & E3). destruct eps_ok as (B0 & W0 & C0 & G1 & WB & WC).
  assert (In (a, b) links) as Hl by (rewrite <- E; now apply nth_In).
  destruct (max_point_spec links npts HN) as (K & _ & _). destruct (K a b Hl) as [Ka Kb].
  pose proof (HB a Ka) as Ba. pose proof (HB b Kb) as Bb.
  cbv zeta. unfold link_grads_fl. rewrite (map_nth' _ _ n 0) by (rewrite seq_length; auto).
  rewrite seq_nth by auto. cbn [Nat.add]. fold (in_grad n).
  set (T := (twopi * inject_Z (nth n flows 0%Z))%Q) in *. set (x := in_grad n) in *.
  clearbody T x. assert (- (2 * B + c) <= T <= 2 * B + c)%Q as HT by lra.
  pose proof (rd_bound fe w Hfe T _ HT) as R1. set (T' := fe T) in *. clearbody T'.
  assert (w * (2 * B + c) <= (2 * B + c) * (1 # 100))%Q as S1 by nra.
  pose proof (rd_bound fe w Hfe (x + T') (3 * B + c + 1)%Q ltac:(lra)) as R2.
  set (g := fe (x + T')%Q) in *. clearbody g. lra.
Qed.

(** The result, if the closure check passes, as it does for a small error. *)
Theorem flood_fl_near : exists u,
  checked ((qn L + 1) * eps <= 1 # 4000)%Q (flood_fill_fl fe pd indata links flows m) u /\ length u = npts /\
  forall v, v < npts ->
    (- (qn L * eps + w * (B + M + 1)) <= nth v u 0 - (psi v + base indata m) <= qn L * eps + w * (B + M + 1))%Q.
Proof.
  destruct eps_ok as (B0 & W0 & C0 & G1 & WB & WC). pose proof npts_pos as Hnp.
  set (grads := link_grads_fl fe pd m indata links flows).
  set (adj := nbrs links grads).
  pose proof links_fl_length as LG. fold grads in LG.
  destruct (max_point_spec links npts HN) as (K & _ & _).
  assert (forall i j gr, In (j, gr) (adj i) -> j < npts) as Hadj.
  { intros i j gr H. apply nbrs_In in H as (n & a & b & Hn & E & H); [|exact LG].
    destruct (K a b) as [K1 K2]; [rewrite <- E; now apply nth_In|]. destruct H as [(_ & <- & _)|(_ & <- & _)]; auto. }
  assert (forall i j, In (i, j) links \/ In (j, i) links -> exists gr, In (j, gr) (adj i)) as Hnb.
  { intros i j [H|H]; apply (In_nth _ _ (0, 0)) in H as (n & Hn & E).
    - exists (nth n grads 0%Q). apply nbrs_In; [exact LG|]. exists n, i, j. split; [auto|]. split; [exact E|]. left. auto.
    - exists (- nth n grads 0)%Q. apply nbrs_In; [exact LG|]. exists n, j, i. split; [auto|]. split; [exact E|]. right. auto. }
  set (g1 := (gamma + w * (5 * B + 2 * c + 1))%Q).
  assert (forall i j gr, i < npts -> In (j, gr) (adj i) -> (- g1 <= gr - (psi j - psi i) <= g1)%Q) as Hg.
  { intros i j gr _ H. apply nbrs_In in H as (n & a & b & Hn & E & H); [|exact LG].
    pose proof (grads_near n a b Hn E) as G. cbv zeta in G. fold grads g1 in G.
    destruct H as [(<- & <- & ->)|(<- & <- & ->)]; lra. }
  assert (g1 + w * (B + 1) == eps)%Q as Eeps by (unfold g1, eps; ring).
  destruct (flood_loop_near fe w Hfe Hw links adj npts L Hadj Hnb HL Hnp psi B g1 Hpsi0 HB Hg)
    as (st & E & He & L1 & L2 & Hd & Hv).
  - unfold g1. lra.
  - rewrite Eeps. exact HLe.
  - intros v Hv. destruct (HL v Hv) as (n & _ & Hh). eapply hops_reach; eauto.
  - rewrite Eeps in He.
    assert (flood_fill_fl fe pd indata links flows m
      = if 0 <? ff_err st then Err ValueError
        else Ok (match m with Points => map (fun x => fe (x + nth 0 indata 0)%Q) (ff_unw st) | _ => ff_unw st end)) as EF.
    { unfold flood_fill_fl. rewrite (proj2 (Nat.eqb_eq _ _) HF). cbn [negb]. rewrite HN. cbn [bind].
      fold grads. fold adj. pose proof (proj2 (all_done indata links flows m npts HF HI st L1) Hd) as EA.
      clear -HI Hm E EA. unfold adj, grads in *. clear adj grads.
      destruct m; [| |contradiction];
        rewrite HI, Nat.eqb_refl; cbn [negb]; rewrite E; cbn [bind]; rewrite EA; reflexivity. }
    eexists. split.
    { split; [rewrite EF; destruct (0 <? ff_err st); auto|]. intros Ht. rewrite EF, (He Ht). reflexivity. }
    assert (0 <= w * M)%Q as WM by nra.
    assert (forall v, v < npts -> (- (qn L * eps) <= nth v (ff_unw st) 0%Q - psi v <= qn L * eps)%Q) as Hv'.
    { intros v Hlt. specialize (Hv v Hlt). rewrite Eeps in Hv. exact Hv. }
    assert (qn L * eps <= 1)%Q as Hsm.
    { assert (0 <= eps)%Q by (unfold eps; lra). lra. }
    clear -Hm Hfe Hv' L2 HM HB WM WB W0 Hsm.
    destruct m; [| |contradiction].
    + split; [now rewrite map_length|]. intros v Hlt. rewrite (map_nth' _ _ v 0%Q) by lia.
      specialize (Hv' v Hlt). specialize (HB v Hlt). unfold base in *.
      set (x := nth v (ff_unw st) 0%Q) in *. set (p := nth 0 indata 0%Q) in *. clearbody x p.
      pose proof (rd_bound fe w Hfe (x + p) (B + M + 1)%Q ltac:(lra)) as R. lra.
    + split; auto. intros v Hlt. specialize (Hv' v Hlt). unfold base. lra.
Qed.
End FF.
