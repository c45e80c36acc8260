From Verif Require Import Base BaseLemmas McfModel McfSpec GraphModel GraphSpec.
From Coq Require Import ZifyBool.
Set Default Goal Selector "!".
Local Open Scope Q_scope.

Lemma twopi_mul_div x : twopi * (x / twopi) == x.
Proof. field. apply twopi_nz. Qed.
Lemma div_twopi_mul x : x * twopi / twopi == x.
Proof. field. apply twopi_nz. Qed.
Lemma div_twopi_mul' x : twopi * x / twopi == x.
Proof. field. apply twopi_nz. Qed.

(** Number of cycles removed. *)
Definition pd_cycles (p0 p1 m : Q) : Z := rint ((p1 - p0 - m) / twopi).

Lemma pd_eq p0 p1 m : phase_diff p0 p1 m == p1 - p0 - twopi * inject_Z (pd_cycles p0 p1 m).
Proof. unfold phase_diff, pd_cycles. ring. Qed.

Lemma pd_cong p0 p1 m : cong2pi (phase_diff p0 p1 m) (p1 - p0).
Proof. exists (- pd_cycles p0 p1 m)%Z. rewrite pd_eq, inject_Z_opp. ring. Qed.

Lemma pd_near p0 p1 m : - half <= phase_diff p0 p1 m - m <= half.
Proof.
  rewrite pd_eq. unfold pd_cycles, half. set (x := (p1 - p0 - m) / twopi).
  assert (p1 - p0 - m == twopi * x) as E by (unfold x; now rewrite twopi_mul_div).
  pose proof (rint_bound x) as [H1 H2]. pose proof twopi_pos as Hp.
  set (r := inject_Z (rint x)) in *.
  assert (p1 - p0 - twopi * r - m == twopi * (x - r)) as -> by lra.
  split; nra.
Qed.

(** A congruent value strictly within half a cycle of the model is the result. *)
Lemma pd_unique p0 p1 m x : cong2pi x (p1 - p0) -> - half < x - m < half -> phase_diff p0 p1 m == x.
Proof.
  intros [k Hk] [H1 H2]. rewrite pd_eq. unfold pd_cycles. pose proof twopi_pos as Hp. unfold half in *.
  assert (rint ((p1 - p0 - m) / twopi) = (- k)%Z) as ->; [|rewrite Hk, inject_Z_opp; ring].
  apply rint_unique. rewrite inject_Z_opp.
  assert ((p1 - p0 - m) / twopi - - inject_Z k == (x - m) / twopi) as ->.
  { rewrite Hk. field. apply twopi_nz. }
  split.
  - apply Qlt_shift_div_l; lra.
  - apply Qlt_shift_div_r; lra.
Qed.

Lemma pd_shift p0 p1 m k0 k1 : ~ tie p0 p1 m ->
  phase_diff (p0 + twopi * inject_Z k0) (p1 + twopi * inject_Z k1) m == phase_diff p0 p1 m.
Proof.
  intros H. rewrite !pd_eq. unfold pd_cycles.
  assert ((p1 + twopi * inject_Z k1 - (p0 + twopi * inject_Z k0) - m) / twopi
    == (p1 - p0 - m) / twopi + inject_Z (k1 - k0)) as ->.
  { rewrite inject_Z_sub. field. apply twopi_nz. }
  rewrite rint_add_notie.
  - rewrite inject_Z_add, inject_Z_sub. ring.
  - intros [j Hj]. apply H. exists j. rewrite <- Hj. now rewrite twopi_mul_div.
Qed.

Lemma pd_cycles_swap p0 p1 : pd_cycles p1 p0 0 = (- pd_cycles p0 p1 0)%Z.
Proof.
  unfold pd_cycles. rewrite <- rint_opp. apply rint_comp. field. apply twopi_nz.
Qed.

Lemma pd_swap p0 p1 : phase_diff p1 p0 0 == - phase_diff p0 p1 0.
Proof. rewrite !pd_eq, pd_cycles_swap, inject_Z_opp. ring. Qed.

Lemma pd_cycles_bound p0 p1 (M : Z) :
  - (twopi * inject_Z M) <= p1 - p0 <= twopi * inject_Z M -> (- M <= pd_cycles p0 p1 0 <= M)%Z.
Proof.
  intros [H1 H2]. unfold pd_cycles. set (x := (p1 - p0 - 0) / twopi).
  assert (p1 - p0 == twopi * x) as E by (unfold x; rewrite twopi_mul_div; ring).
  pose proof twopi_pos as Hp.
  assert (x <= inject_Z M) as A by nra. assert (- inject_Z M <= x) as B by nra.
  pose proof (rint_bound x) as [H3 H4].
  assert (rint x < M + 1)%Z.
  { apply inject_Z_lt_iff. rewrite inject_Z_add. change (inject_Z 1) with 1. lra. }
  assert (- M - 1 < rint x)%Z.
  { apply inject_Z_lt_iff. rewrite inject_Z_sub, inject_Z_opp. change (inject_Z 1) with 1. lra. }
  lia.
Qed.
