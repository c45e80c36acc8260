(** C78: how close the grid search comes when the truth is not on the grid. *)
From Coq Require Import Reals.
From Verif Require Import Base BaseLemmas LinksModel LinkGridModel LinksSpec LinkGridSpec LinksProofs LinkGridProofs Props_Links.
From Coq Require Import Lra ZifyBool Sorted.
Import ListNotations.
Set Default Goal Selector "!".
Local Open Scope R_scope.

(** The points tried are exactly the combinations of values of the ranges. *)
Theorem C78_points rg g : Forall usable rg -> In g (mgrid rg) <-> on_grid rg g.
Proof. apply mgrid_on. Qed.

(** Trying them all and finishing from the best one meets the contract that C57
    asks of the search. *)
Theorem C78_search fmin : fmin_contract fmin ->
  brute_contract (fun rg g => Forall usable rg /\ on_grid rg g) (grid_brute fmin).
Proof.
  intros F a rg b w x v E. unfold grid_brute in E.
  destruct (map_res _ (mgrid rg)) as [vals|] eqn:M; [|discriminate]. cbn [bind] in E.
  destruct (best vals) as [p|] eqn:B; [|discriminate].
  apply F in E as [Ev Le]. apply best_least in B as [I L].
  destruct (map_res_all _ _ _ M) as [M1 M2].
  split; [exact (neg_ok_length _ _ _ _ _ Ev)|]. split; [exact Ev|].
  intros g u [U G] Eu.
  destruct (M1 p I) as (x0 & _ & E0). destruct (neg_temporal_coherence x0 a b w) as [v0|] eqn:N0; [|discriminate].
  cbn [bind] in E0. injection E0 as <-. cbn [fst snd] in *. specialize (Le v0 N0).
  apply mgrid_on in G; [|exact U]. destruct (M2 g G) as (q & Hq & Eq). rewrite Eu in Eq. cbn [bind] in Eq.
  injection Eq as <-. specialize (L _ Hq). cbn [snd] in L. lra.
Qed.

(** The finishing search starts from the best point, the first in alphabetical order
    if there are several. *)
Theorem C78_start fmin a rg b w r : Forall rising rg -> grid_brute fmin a rg b w = Ok r ->
  exists g u, on_grid rg g /\ neg_temporal_coherence g a b w = Ok u /\
    fmin (fun x => neg_temporal_coherence x a b w) g = Ok r /\
    forall h, on_grid rg h -> exists v, neg_temporal_coherence h a b w = Ok v /\ u <= v /\ (lex h g -> u < v).
Proof.
  intros Ri E. assert (U : Forall usable rg).
  { eapply Forall_impl; [|exact Ri]. intros [|]; cbn; tauto. }
  unfold grid_brute in E. set (f := fun x => neg_temporal_coherence x a b w) in *.
  destruct (map_res _ (mgrid rg)) as [vals|] eqn:M; [|discriminate]. cbn [bind] in E.
  destruct (best vals) as [[g u]|] eqn:B; [|discriminate]. cbn [fst] in E.
  assert (V : vals = map (fun x => (x, match f x with Ok v => v | Err _ => 0 end)) (mgrid rg) /\
    forall x, In x (mgrid rg) -> exists v, f x = Ok v).
  { clear -M. revert vals M. induction (mgrid rg) as [|x l IH]; cbn [map_res map]; intros vals M.
    - injection M as <-. split; [reflexivity|intros ? []].
    - fold (f x) in M. destruct (f x) as [v|] eqn:Ex; [|discriminate]. cbn [bind] in M.
      destruct (map_res _ l) as [t|] eqn:Et; [|discriminate]. cbn [bind] in M. injection M as <-.
      destruct (IH t eq_refl) as [-> O]. split; [reflexivity|].
      intros y [<-|Hy]; [exists v; exact Ex|apply O, Hy]. }
  destruct V as [V O]. pose proof (mgrid_sorted rg Ri) as So.
  destruct (best_first _ _ B) as (l1 & l2 & Es & A1 & A2). rewrite V in Es. clear V M B.
  apply map_eq_app in Es as (g1 & g2 & Eg & <- & Es). destruct g2 as [|g' g2]; [discriminate|].
  cbn [map] in Es. injection Es as <- <- <-. cbn [snd] in *.
  assert (Ig : In g' (mgrid rg)) by (rewrite Eg; apply in_elt).
  destruct (O g' Ig) as [u Eu]. rewrite Eu in *.
  exists g', u. split; [apply mgrid_on; assumption|]. split; [exact Eu|]. split; [exact E|].
  intros h Hh. apply mgrid_on in Hh; [|exact U]. destruct (O h Hh) as [v Ev]. exists v. split; [exact Ev|].
  assert (Irr : forall x, ~ lex x x) by (induction x; cbn; [tauto|intros [L|[_ L]]; [lra|tauto]]).
  assert (Asy : forall x y, lex x y -> ~ lex y x).
  { induction x as [|p x IH]; intros [|q y]; cbn; try tauto. intros [L|[-> L]] [K|[K1 K2]]; try lra. apply (IH y); assumption. }
  rewrite Eg in Hh. apply in_app_or in Hh as [Hh|[<-|Hh]].
  - assert (L : u < v); [|split; [lra|intros _; exact L]].
    specialize (A1 (h, v)). cbn in A1. apply A1. apply in_map_iff. exists h. rewrite Ev. split; [reflexivity|exact Hh].
  - rewrite Eu in Ev. injection Ev as <-. split; [lra|]. intros K. destruct (Irr _ K).
  - split.
    + specialize (A2 (h, v)). cbn in A2. apply A2. apply in_map_iff. exists h. rewrite Ev. split; [reflexivity|exact Hh].
    + intros K. exfalso. rewrite Eg in So. clear -So Hh K Asy. induction g1 as [|x g1 IH]; cbn in So.
      * inversion So as [|? ? _ F]; subst. rewrite Forall_forall in F. apply (Asy _ _ K), F, Hh.
      * inversion So as [|? ? So' _]; subst. apply IH, So'.
Qed.

(** A search over at least one point comes back, if [fmin] does. *)
Theorem C78_returns fmin m b w g :
  (forall f x0 u, f x0 = Ok u -> exists r, fmin f x0 = Ok r) ->
  shaped (lm_matrix m) -> length b = nobs m -> (0 < nobs m)%nat ->
  per_observation (effective m w) (nobs m) ->
  length (lm_ranges m) = ndim m -> Forall usable (lm_ranges m) -> on_grid (lm_ranges m) g ->
  exists r, estimate_model (grid_brute fmin) m b w = Ok r.
Proof.
  intros F S Lb Pos P Lr U G.
  assert (M : exists r, grid_brute fmin (lm_matrix m) (lm_ranges m) b (effective m w) = Ok r).
  { unfold grid_brute.
    assert (V : forall y, In y (mgrid (lm_ranges m)) -> exists v, neg_temporal_coherence y (lm_matrix m) b (effective m w) = Ok v).
    { intros y Hy. apply mgrid_on in Hy; [|exact U]. eexists. apply C52_value. split; [exact S|].
      split; [|split; [exact Lb|exact P]]. unfold ndim in Lr. rewrite <- Lr. clear -Hy. induction Hy; cbn; congruence. }
    apply mgrid_on in G; [|exact U].
    assert (R : exists vals, map_res (fun x => do v <- neg_temporal_coherence x (lm_matrix m) b (effective m w); Ok (x, v))
      (mgrid (lm_ranges m)) = Ok vals).
    { clear G. induction (mgrid (lm_ranges m)) as [|y l IH]; cbn [map_res]; [eexists; reflexivity|].
      destruct (V y (or_introl eq_refl)) as [v ->]. cbn [bind].
      destruct IH as [vals ->]; [intros z Hz; apply V; right; exact Hz|]. cbn [bind]. eexists. reflexivity. }
    destruct R as [vals R]. rewrite R. cbn [bind].
    destruct (map_res_all _ _ _ R) as [M1 M2]. destruct (best vals) as [p|] eqn:B.
    - apply best_least in B as [I _]. destruct (M1 p I) as (x0 & H0 & E0). destruct (V x0 H0) as [v0 N0].
      rewrite N0 in E0. cbn [bind] in E0. injection E0 as <-. apply (F _ _ v0), N0.
    - apply best_none in B as ->. destruct (M2 g G) as (q & [] & _). }
  destruct M as [[x v] M]. unfold estimate_model, solve, default_weights.
  destruct w as [[c|l|q]|]; cbn [effective bind] in *.
  - rewrite M. cbn. eexists. reflexivity.
  - cbn in P. rewrite (proj2 (Nat.eqb_eq _ _)) by congruence. rewrite M. cbn. eexists. reflexivity.
  - destruct P.
  - destruct (Nat.eqb_spec (nobs m) 0) as [Z|Z]; [lia|]. cbn [bind]. rewrite M. cbn. eexists. reflexivity.
Qed.

(** A range without values makes it fail. *)
Theorem C78_empty fmin m b w : Forall usable (lm_ranges m) -> (forall g, ~ on_grid (lm_ranges m) g) ->
  length b = nobs m -> (0 < nobs m)%nat ->
  estimate_model (grid_brute fmin) m b w = Err ValueError.
Proof.
  intros U N Lb Pos.
  assert (Z : forall w', solve (grid_brute fmin) (lm_matrix m) (lm_ranges m) b w' = Err ValueError).
  { intros w'. unfold solve, grid_brute. destruct (mgrid (lm_ranges m)) as [|g l] eqn:E; [reflexivity|].
    exfalso. apply (N g). apply mgrid_on; [exact U|]. rewrite E. left. reflexivity. }
  unfold estimate_model, default_weights.
  destruct w as [[c|l|q]|]; cbn [bind]; [apply Z|destruct (_ =? _)%nat; [apply Z|reflexivity]|reflexivity|].
  destruct (Nat.eqb_spec (nobs m) 0) as [H|H]; [lia|]. cbn [bind]. apply Z.
Qed.

(** Distance from a value to a range given by its step: half a step, except close
    to the end, which is left out. *)
Theorem C78_step_distance start stop step v : 0 < step -> start <= v ->
  (v + step / 2 < stop -> close (ByStep start stop step) (step / 2) v) /\
  (v < stop -> close (ByStep start stop step) step v).
Proof.
  intros P H. set (q := (v - start) / step).
  assert (Q : 0 <= q) by (apply Rmult_le_pos; [lra|apply Rlt_le, Rinv_0_lt_compat, P]).
  assert (E : v = start + q * step) by (unfold q; field; lra).
  split; intros Z.
  - destruct (nearest q Q) as (i & [L1 L2] & _). exists (start + INR i * step).
    assert (M1 : (INR i - / 2) * step <= q * step) by (apply Rmult_le_compat_r; lra).
    assert (M2 : q * step <= (INR i + / 2) * step) by (apply Rmult_le_compat_r; lra).
    split; [exists i; split; [reflexivity|lra]|]. apply Rabs_le. lra.
  - destruct (below q Q) as (i & L1 & L2). exists (start + INR i * step).
    assert (M1 : INR i * step <= q * step) by (apply Rmult_le_compat_r; lra).
    assert (M2 : q * step <= (INR i + 1) * step) by (apply Rmult_le_compat_r; lra).
    split; [exists i; split; [reflexivity|lra]|]. apply Rabs_le. lra.
Qed.

(** The same for a range given by its number of values, which ends at stop. *)
Theorem C78_count_distance start stop n v : (2 <= n)%nat -> start < stop -> start <= v <= stop ->
  close (ByCount start stop n) ((stop - start) / (INR n - 1) / 2) v.
Proof.
  intros Hn S [H1 H2].
  assert (P : 0 < INR n - 1) by (apply (le_INR 2) in Hn; cbn in Hn; lra).
  set (step := (stop - start) / (INR n - 1)).
  assert (D : 0 < step) by (apply Rmult_lt_0_compat; [lra|apply Rinv_0_lt_compat, P]).
  assert (Es : stop - start = (INR n - 1) * step) by (unfold step; field; lra).
  set (q := (v - start) / step).
  assert (Q : 0 <= q) by (apply Rmult_le_pos; [lra|apply Rlt_le, Rinv_0_lt_compat, D]).
  assert (E : v = start + q * step) by (unfold q; field; lra).
  destruct (nearest q Q) as (i & [L1 L2] & L3). exists (start + INR i * step).
  assert (B : q <= INR (n - 1)).
  { rewrite minus_INR by lia. cbn [INR]. apply Rmult_le_reg_r with step; [exact D|]. lra. }
  specialize (L3 _ B).
  assert (M1 : (INR i - / 2) * step <= q * step) by (apply Rmult_le_compat_r; lra).
  assert (M2 : q * step <= (INR i + / 2) * step) by (apply Rmult_le_compat_r; lra).
  split; [exists i; split; [lia|rewrite Es; ring]|]. apply Rabs_le. lra.
Qed.

Section Accuracy.
  Context (fmin : (vec -> res R) -> vec -> res (vec * R)) (F : fmin_contract fmin)
    (m : link_model axis) (b : vec) (w : option weights) (r : vec * R).
  Local Notation wt := (weight (effective m w)).
  Context (S : shaped (lm_matrix m)) (Lb : length b = nobs m) (Lr : length (lm_ranges m) = ndim m)
    (U : Forall usable (lm_ranges m)) (W : forall j, (j < nobs m)%nat -> 0 <= wt j)
    (E : estimate_model (grid_brute fmin) m b w = Ok r).

  Lemma close_grid x d : length x = ndim m ->
    (forall k ax, nth_error (lm_ranges m) k = Some ax -> close ax (elem d k) (elem x k)) ->
    exists g, on_grid (lm_ranges m) g /\ length g = ndim m /\
      forall k, (k < ndim m)%nat -> Rabs (elem g k - elem x k) <= elem d k.
  Proof using Lr.
    rewrite <- Lr. clear. unfold on_grid. revert x d. induction (lm_ranges m) as [|ax rg IH]; intros x d Lx C.
    - exists []. split; [constructor|]. split; [reflexivity|]. intros k Hk. cbn in Hk. lia.
    - destruct x as [|v x]; [discriminate|]. destruct (C O ax eq_refl) as (g0 & G0 & D0).
      destruct (IH x (tl d)) as (g & G & Lg & D).
      + cbn in Lx. lia.
      + intros k ax' H. specialize (C (Datatypes.S k) ax' H). unfold elem in *. destruct d; cbn in *; [destruct k|]; exact C.
      + exists (g0 :: g). split; [constructor; assumption|]. split; [cbn; lia|]. intros [|k] Hk; [exact D0|].
        cbn in Hk. specialize (D k ltac:(lia)). unfold elem in *. destruct d; cbn in *; [destruct k|]; exact D.
  Qed.

  (** Data that follow parameters x up to errors of at most e, x at most d away from
      the grid: the quality is at least the cosine of the largest phase error those
      distances can cause (for the default weights, which add up to 1). *)
  Theorem C78_accuracy x d c e t : length x = ndim m -> roughly (lm_matrix m) x b c e ->
    (forall k ax, nth_error (lm_ranges m) k = Some ax -> close ax (elem d k) (elem x k)) ->
    (forall j, (j < nobs m)%nat ->
      e + big (ndim m) (fun k => Rabs (entry (lm_matrix m) j k) * elem d k) <= t) ->
    t <= PI ->
    big (nobs m) wt * cos t <= snd r.
  Proof using F S Lb Lr U W E.
    intros Lx X C T Tp. destruct (close_grid x d Lx C) as (g & G & Lg & D).
    destruct (C57_quality _ _ m b w r (C78_search fmin F) S Lb E) as (_ & _ & _ & Q).
    specialize (Q g (conj U G) Lg). eapply Rle_trans; [|exact Q].
    unfold coherence. eapply Rle_trans; [|apply (resultant_along _ _ _ c)].
    rewrite Rmult_comm, <- big_scal. apply big_le. intros j Hj. rewrite Rmult_comm.
    apply Rmult_le_compat_l; [apply W, Hj|]. destruct (X j Hj) as [k Hk].
    set (s := big (ndim m) (fun k => entry (lm_matrix m) j k * (elem g k - elem x k))).
    assert (Em : misfit (lm_matrix m) g b j = misfit (lm_matrix m) x b j + s).
    { unfold misfit, s, ndim.
      rewrite (big_ext _ (fun k => entry (lm_matrix m) j k * (elem g k - elem x k))
        (fun k => entry (lm_matrix m) j k * elem g k + - 1 * (entry (lm_matrix m) j k * elem x k))) by (intros; ring).
      rewrite big_plus, big_scal. ring. }
    assert (Hs : Rabs s <= big (ndim m) (fun k => Rabs (entry (lm_matrix m) j k) * elem d k)).
    { eapply Rle_trans; [apply big_abs|]. apply big_le. intros i Hi. rewrite Rabs_mult.
      apply Rmult_le_compat_l; [apply Rabs_pos|apply D, Hi]. }
    specialize (T j Hj).
    rewrite Em. set (z := misfit (lm_matrix m) x b j - c - 2 * PI * IZR k) in *.
    replace (misfit (lm_matrix m) x b j + s - c) with (z + s + 2 * PI * IZR k) by (unfold z; ring).
    rewrite (proj1 (turn_cos_sin (z + s) k)). apply cos_within; [|exact Tp].
    eapply Rle_trans; [apply Rabs_triang|]. lra.
  Qed.

  (** What a quality of cos t means for the fit: around one common phase, the
      observations that are off by more than u (up to whole cycles) hold at most the
      share (1 - cos t) / (1 - cos u) of the weight. *)
  Theorem C78_fit t : big (nobs m) wt * cos t <= snd r ->
    exists c, forall u P, 0 <= u <= PI ->
      (forall j, (j < nobs m)%nat -> P j = true ->
        forall k : Z, ~ Rabs (misfit (lm_matrix m) (fst r) b j - c - 2 * PI * IZR k) <= u) ->
      mass (nobs m) wt P * (1 - cos u) <= big (nobs m) wt * (1 - cos t).
  Proof using F S Lb U W E.
    intros Q. destruct (C57_quality _ _ m b w r (C78_search fmin F) S Lb E) as (_ & Ev & _).
    unfold coherence in Ev. fold (nobs m) in Ev.
    destruct (resultant_direction (nobs m) wt (misfit (lm_matrix m) (fst r) b)) as [c Ec].
    exists c. intros u P Hu Off. rewrite mass_big.
    enough (K : (1 - cos u) * big (nobs m) (fun j => if P j then wt j else 0) <= big (nobs m) wt - snd r) by lra.
    rewrite Ev, Ec, <- big_scal.
    replace (big (nobs m) wt - big (nobs m) (fun j => wt j * cos (misfit (lm_matrix m) (fst r) b j - c)))
      with (big (nobs m) (fun j => wt j + - 1 * (wt j * cos (misfit (lm_matrix m) (fst r) b j - c))))
      by (rewrite big_plus, big_scal; ring).
    apply big_le. intros j Hj. specialize (W j Hj).
    pose proof (COS_bound (misfit (lm_matrix m) (fst r) b j - c)) as [_ B].
    assert (0 <= wt j * (1 - cos (misfit (lm_matrix m) (fst r) b j - c))) by (apply Rmult_le_pos; lra).
    destruct (P j) eqn:Ej; [|lra].
    assert (O : cos (misfit (lm_matrix m) (fst r) b j - c) <= cos u).
    { apply cos_outside; [exact Hu|]. intros k. apply (Off j Hj Ej k). }
    assert (wt j * cos (misfit (lm_matrix m) (fst r) b j - c) <= wt j * cos u) by (apply Rmult_le_compat_l; lra).
    lra.
  Qed.
End Accuracy.

(** * Concrete cases *)

(** One parameter tried at 0, 1/4, 1/2 and 3/4; the truth 3/10; one observation a
    cycle off, all with a common phase: half a step is 1/8, so the quality is at
    least cos (1/4). *)
Definition stay (f : vec -> res R) (x0 : vec) : res (vec * R) := do v <- f x0; Ok (x0, v).
Lemma stay_contract : fmin_contract stay.
Proof.
  intros f x0 x v H. unfold stay in H. destruct (f x0) as [u|] eqn:E; [|discriminate]. cbn in H. injection H as <- <-.
  split; [exact E|]. intros u' H. injection H as <-. lra.
Qed.

Example C78_witness :
  let m := LinkModel (Mat [[1]; [2]; [-1]] 1) [ByStep 0 1 (1/4)] in
  let b := [3/10 - 5; 6/10 - 5 + 2 * PI; -3/10 - 5] in
  fmin_contract stay /\ shaped (lm_matrix m) /\ length b = nobs m /\ Forall usable (lm_ranges m) /\
  roughly (lm_matrix m) [3/10] b 5 0 /\ close (ByStep 0 1 (1/4)) (1/8) (3/10) /\
  ~ on_grid (lm_ranges m) [3/10] /\
  exists r, estimate_model (grid_brute stay) m b None = Ok r /\ cos (1/4) <= snd r.
Proof.
  intros m b.
  assert (S : shaped (lm_matrix m)) by (repeat constructor).
  assert (U : Forall usable (lm_ranges m)) by (repeat constructor; cbn; lra).
  assert (Ro : roughly (lm_matrix m) [3/10] b 5 0).
  { intros [|[|[|j]]] Hj; [exists 0%Z|exists (-1)%Z|exists 0%Z|cbn in Hj; lia];
      unfold misfit, entry, elem; cbn; match goal with |- Rabs ?e <= 0 => replace e with 0 by lra end; rewrite Rabs_R0; lra. }
  assert (Cl : close (ByStep 0 1 (1/4)) (1/8) (3/10)).
  { replace (1/8) with (1/4/2) by lra. apply C78_step_distance; lra. }
  split; [exact stay_contract|]. split; [exact S|]. split; [reflexivity|]. split; [exact U|]. split; [exact Ro|].
  split; [exact Cl|]. split.
  { intros H. inversion H as [|? ? ? ? K _]; subst. cbn in K. destruct K as (i & Hi & _).
    destruct (le_lt_dec i 1) as [L|L].
    - apply le_INR in L. cbn in L. lra.
    - apply (le_INR 2) in L. cbn in L. lra. }
  destruct (C78_returns stay m b None [0]) as [r Er];
    [|exact S|reflexivity|cbn; lia|exact I|reflexivity|exact U|repeat constructor; exists O; cbn; lra|].
  { intros f x0 u Hu. unfold stay. rewrite Hu. eexists. reflexivity. }
  exists r. split; [exact Er|].
  assert (W1 : weight (effective m None) = fun _ => / INR 3) by reflexivity.
  assert (P3 : / INR 3 * 3 = 1) by (cbn; lra). assert (Q3 : 0 < / INR 3) by (apply Rinv_0_lt_compat; cbn; lra).
  pose proof (C78_accuracy stay stay_contract m b None r S eq_refl eq_refl U) as A. rewrite W1 in A.
  specialize (A (fun _ _ => Rlt_le _ _ Q3) Er [3/10] [1/8] 5 0 (1/4) eq_refl Ro).
  assert (big (nobs m) (fun _ => / INR 3) * cos (1 / 4) <= snd r) as A'.
  { apply A.
    - intros [|k] ax H; [injection H as <-; exact Cl|destruct k; discriminate].
    - intros [|[|[|j]]] Hj; [| | |cbn in Hj; lia]; unfold entry, elem; cbn; unfold Rabs; destruct (Rcase_abs _); lra.
    - pose proof PI2_1. lra. }
  change (nobs m) with 3%nat in A'. cbn [big] in A'.
  assert (Z : 0 + / INR 3 + / INR 3 + / INR 3 = 1) by lra. rewrite Z, Rmult_1_l in A'. exact A'.
Qed.

(** Only the values tried lie in the ranges: the class promises
    ranges[i][0] <= x_i <= ranges[i][1] (_grid_search.py:41), but nothing holds the
    finishing search there. A step to 6/5, which fits perfectly, from the best
    value 1/2 of the range from 0 to 1. *)
Theorem C78_stays_in_range_refuted :
  exists fmin (m : link_model axis) b r, fmin_contract fmin /\ lm_ranges m = [ByStep 0 1 (1/2)] /\
    shaped (lm_matrix m) /\ length b = nobs m /\
    estimate_model (grid_brute fmin) m b None = Ok r /\ explains (lm_matrix m) (fst r) b /\
    1 < elem (fst r) 0.
Proof.
  pose (fm := fun (f : vec -> res R) (x0 : vec) =>
    do u <- f x0; match f [6/5] with Ok v => if Rle_dec v u then Ok ([6/5], v) else Ok (x0, u) | Err _ => Ok (x0, u) end).
  set (m := LinkModel (Mat [[1]; [2]] 1) [ByStep 0 1 (1/2)] : link_model axis). set (b := [6/5; 12/5]).
  assert (F : fmin_contract fm).
  { intros f x0 x v H. unfold fm in H. destruct (f x0) as [u|] eqn:E0; [|discriminate]. cbn [bind] in H.
    destruct (f [6/5]) as [v1|] eqn:E1.
    - destruct (Rle_dec v1 u) as [L|L]; injection H as <- <-.
      + split; [exact E1|]. intros u' [= <-]. exact L.
      + split; [exact E0|]. intros u' [= <-]. lra.
    - injection H as <- <-. split; [exact E0|]. intros u' [= <-]. lra. }
  assert (S : shaped (lm_matrix m)) by (repeat constructor).
  assert (U : Forall usable (lm_ranges m)) by (repeat constructor; cbn; lra).
  assert (X : explains (lm_matrix m) [6/5] b).
  { exists 0, (fun _ => 0%Z). intros [|[|j]] Hj; unfold elem; cbn; [lra|lra|cbn in Hj; lia]. }
  destruct (C78_returns fm m b None [0]) as [r Er];
    [|exact S|reflexivity|cbn; lia|exact I|reflexivity|exact U|repeat constructor; exists O; cbn; lra|].
  { intros f x0 u Hu. unfold fm. rewrite Hu. cbn [bind]. destruct (f [6/5]); [destruct (Rle_dec _ _)|]; eexists; reflexivity. }
  exists fm, m, b, r. split; [exact F|]. split; [reflexivity|]. split; [exact S|]. split; [reflexivity|]. split; [exact Er|].
  enough (fst r = [6/5]) as -> by (split; [exact X|unfold elem; cbn; lra]).
  destruct (estimate_model_solve _ m b None r Er eq_refl) as (_ & x & v & B & ->). cbn [fst].
  assert (M : forall z, matching (lm_matrix m) [z] b (effective m None)) by (intros; repeat split; repeat constructor).
  unfold grid_brute in B. destruct (map_res _ _) as [vals|]; [|discriminate]. cbn [bind] in B.
  destruct (best vals) as [[x0 v0]|]; [|discriminate]. cbn [fst] in B. unfold fm in B.
  destruct (neg_temporal_coherence x0 (lm_matrix m) b (effective m None)) as [u0|] eqn:E0; [|discriminate]. cbn [bind] in B.
  rewrite (C52_value _ _ _ _ (M _)) in B.
  destruct (Rle_dec _ u0) as [L|L]; [injection B as <- _; reflexivity|]. exfalso. apply L.
  pose proof (neg_ok_length _ _ _ _ _ E0) as L0. destruct x0 as [|z [|]]; [discriminate| |discriminate].
  rewrite (C52_value _ _ _ _ (M z)) in E0. injection E0 as <-. apply Ropp_le_contravar.
  pose proof (C52_perfect _ _ _ _ (M (6/5))) as P. rewrite (C52_value _ _ _ _ (M _)) in P.
  assert (Q : 0 < / INR (nobs m)) by (apply Rinv_0_lt_compat; cbn; lra).
  specialize (P (fun _ _ => Rlt_le _ _ Q) X).
  assert (J : forall a c : R, Ok (- a) = Ok (- c) -> c = a) by (intros a c J; injection J as J; lra). apply J in P.
  rewrite <- P.
  eapply Rle_trans; [apply resultant_bound|]. apply big_le. intros j _. apply Req_le, Rabs_right, Rle_ge, Rlt_le, Q.
Qed.

(** A range that ends where it starts. *)
Example C78_empty_witness :
  let m := LinkModel (Mat [[1]; [2]] 1) [ByStep 1 1 (1/2)] in
  Forall usable (lm_ranges m) /\ (forall g, ~ on_grid (lm_ranges m) g) /\
  estimate_model (grid_brute stay) m [0; 0] None = Err ValueError.
Proof.
  intros m.
  assert (U : Forall usable (lm_ranges m)) by (repeat constructor; cbn; lra).
  assert (N : forall g, ~ on_grid (lm_ranges m) g).
  { intros g H. inversion H as [|? v ? ? K _]; subst. cbn in K. destruct K as (i & -> & L). pose proof (pos_INR i). lra. }
  split; [exact U|]. split; [exact N|]. apply C78_empty; [exact U|exact N|reflexivity|cbn; lia].
Qed.

Print Assumptions C78_points.
Print Assumptions C78_search.
Print Assumptions C78_start.
Print Assumptions C78_returns.
Print Assumptions C78_empty.
Print Assumptions C78_step_distance.
Print Assumptions C78_count_distance.
Print Assumptions C78_accuracy.
Print Assumptions C78_fit.
Print Assumptions C78_stays_in_range_refuted.
