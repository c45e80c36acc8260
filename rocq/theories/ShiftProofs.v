(** Adding a constant to each tile: the adjustment moves with it as long as tiles
    with a recorded overlap move together. *)
From Verif Require Import Base BaseLemmas PoolProofs GraphModel TileModel OverlapModel BulkModel BulkProofs
  DirichletModel DirichletSpec DirichletProofs MergeModel MergeSpec TileStateProofs AdjustProofs BandProofs MergeBatchProofs ShiftSpec.
From Coq Require Import List ZifyBool Lqa Permutation.
Import ListNotations.
Set Default Goal Selector "!".
Local Open Scope Q_scope.
Local Notation tl ts i := (nth i ts dtile).

(** ** The solver on equal numbers *)
Lemma sel_comp {A} (R : A -> A -> Prop) mask : forall l l', Forall2 R l l' -> Forall2 R (sel mask l) (sel mask l').
Proof.
  induction mask as [|b m IH]; intros l l' F; [constructor|]. destruct F as [|x y l l' E F]; [destruct b; constructor|].
  destruct b; cbn; auto.
Qed.

Lemma put_comp {A} (R : A -> A -> Prop) mask : forall v v' l l', Forall2 R v v' -> Forall2 R l l' -> Forall2 R (put mask v l) (put mask v' l').
Proof.
  induction mask as [|b m IH]; intros v v' l l' Fv F; [exact F|]. destruct F as [|x y l l' E F]; [destruct b; constructor|].
  destruct b; cbn; [|constructor; auto]. destruct Fv; constructor; auto.
Qed.

Lemma dotQ_comp u : forall v v', Forall2 Qeq v v' -> dotQ u v == dotQ u v'.
Proof.
  induction u as [|x u IH]; intros v v' F; [reflexivity|]. destruct F as [|a b v v' E F]; [reflexivity|].
  rewrite !dotQ_cons, E, (IH _ _ F). reflexivity.
Qed.

Lemma all_zero_comp l l' : Forall2 Qeq l l' -> all_zero l = all_zero l'.
Proof. induction 1 as [|x y l l' E F IH]; [auto|]. unfold all_zero in *. cbn [forallb]. rewrite IH. f_equal. now rewrite E. Qed.

Lemma Forall2_refl {A} (R : A -> A -> Prop) l : (forall x, R x x) -> Forall2 R l l.
Proof. intros H. induction l; constructor; auto. Qed.

Lemma row_comp cg logging a mask xf xf' x : respects cg -> Forall2 Qeq xf xf' -> dirichlet_row cg logging a mask xf = Ok x ->
  exists x', dirichlet_row cg logging a mask xf' = Ok x' /\ Forall2 Qeq x x'.
Proof.
  intros Hcg F. unfold dirichlet_row. cbv zeta.
  assert (Forall2 Qeq (sel (off mask) (map (fun row => - dotQ (sel mask row) (sel mask xf)) a))
                      (sel (off mask) (map (fun row => - dotQ (sel mask row) (sel mask xf')) a))) as Fb.
  { apply sel_comp. induction a as [|r a IH]; cbn; constructor; auto. now rewrite (dotQ_comp _ _ _ (sel_comp Qeq mask _ _ F)). }
  rewrite <- (all_zero_comp _ _ Fb), <- (Forall2_len _ _ _ Fb). destruct (negb _); [discriminate|].
  destruct (_ && _); intros E; injection E as <-; eexists; (split; [reflexivity|]).
  - apply put_comp; [apply Forall2_refl; reflexivity|exact F].
  - apply put_comp; [apply Hcg, Fb|exact F].
Qed.

Lemma graph_comp cg ilu logging a n xf xf' mask c : respects cg -> Forall2 (Forall2 Qeq) xf xf' ->
  dirichlet_graph cg ilu logging a n xf mask = Ok c ->
  exists c', dirichlet_graph cg ilu logging a n xf' mask = Ok c' /\ Forall2 (Forall2 Qeq) c c'.
Proof.
  intros Hcg F. unfold dirichlet_graph. destruct (negb _); [discriminate|]. destruct (negb _); [discriminate|]. destruct (negb _); [discriminate|].
  revert c. induction F as [|r r' xf xf' E F IH]; intros c H; cbn [map_res] in *; [injection H as <-; exists []; split; [reflexivity|constructor]|].
  destruct (dirichlet_row _ _ _ _ r) as [x|] eqn:Er; [|discriminate]. cbn [bind] in H. destruct (map_res _ xf) as [c0|]; [|discriminate]. cbn [bind] in H.
  injection H as <-. destruct (row_comp _ _ _ _ _ _ _ Hcg E Er) as (x' & -> & Fx). destruct (IH c0 eq_refl) as (c' & -> & Fc).
  exists (x' :: c'). split; [reflexivity|]. now constructor.
Qed.

Lemma row_any cg logging a mask xf x xf' : dirichlet_row cg logging a mask xf = Ok x -> exists x', dirichlet_row cg logging a mask xf' = Ok x'.
Proof.
  unfold dirichlet_row. cbv zeta. intros H.
  assert (forall y, length (sel (off mask) (map (fun row => - dotQ (sel mask row) (sel mask y)) a)) = length (sel (off mask) (map (fun row => - dotQ (sel mask row) (sel mask xf)) a))) as L.
  { intros y. generalize (off mask). clear H. induction a as [|r a IH]; intros [|[|] m]; cbn; auto. }
  rewrite (L xf'). destruct (negb _); [discriminate|]. clear H. destruct (_ && _); eauto.
Qed.

Lemma graph_any cg ilu logging a n xf mask c xf' : xf <> [] \/ xf' = [] -> dirichlet_graph cg ilu logging a n xf mask = Ok c ->
  exists c', dirichlet_graph cg ilu logging a n xf' mask = Ok c'.
Proof.
  intros N. unfold dirichlet_graph. destruct (negb _); [discriminate|]. destruct (negb _); [discriminate|]. destruct (negb _); [discriminate|].
  intros H. apply map_res_ok_iff. destruct N as [N| ->]; [|intros x []]. intros r _. destruct xf as [|r0 xf]; [contradiction|]. cbn [map_res] in H.
  destruct (dirichlet_row _ _ _ _ r0) as [x0|] eqn:E; [|discriminate]. eapply row_any; eauto.
Qed.

Lemma or_nil {A} (l l' : list A) : length l' = length l -> l <> [] \/ l' = [].
Proof. destruct l, l'; intros E; auto; try discriminate; left; discriminate. Qed.

Lemma Forall2_nths {A B} (R : A -> B -> Prop) d d' l : forall l', length l = length l' -> (forall i, (i < length l)%nat -> R (nth i l d) (nth i l' d')) -> Forall2 R l l'.
Proof.
  induction l as [|a l IH]; intros [|b l'] L K; try discriminate; constructor; [apply (K O); cbn; lia|].
  apply IH; [now injection L|]. intros i B'. apply (K (S i)). cbn. lia.
Qed.

Lemma matrix_comp m m' nb np : has_shape m nb np -> has_shape m' nb np ->
  ((forall b p, (b < nb)%nat -> (p < np)%nat -> at_ m b p == at_ m' b p) <-> Forall2 (Forall2 Qeq) m m').
Proof.
  intros S S'. split.
  - intros K. destruct S as [L S], S' as [L' S']. apply (Forall2_nths _ [] []); [congruence|]. intros b Bb.
    assert (length (nth b m []) = np) as L1 by (apply S, nth_In, Bb). assert (length (nth b m' []) = np) as L2 by (apply S', nth_In; congruence).
    apply (Forall2_nths _ 0 0); [congruence|]. intros p Bp. apply K; lia.
  - intros F b p Bb Bp. unfold at_. assert (Forall2 Qeq (nth b m []) (nth b m' [])) as Fr by (apply (Forall2_nth _ _ _ _ _ _ F); destruct S; lia).
    apply (Forall2_nth _ _ _ 0 0 p Fr). pose proof (shape_nth _ _ _ _ S Bb). lia.
Qed.

(** ** Shifted tiles *)
Lemma sum_shift {A} (g g' : A -> Q) d l : (forall a, In a l -> g' a == g a + d) ->
  sumQ (map g' l) == sumQ (map g l) + inject_Z (Z.of_nat (length l)) * d.
Proof.
  induction l as [|a l IH]; intros K; [cbn; ring|]. cbn [map length]. unfold sumQ in *. cbn [fold_right].
  rewrite K, IH by (auto with datatypes). rewrite Nat2Z.inj_succ, <- Z.add_1_r, inject_Z_plus. ring.
Qed.

Section Shift.
  Variables (cg : list (list Q) -> list Q -> list Q) (ilu : list (list Q) -> bool)
            (triangles : list (Z * Z) -> res (list (nat * nat * nat))) (f f' : overlap_file) (nb : nat).
  Hypothesis Hcg : respects cg.
  Hypothesis Hov : of_overlaps f' = of_overlaps f.
  (** What is added to tile [i] in band [b]. *)
  Variable s : nat -> nat -> Q.
  Hypothesis Hs : forall b i j, (b < nb)%nat -> In (i, j) (of_overlaps f) -> s b i == s b j.

  (** The tiles have the same pixels; those in [far] differ by [s]. *)
  Definition shifted (far : nat -> Prop) (ts ts' : list tile) : Prop :=
    length ts' = length ts /\ forall i, (i < length ts)%nat -> coords (tl ts' i) = coords (tl ts i) /\
      forall b p, far i -> (b < nb)%nat -> (p < npoints (tl ts i))%nat -> at_ (uw_phase (tl ts' i)) b p == at_ (uw_phase (tl ts i)) b p + s b i.

  (** The tiles that are still unaffected after one more pass. *)
  Definition shrink (far : nat -> Prop) (i : nat) : Prop := far i /\ forall j, In j (neighbours f i) -> far j.

  Lemma shifted_phase far ts ts' i b x : (forall t, In t ts -> ready nb t) -> shifted far ts ts' -> (i < length ts)%nat -> far i -> (b < nb)%nat ->
    contains (tl ts i) x = true -> phase_at (tl ts' i) b x == phase_at (tl ts i) b x + s b i.
  Proof using.
    intros Hr [L K] Bi Fi Bb C. destruct (K i Bi) as [Ec Ep]. unfold phase_at. rewrite Ec. apply contains_spec in C as (p & P).
    assert (ready nb (tl ts i)) as (_ & _ & _ & _ & Nd) by (apply Hr, nth_In, Bi). rewrite (position_spec _ _ _ Nd P).
    apply Ep; [exact Fi|exact Bb|eapply point_lt; eauto].
  Qed.

  Lemma link_same b i j : (b < nb)%nat -> link f i j -> s b i == s b j.
  Proof using Hs.
    intros Bb L. unfold link in L. destruct (Nat.lt_ge_cases i j) as [C|C].
    - replace (Nat.min i j) with i in L by lia. replace (Nat.max i j) with j in L by lia. auto.
    - replace (Nat.min i j) with j in L by lia. replace (Nat.max i j) with i in L by lia. symmetry. auto.
  Qed.

  Lemma delta_shift far ts ts' degree i o : recorded f ts -> recorded f' ts' ->
    (forall t, In t ts -> ready nb t) -> (forall t, In t ts' -> ready nb t) -> shifted far ts ts' -> (i < length ts)%nat ->
    delta cg ilu triangles f (map (neighbours f) (seq 0 (length ts))) degree ts i = Ok o ->
    exists o', delta cg ilu triangles f' (map (neighbours f') (seq 0 (length ts'))) degree ts' i = Ok o' /\
      match o, o' with
      | Some m, Some m' => forall b p, shrink far i -> (b < nb)%nat -> (p < npoints (tl ts i))%nat -> at_ m' b p == at_ m b p
      | None, None => True
      | _, _ => False
      end.
  Proof using Hcg Hov Hs.
    intros Hd Hd' Hr Hr' Sh Bi H. pose proof Sh as [L K]. destruct (K i Bi) as [Ec Ep]. assert (i < length ts')%nat as Bi' by lia.
    assert (npoints (tl ts' i) = npoints (tl ts i)) as En by (unfold npoints; now rewrite Ec).
    assert (ready nb (tl ts i)) as Ri by (apply Hr, nth_In, Bi). assert (ready nb (tl ts' i)) as Ri' by (apply Hr', nth_In, Bi').
    unfold delta in *. rewrite (nth_error_nth' ts dtile Bi) in H. rewrite (nth_error_nth' ts' dtile Bi').
    pose proof Ri as (_ & Eb & Lv & _ & Nd). pose proof Ri' as (_ & Eb' & Lv' & _ & Nd'). rewrite Lv in H. rewrite Lv'. cbn [Nat.eqb negb] in *.
    assert (forall g n, (i < n)%nat -> nth_error (map (neighbours g) (seq 0 n)) i = Some (neighbours g i)) as En2.
    { intros g n B. rewrite nth_error_map, (nth_error_nth' _ O) by now rewrite seq_length. cbn. now rewrite seq_nth. }
    rewrite En2 in H by auto. rewrite En2 by auto.
    assert (neighbours f' i = neighbours f i) as Enb by (unfold neighbours; now rewrite Hov). rewrite Enb.
    destruct (add_neighbours_ok f ts nb Hd Hr i (neighbours f i)) with (c := repeat 1%nat (npoints (tl ts i))) (s := uw_phase (tl ts i)) as (c & sm & Ef & Lc & Ss & V).
    { intros j. now apply (neighbours_link f ts). }
    { apply repeat_length. }
    { now apply uw_ready. }
    destruct (add_neighbours_ok f' ts' nb Hd' Hr' i (neighbours f i)) with (c := repeat 1%nat (npoints (tl ts' i))) (s := uw_phase (tl ts' i)) as (c' & sm' & Ef' & Lc' & Ss' & V').
    { intros j I. rewrite <- Enb in I. now apply (neighbours_link f' ts') in I. }
    { apply repeat_length. }
    { now apply uw_ready. }
    assert (forall j, In j (neighbours f i) -> (j < length ts)%nat /\ forall b, (b < nb)%nat -> s b j == s b i) as Hj.
    { intros j I. apply (neighbours_link f ts) in I; [|exact Hd]. split; [destruct Hd as (_ & _ & Ho & _); destruct (Ho _ _ I); lia|].
      intros b Bb. symmetry. now apply link_same. }
    assert (forall x, filter (fun j => contains (tl ts' j) x) (neighbours f i) = filter (fun j => contains (tl ts j) x) (neighbours f i)) as Efl.
    { intros x. apply filter_ext_in. intros j I. apply Hj in I as [B _]. unfold contains. now rewrite (proj1 (K j B)). }
    assert (forall x p, point_of (tl ts i) x p -> point_of (tl ts' i) x p) as Pp by (unfold point_of; now rewrite Ec).
    assert (c' = c) as ->.
    { apply (nth_ext _ _ O O); [lia|]. intros p Bp. rewrite Lc', En in Bp. destruct (point_exists _ _ Bp) as (x & P).
      destruct (V x p P) as [-> _]. destruct (V' x p (Pp _ _ P)) as [-> _]. rewrite Efl, En. reflexivity. }
    rewrite Ef in H. rewrite Ef'. cbn [bind fst snd] in *. rewrite En in *.
    destruct (negb _); [injection H as <-; exists None; auto|].
    assert (tile_laplacian triangles (tl ts' i) = tile_laplacian triangles (tl ts i)) as -> by (unfold tile_laplacian; now rewrite Ec).
    destruct (tile_laplacian _ _) as [lap|]; [|discriminate]. cbn [bind] in *.
    pose proof (uw_ready nb _ Ri) as Su. pose proof (uw_ready nb _ Ri') as Su'. rewrite En in Su'.
    destruct (raw_corr_ok c sm _ nb _ Lc Ss Su) as [Sr Vr]. destruct (raw_corr_ok c sm' _ nb _ Lc Ss' Su') as [Sr' Vr'].
    set (rc := raw_corr c sm (uw_phase (tl ts i))) in *. set (rc' := raw_corr c sm' (uw_phase (tl ts' i))) in *.
    assert (shrink far i -> forall b p, (b < nb)%nat -> (p < npoints (tl ts i))%nat -> at_ rc b p == at_ rc' b p) as Erc.
    { intros [Fi Fj] b p Bb Bp. rewrite Vr, Vr' by auto. destruct (point_exists _ _ Bp) as (x & P).
      destruct (V x p P) as [Nc Vs]. destruct (V' x p (Pp _ _ P)) as [_ Vs']. rewrite (Vs b Bb), (Vs' b Bb), Efl, (Ep b p Fi Bb Bp).
      set (l := filter _ _) in *. rewrite nth_repeat_lt in Nc by auto. rewrite Nc.
      rewrite (sum_shift (fun j => phase_at (tl ts j) b x) (fun j => phase_at (tl ts' j) b x) (s b i) l).
      - rewrite Nat2Z.inj_add, inject_Z_plus. change (inject_Z (Z.of_nat 1)) with 1. set (k := inject_Z (Z.of_nat (length l))).
        assert (0 <= k) as Pk by (unfold k; change 0 with (inject_Z 0); rewrite <- Zle_Qle; lia).
        field. intros E. lra.
      - intros j I. apply filter_In in I as [I C]. destruct (Hj j I) as [Bj Ej]. rewrite (shifted_phase far ts ts' j b x Hr Sh Bj (Fj j I) Bb C), (Ej b Bb). reflexivity. }
    destruct (dirichlet_graph _ _ _ _ _ rc _) as [corr|] eqn:Eg; [|discriminate]. cbn [bind] in H.
    destruct (graph_any _ _ _ _ _ _ _ _ rc' (or_nil _ _ (eq_trans (proj1 Sr') (eq_sym (proj1 Sr)))) Eg) as (corr' & Eg'). rewrite Eg'. cbn [bind].
    assert (length (mask_of degree c) = npoints (tl ts i)) as Lmk by (unfold mask_of; now rewrite map_length).
    assert (forall r cr, has_shape r nb (npoints (tl ts i)) -> dirichlet_graph cg ilu true lap (npoints (tl ts i)) r (mask_of degree c) = Ok cr ->
      has_shape cr nb (npoints (tl ts i))) as Sc.
    { intros r cr [Lr Hrr] E. apply graph_ok in E as (_ & _ & Lcr & Hrow). split; [lia|]. intros row I. apply (In_nth _ _ []) in I as (q & Hq & <-). rewrite Lcr in Hq. specialize (Hrow q Hq).
      apply row_ok in Hrow as (L1 & _); [lia|]. rewrite Lmk. apply Hrr, nth_In, Hq. }
    pose proof (Sc _ _ Sr Eg) as S1. pose proof (Sc _ _ Sr' Eg') as S2.
    rewrite Eb, broadcast_full in H by auto. rewrite Eb', broadcast_full by auto. cbn [bind] in *. injection H as <-. exists (Some corr'). split; [reflexivity|].
    intros b p Si Bb Bp. pose proof (proj1 (matrix_comp rc rc' nb _ Sr Sr') (Erc Si)) as Frc.
    destruct (graph_comp _ _ _ _ _ _ _ _ _ Hcg Frc Eg) as (corr2 & Eg2 & Fc). rewrite Eg' in Eg2. injection Eg2 as <-.
    symmetry. now apply (proj2 (matrix_comp corr corr' nb _ S1 S2) Fc).
  Qed.

  Lemma pass_shift far ts ts' order degree us : recorded f ts -> recorded f' ts' ->
    (forall t, In t ts -> ready nb t) -> (forall t, In t ts' -> ready nb t) -> shifted far ts ts' -> Permutation order (seq 0 (length ts)) ->
    adjust_pass cg ilu triangles order f (map (neighbours f) (seq 0 (length ts))) ts degree = Ok us ->
    exists us', adjust_pass cg ilu triangles order f' (map (neighbours f') (seq 0 (length ts'))) ts' degree = Ok us' /\ shifted (shrink far) us us' /\
      all_kept ts us /\ all_kept ts' us' /\ (forall t, In t us -> ready nb t) /\ (forall t, In t us' -> ready nb t).
  Proof using Hcg Hov Hs.
    intros Hd Hd' Hr Hr' Sh P H. pose proof Sh as [L K].
    destruct (pass_ok cg ilu triangles f nb ts order degree us Hd Hr P H) as (Kp & Ru & Dl).
    assert (Permutation order (seq 0 (length ts'))) as P' by now rewrite L.
    destruct (pass_total cg ilu triangles f' nb order degree ts' Hd' Hr' P') as (us' & H').
    { intros i Bi. rewrite L in Bi. destruct (Dl i Bi) as (o & Eo & _). destruct (delta_shift far ts ts' degree i o Hd Hd' Hr Hr' Sh Bi Eo) as (o' & Eo' & _). eauto. }
    destruct (pass_ok cg ilu triangles f' nb ts' order degree us' Hd' Hr' P' H') as (Kp' & Ru' & Dl').
    exists us'. split; [exact H'|]. split; [|auto]. destruct Kp as [Lu Ku], Kp' as [Lu' Ku']. split; [lia|]. intros i Bi. rewrite Lu in Bi.
    destruct (K i Bi) as [Ec Ep]. split; [rewrite (kept_coords _ _ (Ku i)), (kept_coords _ _ (Ku' i)); exact Ec|].
    intros b p Fi Bb Bp. unfold npoints in Bp. rewrite (kept_coords _ _ (Ku i)) in Bp. fold (npoints (tl ts i)) in Bp.
    assert (npoints (tl ts' i) = npoints (tl ts i)) as En by (unfold npoints; now rewrite Ec).
    destruct (Dl i Bi) as (o & Eo & Q1). destruct (Dl' i ltac:(lia)) as (o2 & Eo2 & Q2).
    destruct (delta_shift far ts ts' degree i o Hd Hd' Hr Hr' Sh Bi Eo) as (o' & Eo' & M). rewrite Eo2 in Eo'. injection Eo' as ->.
    rewrite (Q1 b p Bb Bp), (Q2 b p Bb) by lia. rewrite (Ep b p (proj1 Fi) Bb Bp).
    destruct o as [m|], o' as [m'|]; try contradiction; [rewrite (M b p Fi Bb Bp)|]; ring.
  Qed.

  Fixpoint shrinks (n : nat) (far : nat -> Prop) : nat -> Prop := match n with O => far | S n => shrinks n (shrink far) end.

  Lemma passes_shift l : forall far orders ts ts' us, recorded f ts -> recorded f' ts' ->
    (forall t, In t ts -> ready nb t) -> (forall t, In t ts' -> ready nb t) -> shifted far ts ts' -> (forall d : nat, Permutation (orders d) (seq 0 (length ts))) ->
    fold_res (fun a d => adjust_pass cg ilu triangles (orders d) f (map (neighbours f) (seq 0 (length a))) a d) ts l = Ok us ->
    exists us', fold_res (fun a d => adjust_pass cg ilu triangles (orders d) f' (map (neighbours f') (seq 0 (length a))) a d) ts' l = Ok us' /\ shifted (shrinks (length l) far) us us'.
  Proof using Hcg Hov Hs.
    induction l as [|d l IH]; intros far orders ts ts' us Hd Hd' Hr Hr' Sh P H; cbn [fold_res] in *.
    - injection H as <-. eauto.
    - destruct (adjust_pass _ _ _ _ f _ ts d) as [us1|] eqn:E; [|discriminate]. cbn [bind] in H.
      destruct (pass_shift far ts ts' (orders d) d us1 Hd Hd' Hr Hr' Sh (P d) E) as (us1' & -> & Sh1 & K1 & K1' & R1 & R1'). cbn [bind].
      apply (IH (shrink far) orders us1 us1' us); auto.
      + eapply recorded_kept; eauto.
      + eapply recorded_kept; eauto.
      + intros d'. destruct K1 as [-> _]. apply P.
  Qed.

  Lemma adjust_shift far ts ts' omap omap' m us : recorded f ts -> recorded f' ts' ->
    (forall t, In t ts -> ready nb t) -> (forall t, In t ts' -> ready nb t) -> shifted far ts ts' ->
    overlap_map f = Ok omap -> overlap_map f' = Ok omap' ->
    adjust_tiles cg ilu triangles f omap m ts = Ok us ->
    exists us', adjust_tiles cg ilu triangles f' omap' m ts' = Ok us' /\ shifted (shrinks (m - 1) far) us us' /\
      all_kept ts us /\ all_kept ts' us' /\ (forall t, In t us -> ready nb t) /\ (forall t, In t us' -> ready nb t).
  Proof using Hcg Hov Hs.
    intros Hd Hd' Hr Hr' Sh Ho Ho' H. pose proof Sh as [L _]. unfold adjust_tiles in *.
    assert (Permutation (seq 0 (length ts)) (seq 0 (length ts))) as P by reflexivity.
    assert (exists us', adjust_tiles_in cg ilu triangles (fun _ => seq 0 (length ts')) f' omap' m ts' = Ok us' /\ shifted (shrinks (m - 1) far) us us') as (us' & H' & Su).
    { rewrite (adjust_fold cg ilu triangles f (fun _ => seq 0 (length ts)) ts omap Hd Ho) in H.
      rewrite (adjust_fold cg ilu triangles f' (fun _ => seq 0 (length ts')) ts' omap' Hd' Ho'). rewrite L.
      replace (m - 1)%nat with (length (degrees m)) by (unfold degrees; now rewrite rev_length, seq_length).
      apply (passes_shift _ far (fun _ => seq 0 (length ts)) ts ts' us); auto. }
    exists us'. split; [exact H'|]. split; [exact Su|].
    destruct (adjust_kept cg ilu triangles f nb (fun _ => seq 0 (length ts)) ts omap Hd Hr Ho (fun _ => Permutation_refl _) m us H) as [A1 A2].
    destruct (adjust_kept cg ilu triangles f' nb (fun _ => seq 0 (length ts')) ts' omap' Hd' Hr' Ho' (fun _ => Permutation_refl _) m us' H') as [B1 B2]. auto.
  Qed.

  Lemma shrinks_far n : forall (far : nat -> Prop) i, shrinks n far i -> far i.
  Proof using. induction n as [|n IH]; intros far i F; cbn in *; [exact F|]. exact (proj1 (IH _ _ F)). Qed.

  Lemma shrinks_all n : forall far : nat -> Prop, (forall i, far i) -> forall i, shrinks n far i.
  Proof using. induction n as [|n IH]; intros far F i; cbn; [apply F|]. apply IH. intros j. split; auto. Qed.
End Shift.
