(** C75: the unwrapped phases are the cheapest, and how far they can be from the
    truth. *)
From Verif Require Import Base BaseLemmas GraphModel GraphSpec McfModel McfSpec PhaseProofs DualProofs UnwrapProofs FlowProofs
  OracleProofs EmcfModel EmcfSpec EmcfProofs OptimalSpec OptimalProofs Props_Mcf Props_Emcf.
From Coq Require Import ZifyBool Qabs Permutation.
Set Default Goal Selector "!".
Local Open Scope nat_scope.

(** Link values in [-half, half], congruent to the differences of [p]. *)
Definition wraps (links : list (nat * nat)) (p : nat -> Q) (w : nat -> Q) : Prop :=
  forall i, i < length links -> (- half <= w i <= half)%Q /\ cong2pi (w i) (slope links p i).

(** ** One interferogram *)

(** Among all phases congruent to the input, the result needs the cheapest
    changes of the wrapped differences, weighted by cost (increase) and revcost
    (decrease). *)
Theorem C75_one : forall smcf g s p cost revcost u k, smcf_sound smcf -> planar g -> make_solver g = Ok s ->
  length cost = length (g_links g) -> length (rev_or cost revcost) = length (g_links g) ->
  (forall c, In c cost -> (0 <= c)%Z) -> (forall c, In c (rev_or cost revcost) -> (0 <= c)%Z) ->
  unwrap_one smcf s p cost revcost = Ok (u, k) ->
  exists w, wraps (g_links g) (fun v => nth v p 0%Q) w /\
  forall x, (forall v, v < g_npoints g -> cong2pi (x v) (nth v p 0%Q)) ->
    in_range (length (g_links g)) (fun i => slope (g_links g) x i - w i)%Q ->
    (toll cost (rev_or cost revcost) (fun i => slope (g_links g) (fun v => nth v u 0) i - w i) <=
     toll cost (rev_or cost revcost) (fun i => slope (g_links g) x i - w i))%Q.
Proof.
  intros smcf g s p cost revcost u k Hs Hp Hm HC HR Pc Pr H. rewrite (solver_of g s Hp Hm) in H.
  exists (fun i => phase_diff (nth (fst (nth i (g_links g) (0, 0)%nat)) p 0%Q) (nth (snd (nth i (g_links g) (0, 0)%nat)) p 0%Q) 0).
  split.
  - intros i Hi. split; [|apply pd_cong]. match goal with |- (_ <= phase_diff ?a ?b 0 <= _)%Q => pose proof (pd_near a b 0) end. lra.
  - intros x Hx Hb. exact (one_optimal smcf g p cost revcost u k x Hs Hp H Pc Pr HC HR Hx Hb).
Qed.

(** So the differences are wrong by at most twice what the truth [x] exceeds the
    wrapped differences by, and on at most so many links. *)
Theorem C75_one_error : forall smcf g s p cost u k, smcf_sound smcf -> planar g -> make_solver g = Ok s ->
  length cost = length (g_links g) -> (forall c, In c cost -> (0 <= c)%Z) ->
  unwrap_one smcf s p cost None = Ok (u, k) ->
  exists w, wraps (g_links g) (fun v => nth v p 0%Q) w /\
  forall x, (forall v, v < g_npoints g -> cong2pi (x v) (nth v p 0%Q)) ->
    let missed i := (slope (g_links g) x i - w i)%Q in let got := slope (g_links g) (fun v => nth v u 0%Q) in
    in_range (length (g_links g)) missed ->
    (weight cost (fun i => got i - slope (g_links g) x i) <= 2 * weight cost missed)%Q /\
    ((forall c, In c cost -> (1 <= c)%Z) ->
     (twopi * inject_Z (Z.of_nat (how_many (length (g_links g)) (fun i => negb (Qeq_bool (got i) (slope (g_links g) x i))))) <=
      2 * weight cost missed)%Q).
Proof.
  intros smcf g s p cost u k Hs Hp Hm HC Pc H.
  destruct (C75_one smcf g s p cost None u k Hs Hp Hm HC HC Pc Pc H) as (w & Hw & Ho). exists w. split; [exact Hw|].
  intros x Hx missed got Hb. specialize (Ho x Hx Hb). cbn [rev_or] in Ho. rewrite !toll_weight in Ho. fold missed got in Ho.
  assert (weight cost (fun i => got i - slope (g_links g) x i) <= 2 * weight cost missed)%Q as E.
  { pose proof (weight_triangle cost (fun i => got i - slope (g_links g) x i)%Q (fun i => got i - w i)%Q missed Pc) as T.
    specialize (T ltac:(intros i _; unfold missed; ring)). unfold got in T at 2. fold got in Ho. unfold got in *. lra. }
  split; [exact E|]. intros P1.
  assert (forall i, (i < length cost)%nat -> cong2pi (got i) (slope (g_links g) x i)) as Hc.
  { intros i Hi. rewrite HC in Hi. unfold got, slope.
    destruct (C15_unwrap_sound smcf g s p cost None u k Hs Hp Hm H) as (_ & _ & _ & Hu & _).
    assert (In (nth i (g_links g) (0, 0)%nat) (g_links g)) as Hl by now apply nth_In.
    destruct (nth i (g_links g) (0%nat, 0%nat)) as [a b]. cbn [fst snd]. pose proof (pl_lt g Hp a b Hl).
    apply cong2pi_sub; (eapply cong2pi_trans; [apply Hu; lia|apply cong2pi_sym, Hx; lia]). }
  pose proof (count_weight cost got (slope (g_links g) x) P1 Hc) as K. rewrite HC in K. eapply Qle_trans; [exact K|exact E].
Qed.

(** ** The stack *)

(** Two steps: [T] are the gradients unwrapped in time, the cheapest for each link
    among those of a history; given them, each interferogram is the cheapest among
    those congruent to the data. *)
Theorem C75_cube : forall smcf gs gt tsched ssched cpu e c is_ifg tc sc U, smcf_sound smcf -> planar gs -> planar gt ->
  make_solver gs = Ok (em_space e) -> make_solver gt = Ok (em_time e) ->
  (forall b l, Permutation (tsched b l) l) -> (forall l, Permutation (ssched l) l) ->
  0 < links_per_batch (em_set e) -> classify e c = Ok is_ifg ->
  pick_cost (t_cost_type (em_set e)) (length (g_links gt)) (em_tdist e) (em_tcent e) = Ok tc ->
  pick_cost (s_cost_type (em_set e)) (length (g_links gs)) (em_sdist e) (em_scent e) = Ok sc ->
  length tc = length (g_links gt) -> length sc = length (g_links gs) ->
  (forall x, In x tc -> (0 <= x)%Z) -> (forall x, In x sc -> (0 <= x)%Z) ->
  unwrap_cube smcf tsched ssched cpu e c = Ok U ->
  let ph := ifg_phase is_ifg (g_links gt) (cu_data c) in
  exists W T : nat -> nat -> Q,
    (forall n, n < length (g_links gt) -> wraps (g_links gs) (ph n) (W n)) /\
    (forall n i, n < length (g_links gt) -> i < length (g_links gs) -> cong2pi (T n i) (W n i)) /\
    (forall i, i < length (g_links gs) -> forall x,
       (forall n, n < length (g_links gt) -> cong2pi (slope (g_links gt) x n) (slope (g_links gs) (ph n) i)) ->
       in_range (length (g_links gt)) (fun n => slope (g_links gt) x n - W n i)%Q ->
       (weight tc (fun n => T n i - W n i) <= weight tc (fun n => slope (g_links gt) x n - W n i))%Q) /\
    (forall n, n < length (g_links gt) -> forall x,
       (forall v, v < g_npoints gs -> cong2pi (x v) (ph n v)) ->
       in_range (length (g_links gs)) (fun i => slope (g_links gs) x i - T n i)%Q ->
       (weight sc (fun i => slope (g_links gs) (fun v => nth v (nth n U []) 0) i - T n i) <=
        weight sc (fun i => slope (g_links gs) x i - T n i))%Q).
Proof.
  intros smcf gs gt tsched ssched cpu e c is_ifg tc sc U Hs Hps Hpt Hes Het Ht Hss Hl Hc Hct Hcs HLt HLs Pt Ps H ph.
  apply solver_of in Hes, Het; auto.
  destruct (cube_optimal smcf gs gt Hps Hpt e Hes Het tsched ssched cpu Ht Hss Hl is_ifg (cu_data c) c U tc sc
              Hs eq_refl Hc Hct Hcs HLt HLs Pt Ps H) as (T & H1 & H2 & H3).
  exists (W gs gt is_ifg (cu_data c)), T. split; [|split; [exact H1|split; [exact H2|exact H3]]].
  intros n Hn i Hi. unfold W, slope. destruct (nth i (g_links gs) (0%nat, 0%nat)) as [a b]. cbn [fst snd].
  destruct (wcol_spec gt is_ifg (cu_data c) a b n Hn) as [A B]. split; [exact B|exact A].
Qed.

(** Against the true history [Phi]: the differences of all interferograms are
    wrong by at most four times what the true ones exceed the wrapped ones by. *)
Theorem C75_cube_error : forall smcf gs gt tsched ssched cpu e c is_ifg tc sc U, smcf_sound smcf -> planar gs -> planar gt ->
  make_solver gs = Ok (em_space e) -> make_solver gt = Ok (em_time e) ->
  (forall b l, Permutation (tsched b l) l) -> (forall l, Permutation (ssched l) l) ->
  0 < links_per_batch (em_set e) -> classify e c = Ok is_ifg ->
  pick_cost (t_cost_type (em_set e)) (length (g_links gt)) (em_tdist e) (em_tcent e) = Ok tc ->
  pick_cost (s_cost_type (em_set e)) (length (g_links gs)) (em_sdist e) (em_scent e) = Ok sc ->
  length tc = length (g_links gt) -> length sc = length (g_links gs) ->
  (forall x, In x tc -> (1 <= x)%Z) -> (forall x, In x sc -> (0 <= x)%Z) ->
  unwrap_cube smcf tsched ssched cpu e c = Ok U ->
  let ph := ifg_phase is_ifg (g_links gt) (cu_data c) in
  exists W : nat -> nat -> Q,
    (forall n, n < length (g_links gt) -> wraps (g_links gs) (ph n) (W n)) /\
    forall Phi : nat -> nat -> Q,
    let I n v := slope (g_links gt) (fun t => Phi t v) n in
    let missed n i := (slope (g_links gs) (I n) i - W n i)%Q in
    let got n := slope (g_links gs) (fun v => nth v (nth n U []) 0%Q) in
    (forall n v, n < length (g_links gt) -> v < g_npoints gs -> cong2pi (I n v) (ph n v)) ->
    (forall i, i < length (g_links gs) -> (2 * weight tc (fun n => missed n i) <= twopi * inject_Z int32_max)%Q) ->
    (weight2 tc sc (fun n i => got n i - slope (g_links gs) (I n) i) <= 4 * weight2 tc sc missed)%Q /\
    ((forall x, In x sc -> (1 <= x)%Z) ->
     (* every wrong difference counts as a cycle at least *)
     (twopi * sumQ (map (fun n => inject_Z (Z.of_nat (how_many (length (g_links gs))
        (fun i => negb (Qeq_bool (got n i) (slope (g_links gs) (I n) i)))))) (seq 0 (length (g_links gt)))) <=
      4 * weight2 tc sc missed)%Q).
Proof.
  intros smcf gs gt tsched ssched cpu e c is_ifg tc sc U Hs Hps Hpt Hes Het Ht Hss Hl Hc Hct Hcs HLt HLs Pt Ps H ph.
  exists (W gs gt is_ifg (cu_data c)). split.
  - intros n Hn i Hi. unfold W, slope. destruct (nth i (g_links gs) (0%nat, 0%nat)) as [a b]. cbn [fst snd].
    destruct (wcol_spec gt is_ifg (cu_data c) a b n Hn) as [A B]. split; [exact B|exact A].
  - intros Phi I missed got HI Hb.
    pose proof (C22_sound smcf gs gt tsched ssched cpu e c is_ifg U Hs Hps Hpt Hes Het Ht Hss Hl Hc H) as [_ HU].
    apply solver_of in Hes, Het; auto.
    pose proof (cube_error smcf gs gt Hps Hpt e Hes Het tsched ssched cpu Ht Hss Hl is_ifg (cu_data c) c U tc sc Phi
              Hs eq_refl Hc Hct Hcs HLt HLs Pt Ps H HI Hb) as E.
    split; [exact E|]. intros P1.
    apply Qle_trans with (weight2 tc sc (fun n i => got n i - slope (g_links gs) (I n) i)%Q); [|exact E].
    unfold weight2. rewrite <- sumQ_map_mul, HLt. apply sumQ_map_le. intros n Hn. apply in_seq in Hn.
    assert (forall i, i < length sc -> cong2pi (got n i) (slope (g_links gs) (I n) i)) as Hg.
    { intros i Hi. unfold got, slope at 1 2. rewrite HLs in Hi.
      destruct (HU n ltac:(lia)) as (_ & _ & Hv).
      assert (In (nth i (g_links gs) (0, 0)%nat) (g_links gs)) as Hll by now apply nth_In.
      destruct (nth i (g_links gs) (0%nat, 0%nat)) as [a b]. cbn [fst snd]. pose proof (pl_lt gs Hps a b Hll).
      eapply cong2pi_trans; [apply cong2pi_sub; apply Hv; lia|].
      eapply cong2pi_trans; [|apply cong2pi_sub; apply cong2pi_sym, HI; lia].
      apply cong2pi_eq. fold ph. ring. }
    pose proof (count_weight sc (got n) (slope (g_links gs) (I n)) P1 Hg) as K. rewrite HLs in K.
    assert (1 <= inject_Z (nth n tc 0%Z))%Q as Q1.
    { change 1%Q with (inject_Z 1). rewrite <- Zle_Qle. apply Pt. apply nth_In. lia. }
    pose proof (weight_nonneg sc (fun i => got n i - slope (g_links gs) (I n) i)%Q Ps) as N.
    set (A := weight sc _) in *. set (B := (twopi * _)%Q) in *. nra.
Qed.

(** The two steps together are not optimal: for these data, every solver gives
    phases that need more changes than the true ones do (C75_joint_refuted). *)
Definition xs75 : list Q := [0; 1; 3#10; 6#10]%Q.
Definition ys75 : list Q := [0; 4; 1; 5#2]%Q.
Definition phi75 (t v : nat) : Q := (nth t xs75 0 * nth v ys75 0)%Q.
Definition cost75 : list Z := [3; 2; 3; 3]%Z.
Definition em75 : emcf := Emcf s22 s22 (Settings Distance Distance 2 1 1) cost75 [] cost75 [].
Definition cube75 : cube := Cube 2 0 (map (fun t => map (fun v => Qred (phi75 t v)) (seq 0 4)) (seq 0 4)).
Definition I75 (n v : nat) : Q := slope (g_links g22) (fun t => phi75 t v) n.
(** Only the first difference of the first interferogram wraps. *)
Definition w75 (n i : nat) : Q := (slope (g_links g22) (I75 n) i - (if (n =? 0) && (i =? 0) then twopi else 0))%Q.

Definition arcs75 : list arc := mcf_arcs (s_dual s22) (map fst (s_dir s22)) cost75 cost75.
Definition plus75 : list Z := [0; 0; 0; 0; 0; 1; 0; 0]%Z.
Definition minus75 : list Z := [0; 1; 0; 0; 0; 0; 0; 0]%Z.

Lemma best75 f : (optimal arcs75 [1; -1]%Z f -> f = plus75) /\ (optimal arcs75 [-1; 1]%Z f -> f = minus75).
Proof.
  assert (feasible arcs75 [1; -1]%Z plus75 /\ feasible arcs75 [-1; 1]%Z minus75) as [Fp Fm].
  { split; (split; [reflexivity|split]).
    1,3: intros i Hi; change (i < 8) in Hi; do 8 (destruct i as [|i]; [cbn; unfold int32_max; lia|]); lia.
    1,2: intros v Hv; cbn in Hv; do 2 (destruct v as [|v]; [reflexivity|]); lia. }
  split; intros [(L & C & B) O].
  - specialize (O _ Fp). change (flow_cost arcs75 plus75) with 2%Z in O.
    do 8 (destruct f as [|? f]; [discriminate L|]). destruct f; [|discriminate L].
    pose proof (fun i (H : i < 8) => proj1 (C i H)) as P. clear C.
    pose proof (P 0 ltac:(lia)); pose proof (P 1 ltac:(lia)); pose proof (P 2 ltac:(lia)); pose proof (P 3 ltac:(lia)).
    pose proof (P 4 ltac:(lia)); pose proof (P 5 ltac:(lia)); pose proof (P 6 ltac:(lia)); pose proof (P 7 ltac:(lia)).
    pose proof (B 0 ltac:(cbn; lia)) as B0. clear P B Fp Fm L. cbn -[Z.mul Z.add Z.sub Z.opp] in *. unfold plus75. repeat f_equal; lia.
  - specialize (O _ Fm). change (flow_cost arcs75 minus75) with 2%Z in O.
    do 8 (destruct f as [|? f]; [discriminate L|]). destruct f; [|discriminate L].
    pose proof (fun i (H : i < 8) => proj1 (C i H)) as P. clear C.
    pose proof (P 0 ltac:(lia)); pose proof (P 1 ltac:(lia)); pose proof (P 2 ltac:(lia)); pose proof (P 3 ltac:(lia)).
    pose proof (P 4 ltac:(lia)); pose proof (P 5 ltac:(lia)); pose proof (P 6 ltac:(lia)); pose proof (P 7 ltac:(lia)).
    pose proof (B 0 ltac:(cbn; lia)) as B0. clear P B Fp Fm L. cbn -[Z.mul Z.add Z.sub Z.opp] in *. unfold minus75. repeat f_equal; lia.
Qed.

Definition arc_dec (x y : arc) : {x = y} + {x <> y}.
Proof. decide equality; try apply Z.eq_dec; apply Nat.eq_dec. Defined.
Definition table75 (smcf : list arc -> list Z -> option (list Z)) (a : list arc) (s : list Z) : option (list Z) :=
  if list_eq_dec arc_dec a arcs75 then
    if list_eq_dec Z.eq_dec s [1; -1]%Z then Some plus75
    else if list_eq_dec Z.eq_dec s [-1; 1]%Z then Some minus75 else smcf a s
  else smcf a s.
Lemma table75_sub smcf : smcf_sound smcf -> forall a s f, smcf a s = Some f -> table75 smcf a s = Some f.
Proof.
  intros Hs a s f H. unfold table75. pose proof (Hs _ _ _ H) as O. destruct (list_eq_dec arc_dec a arcs75) as [->|]; [|exact H].
  destruct (list_eq_dec Z.eq_dec s [1; -1]%Z) as [->|]; [now rewrite (proj1 (best75 f) O)|].
  destruct (list_eq_dec Z.eq_dec s [-1; 1]%Z) as [->|]; [now rewrite (proj2 (best75 f) O)|exact H].
Qed.

Transparent twopi.
Definition field (r : res (list (list Q))) : list (list Q) := match r with Ok U => U | Err _ => [] end.
Definition u75 : list (list Q) := field (unwrap_cube (table75 (fun _ _ => None)) (fun _ l => l) (fun l => l) 8 em75 cube75).
Lemma cube75_result smcf : unwrap_cube (table75 smcf) (fun _ l => l) (fun l => l) 8 em75 cube75 = Ok u75.
Proof. vm_compute. reflexivity. Qed.

Lemma u75_cost : (weight2 cost75 cost75 (fun n i => slope (g_links g22) (fun v => nth v (nth n u75 []) 0) i - w75 n i) == 16 * twopi)%Q.
Proof. vm_compute. reflexivity. Qed.
Lemma phi75_cost : (weight2 cost75 cost75 (fun n i => slope (g_links g22) (I75 n) i - w75 n i) == 9 * twopi)%Q.
Proof. vm_compute. reflexivity. Qed.
Lemma w75_ok n : n < 4 -> wraps (g_links g22) (ifg_phase false (g_links g22) (cu_data cube75) n) (w75 n).
Proof.
  intros Hn i Hi. change (i < 4) in Hi.
  assert (forallb (fun n => forallb (fun i => Qle_bool (- half) (w75 n i) && Qle_bool (w75 n i) half &&
    Qeq_bool (w75 n i - slope (g_links g22) (ifg_phase false (g_links g22) (cu_data cube75) n) i)
      (twopi * inject_Z (rint ((w75 n i - slope (g_links g22) (ifg_phase false (g_links g22) (cu_data cube75) n) i) / twopi)))) (seq 0 4)) (seq 0 4) = true) as E
    by (vm_compute; reflexivity).
  rewrite forallb_forall in E. specialize (E n ltac:(apply in_seq; lia)). rewrite forallb_forall in E.
  specialize (E i ltac:(apply in_seq; lia)). apply andb_prop in E. destruct E as [E E3]. apply andb_prop in E. destruct E as [E1 E2].
  apply Qle_bool_iff in E1, E2. apply Qeq_bool_iff in E3. split; [now split|].
  match type of E3 with (_ == twopi * inject_Z ?z)%Q => exists z end. rewrite <- E3. ring.
Qed.
Lemma phi75_ok n v : n < 4 -> v < 4 -> cong2pi (I75 n v) (ifg_phase false (g_links g22) (cu_data cube75) n v).
Proof.
  intros Hn Hv. 
  assert (forallb (fun n => forallb (fun v => Qeq_bool (I75 n v - ifg_phase false (g_links g22) (cu_data cube75) n v)
      (twopi * inject_Z (rint ((I75 n v - ifg_phase false (g_links g22) (cu_data cube75) n v) / twopi)))) (seq 0 4)) (seq 0 4) = true) as E
    by (vm_compute; reflexivity).
  rewrite forallb_forall in E. specialize (E n ltac:(apply in_seq; lia)). rewrite forallb_forall in E.
  specialize (E v ltac:(apply in_seq; lia)). apply Qeq_bool_iff in E.
  match type of E with (_ == twopi * inject_Z ?z)%Q => exists z end. rewrite <- E. ring.
Qed.
Opaque twopi u75.

Theorem C75_joint_refuted : exists gs gt e c tc sc W Phi,
  planar gs /\ planar gt /\ make_solver gs = Ok (em_space e) /\ make_solver gt = Ok (em_time e) /\ classify e c = Ok false /\
  pick_cost (t_cost_type (em_set e)) (length (g_links gt)) (em_tdist e) (em_tcent e) = Ok tc /\
  pick_cost (s_cost_type (em_set e)) (length (g_links gs)) (em_sdist e) (em_scent e) = Ok sc /\
  let ph := ifg_phase false (g_links gt) (cu_data c) in
  let I n v := slope (g_links gt) (fun t => Phi t v) n in
  (forall n, n < length (g_links gt) -> wraps (g_links gs) (ph n) (W n)) /\
  (forall n v, n < length (g_links gt) -> v < g_npoints gs -> cong2pi (I n v) (ph n v)) /\
  (* there is a result, and every result costs more than the history [Phi] *)
  (exists U, unwrap_cube brute (fun _ l => l) (fun l => l) 8 e c = Ok U) /\
  forall smcf U, smcf_sound smcf -> unwrap_cube smcf (fun _ l => l) (fun l => l) 8 e c = Ok U ->
    (weight2 tc sc (fun n i => slope (g_links gs) (I n) i - W n i) <
     weight2 tc sc (fun n i => slope (g_links gs) (fun v => nth v (nth n U []) 0) i - W n i))%Q.
Proof.
  exists g22, g22, em75, cube75, cost75, cost75, w75, phi75. cbv zeta.
  split; [exact g22_planar|]. split; [exact g22_planar|]. split; [exact (proj2 g22_real)|]. split; [exact (proj2 g22_real)|].
  split; [reflexivity|]. split; [reflexivity|]. split; [reflexivity|].
  split; [exact w75_ok|]. split; [exact phi75_ok|]. split.
  - apply (C22_returns brute g22 g22 (fun _ l => l) (fun l => l) 8%Z em75 cube75 false cost75 cost75 brute_sound brute_complete
             g22_planar g22_planar (proj2 g22_real) (proj2 g22_real)); try reflexivity.
    + cbn. lia.
    + intros row Hr. cbn in Hr. destruct Hr as [<-|[<-|[<-|[<-|[]]]]]; cbn; lia.
    + apply C21_slc_consistent.
    + intros x Hx. cbn in Hx. lia.
    + cbn. unfold int32_max. lia.
  - intros smcf U Hs H.
    pose proof (cube_sub smcf (table75 smcf) (table75_sub smcf Hs) _ _ _ _ _ _ H) as K. rewrite cube75_result in K.
    assert (forall A (a b : A), Ok a = Ok b -> a = b) as J by congruence. apply J in K. rewrite <- K. pose proof u75_cost as A. pose proof phi75_cost as B.
    change (fun n i => slope (g_links g22) (fun v => slope (g_links g22) (fun t => phi75 t v) n) i - w75 n i)%Q
      with (fun n i => slope (g_links g22) (I75 n) i - w75 n i)%Q.
    rewrite A, B. pose proof twopi_pos. lra.
Qed.

(** ** Witnesses *)

(** The differences of [p22] with 2 pi beyond the wrapped one on link 1. *)
Definition x75 (v : nat) : Q := nth v p22 0%Q.
Example C75_one_witness : exists w u k, unwrap_one brute s22 p22 [3; 1; 3; 3]%Z None = Ok (u, k) /\
  wraps (g_links g22) x75 w /\ in_range 4 (fun i => slope (g_links g22) x75 i - w i)%Q /\
  (exists i, i < 4 /\ ~ (w i == slope (g_links g22) x75 i)%Q).
Proof.
  destruct C15_nonvacuous as (u & k & H).
  exists (fun i => nth i [2; 6 - twopi; -2; 2]%Q 0%Q), u, k. split; [exact H|]. pose proof twopi_pos as P.
  Transparent twopi. split; [|split].
  - intros i Hi. change (i < 4) in Hi.
    destruct i as [|[|[|[|i]]]]; [| | | |lia]; (split; [vm_compute; split; discriminate|]).
    1,3,4: exists 0%Z; reflexivity.
    exists (-1)%Z. vm_compute. reflexivity.
  - intros i Hi. do 4 (destruct i as [|i]; [vm_compute; discriminate|]). lia.
  - exists 1. split; [lia|]. vm_compute. discriminate.
Qed.
Opaque twopi.

(** The data above: the truth costs 9 cycles. *)
Example C75_cube_witness : (exists U, unwrap_cube brute (fun _ l => l) (fun l => l) 8 em75 cube75 = Ok U) /\
  (forall n, n < 4 -> wraps (g_links g22) (ifg_phase false (g_links g22) (cu_data cube75) n) (w75 n)) /\
  (forall n v, n < 4 -> v < 4 -> cong2pi (I75 n v) (ifg_phase false (g_links g22) (cu_data cube75) n v)) /\
  (forall i, i < 4 -> (2 * weight cost75 (fun n => slope (g_links g22) (I75 n) i - w75 n i) <= twopi * inject_Z int32_max)%Q) /\
  (weight2 cost75 cost75 (fun n i => slope (g_links g22) (I75 n) i - w75 n i) == 9 * twopi)%Q.
Proof.
  split.
  { apply (C22_returns brute g22 g22 (fun _ l => l) (fun l => l) 8%Z em75 cube75 false cost75 cost75 brute_sound brute_complete
             g22_planar g22_planar (proj2 g22_real) (proj2 g22_real)); try reflexivity.
    - cbn. lia.
    - intros row Hr. cbn in Hr. destruct Hr as [<-|[<-|[<-|[<-|[]]]]]; cbn; lia.
    - apply C21_slc_consistent.
    - intros x Hx. cbn in Hx. lia.
    - cbn. unfold int32_max. lia. }
  split; [exact w75_ok|]. split; [exact phi75_ok|]. split; [|exact phi75_cost].
  Transparent twopi. intros i Hi. do 4 (destruct i as [|i]; [vm_compute; discriminate|]). lia.
Qed.
Opaque twopi.

Print Assumptions C75_one.
Print Assumptions C75_one_error.
Print Assumptions C75_cube.
Print Assumptions C75_cube_error.
Print Assumptions C75_joint_refuted.
