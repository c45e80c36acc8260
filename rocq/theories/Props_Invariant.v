(** C73: unwrapping depends on the wrapped differences along links only. *)
From Verif Require Import Base BaseLemmas GraphModel GraphSpec GraphProofs Hop3Proofs McfModel McfSpec DualProofs ResidueProofs PhaseProofs
  EmcfModel EmcfSpec EmcfProofs Props_Mcf Props_Emcf InvariantSpec InvariantProofs.
From Coq Require Import ZifyBool.
Set Default Goal Selector "!".
Opaque twopi.

(** Whatever the solver, the schedules, the settings and the two graphs. *)
Theorem C73_cube : forall smcf tsched ssched cpu e c c' is_ifg is_ifg',
  classify e c = Ok is_ifg -> classify e c' = Ok is_ifg' ->
  covers (cu_data c) (em_links e) -> covers (cu_data c') (em_links e) ->
  same_differences (em_ifgs e) (em_links e) is_ifg is_ifg' (cu_data c) (cu_data c') ->
  same_outcome (Forall2 same_values) (unwrap_cube smcf tsched ssched cpu e c) (unwrap_cube smcf tsched ssched cpu e c').
Proof. exact cube_same. Qed.

(** No double difference of the stack is exactly half-way between two representatives. *)
Definition no_half_cycle (e : emcf) (is_ifg : bool) (data : list (list Q)) : Prop :=
  forall n a b, n < length (em_ifgs e) -> In (a, b) (em_links e) ->
    ~ tie (ifg_phase is_ifg (em_ifgs e) data n a) (ifg_phase is_ifg (em_ifgs e) data n b) 0.

(** SLC stacks: a phase offset per acquisition, and whole cycles anywhere, do not matter. *)
Theorem C73_offsets : forall smcf tsched ssched cpu e c c' (offset : nat -> Q),
  classify e c = Ok false -> classify e c' = Ok false ->
  covers (cu_data c) (em_links e) -> covers (cu_data c') (em_links e) ->
  no_half_cycle e false (cu_data c) ->
  (forall t a b, In (a, b) (em_links e) -> forall v, v = a \/ v = b ->
     cong2pi (nth v (nth t (cu_data c') []) 0) (nth v (nth t (cu_data c) []) 0 + offset t))%Q ->
  same_outcome (Forall2 same_values) (unwrap_cube smcf tsched ssched cpu e c) (unwrap_cube smcf tsched ssched cpu e c').
Proof.
  intros smcf tsched ssched cpu e c c' offset K K' C C' T H. eapply C73_cube; eauto.
  intros n a b Hn Hl. cbv zeta. split; [|now apply T]. unfold ifg_phase.
  set (i := fst (nth n (em_ifgs e) (0, 0))). set (j := snd (nth n (em_ifgs e) (0, 0))).
  destruct (H i a b Hl a (or_introl eq_refl)) as [kia Eia]. destruct (H i a b Hl b (or_intror eq_refl)) as [kib Eib].
  destruct (H j a b Hl a (or_introl eq_refl)) as [kja Eja]. destruct (H j a b Hl b (or_intror eq_refl)) as [kjb Ejb].
  exists (kjb - kib - (kja - kia))%Z. rewrite Eia, Eib, Eja, Ejb. unfold Z.sub. rewrite !inject_Z_plus, !inject_Z_opp, !inject_Z_plus, !inject_Z_opp. ring.
Qed.

(** Interferogram stacks: the same, with an offset per interferogram. *)
Theorem C73_ifg_offsets : forall smcf tsched ssched cpu e c c' (offset : nat -> Q),
  classify e c = Ok true -> classify e c' = Ok true ->
  covers (cu_data c) (em_links e) -> covers (cu_data c') (em_links e) ->
  no_half_cycle e true (cu_data c) ->
  (forall n a b, In (a, b) (em_links e) -> forall v, v = a \/ v = b ->
     cong2pi (nth v (nth n (cu_data c') []) 0) (nth v (nth n (cu_data c) []) 0 + offset n))%Q ->
  same_outcome (Forall2 same_values) (unwrap_cube smcf tsched ssched cpu e c) (unwrap_cube smcf tsched ssched cpu e c').
Proof.
  intros smcf tsched ssched cpu e c c' offset K K' C C' T H. eapply C73_cube; eauto.
  intros n a b Hn Hl. cbv zeta. split; [|now apply T]. unfold ifg_phase.
  destruct (H n a b Hl a (or_introl eq_refl)) as [ka Ea]. destruct (H n a b Hl b (or_intror eq_refl)) as [kb Eb].
  exists (kb - ka)%Z. rewrite Ea, Eb. unfold Z.sub. rewrite inject_Z_plus, inject_Z_opp. ring.
Qed.

(** The SLC stack and the stack of its interferograms, wrapped or not, are unwrapped alike. *)
Theorem C73_slc_or_ifg : forall smcf tsched ssched cpu e c c',
  classify e c = Ok false -> classify e c' = Ok true ->
  covers (cu_data c) (em_links e) -> covers (cu_data c') (em_links e) ->
  no_half_cycle e false (cu_data c) ->
  (forall n i j a b v, n < length (em_ifgs e) -> nth n (em_ifgs e) (0, 0) = (i, j) ->
     In (a, b) (em_links e) -> v = a \/ v = b ->
     cong2pi (nth v (nth n (cu_data c') []) 0%Q) (nth v (nth j (cu_data c) []) 0 - nth v (nth i (cu_data c) []) 0)%Q) ->
  same_outcome (Forall2 same_values) (unwrap_cube smcf tsched ssched cpu e c) (unwrap_cube smcf tsched ssched cpu e c').
Proof.
  intros smcf tsched ssched cpu e c c' K K' C C' T H. eapply C73_cube; eauto.
  intros n a b Hn Hl. cbv zeta. split; [|now apply T]. unfold ifg_phase.
  destruct (nth n (em_ifgs e) (0, 0)) as [i j] eqn:E. cbn [fst snd].
  apply cong2pi_sub; eapply H; eauto.
Qed.

(** One interferogram: the same flows, and the same phases relative to the first point. *)
Theorem C73_one : forall smcf g s p p' cost revcost, planar g -> make_solver g = Ok s ->
  length p = g_npoints g -> length p' = g_npoints g ->
  (forall a b, In (a, b) (g_links g) ->
     cong2pi (nth b p' 0 - nth a p' 0) (nth b p 0 - nth a p 0) /\ ~ tie (nth a p 0) (nth b p 0) 0)%Q ->
  same_outcome (fun r r' => snd r = snd r' /\ length (fst r) = length (fst r') /\
      forall v, v < length (fst r) -> (nth v (fst r) 0 - nth 0 p 0 == nth v (fst r') 0 - nth 0 p' 0)%Q)
    (unwrap_one smcf s p cost revcost) (unwrap_one smcf s p' cost revcost).
Proof.
  intros smcf g s p p' cost revcost Hp Hs HL HL' H. apply solver_of in Hs; auto. subst s.
  apply one_same; auto. congruence.
Qed.

(** * Exactly half a cycle *)
(** Four dates, the second point half a cycle away from the others from the second
    date on; then one whole cycle is added to one sample. *)
Definition halves (k : Z) : list (list Q) :=
  [[0; 0; 0; 0]; [0; half + twopi * inject_Z k; 0; 0]; [0; half + twopi * inject_Z k; 0; 0]; [0; half + twopi * inject_Z k; 0; 0]]%Q.
Theorem C73_half_cycle_refuted : exists smcf tsched ssched cpu e c c' U U',
  classify e c = Ok false /\ classify e c' = Ok false /\
  (forall t v, cong2pi (nth v (nth t (cu_data c') []) 0) (nth v (nth t (cu_data c) []) 0))%Q /\
  unwrap_cube smcf tsched ssched cpu e c = Ok U /\ unwrap_cube smcf tsched ssched cpu e c' = Ok U' /\
  (nth 1 (nth 0 U []) 0 == half)%Q /\ (nth 1 (nth 0 U' []) 0 == - half)%Q.
Proof.
  exists (fun _ _ => None), (fun _ l => l), (fun l => l), 8%Z, (em4 1 0 2), (Cube 2 0 (halves 0)), (Cube 2 0 (halves 1)).
  assert (exists U U', unwrap_cube (fun _ _ => None) (fun _ l => l) (fun l => l) 8 (em4 1 0 2) (Cube 2 0 (halves 0)) = Ok U /\
    unwrap_cube (fun _ _ => None) (fun _ l => l) (fun l => l) 8 (em4 1 0 2) (Cube 2 0 (halves 1)) = Ok U' /\
    (nth 1 (nth 0 U []) 0 == half)%Q /\ (nth 1 (nth 0 U' []) 0 == - half)%Q) as (U & U' & K).
  { Transparent twopi.
    assert (match unwrap_cube (fun _ _ => None) (fun _ l => l) (fun l => l) 8 (em4 1 0 2) (Cube 2 0 (halves 0)),
              unwrap_cube (fun _ _ => None) (fun _ l => l) (fun l => l) 8 (em4 1 0 2) (Cube 2 0 (halves 1)) with
            | Ok U, Ok U' => Qeq_bool (nth 1 (nth 0 U []) 0%Q) half && Qeq_bool (nth 1 (nth 0 U' []) 0%Q) (- half)
            | _, _ => false
            end = true) as E by (vm_compute; reflexivity).
    destruct (unwrap_cube _ _ _ _ _ (Cube 2 0 (halves 0))) as [U|]; [|discriminate].
    destruct (unwrap_cube _ _ _ _ _ (Cube 2 0 (halves 1))) as [U'|]; [|discriminate].
    apply andb_prop in E as [E E']. exists U, U'. repeat split; now apply Qeq_bool_iff. }
  exists U, U'. split; [reflexivity|]. split; [reflexivity|]. split; [|exact K].
  intros t v. cbn [cu_data]. unfold halves.
  assert (forall x y, (x == y)%Q -> cong2pi x y) as R by (intros; now apply cong2pi_eq).
  assert (cong2pi (half + twopi * inject_Z 1) (half + twopi * inject_Z 0)%Q) as S.
  { exists 1%Z. change (inject_Z 0) with 0%Q. ring. }
  destruct t as [|[|[|[|[|t]]]]]; cbn [nth]; destruct v as [|[|[|[|[|v]]]]]; cbn [nth]; solve [exact S|apply R; reflexivity].
Qed.
Opaque twopi.

(** * A stack that meets the hypotheses *)
Definition shifted : list (list Q) :=
  map (fun t => map (fun v => nth v (nth t slc4 []) 0 + inject_Z (Z.of_nat (3 * t + 1)) + twopi * inject_Z (Z.of_nat (t * v) - 1))%Q (seq 0 4)) (seq 0 4).
Definition formed : list (list Q) :=
  map (fun ij => map (fun v => phase_diff (nth v (nth (fst ij) slc4 []) 0) (nth v (nth (snd ij) slc4 []) 0) 0)%Q (seq 0 4)) (g_links gt4).

(** A test for ties. *)
Definition half_way (d : Q) : bool := let x := Qred (2 * d / twopi) in ((Zpos (Qden x) =? 1) && Z.odd (Qnum x))%Z.
Lemma half_way_tie p0 p1 : half_way (p1 - p0) = false -> ~ tie p0 p1 0.
Proof.
  unfold half_way. cbv zeta. intros K [j J].
  assert (2 * (p1 - p0) / twopi == inject_Z (2 * j + 1))%Q as E.
  { rewrite inject_Z_plus, inject_Z_mult. change (inject_Z 2) with 2%Q. change (inject_Z 1) with 1%Q.
    assert (p1 - p0 == twopi * (inject_Z j + (1 # 2)))%Q as -> by (rewrite <- J; ring). field. apply twopi_nz. }
  apply Qred_complete in E. rewrite E in K.
  assert (Qred (inject_Z (2 * j + 1)) = inject_Z (2 * j + 1)) as R.
  { unfold inject_Z, Qred. pose proof (Z.ggcd_correct_divisors (2 * j + 1) 1) as D. pose proof (Z.ggcd_gcd (2 * j + 1) 1) as G.
    destruct (Z.ggcd (2 * j + 1) 1) as [g [aa bb]]. cbn [fst snd] in *. rewrite Z.gcd_1_r in G. subst g. destruct D as [D1 D2].
    rewrite Z.mul_1_l in D1, D2. subst. reflexivity. }
  rewrite R in K. cbn [inject_Z Qden Qnum] in K. rewrite Z.odd_add, Z.odd_mul in K. cbn in K. discriminate.
Qed.

Lemma slc4_no_half : no_half_cycle (em4 1 0 2) false slc4.
Proof.
  Transparent twopi.
  assert (forallb (fun n => forallb (fun ab => negb (half_way
    (ifg_phase false (g_links gt4) slc4 n (snd ab) - ifg_phase false (g_links gt4) slc4 n (fst ab)))) (g_links g22)) (seq 0 6) = true) as K
    by (vm_compute; reflexivity).
  Opaque twopi.
  intros n a b Hn Hl. change (length (em_ifgs (em4 1 0 2))) with 6 in Hn. change (em_links (em4 1 0 2)) with (g_links g22) in Hl.
  change (em_ifgs (em4 1 0 2)) with (g_links gt4). apply half_way_tie.
  rewrite forallb_forall in K. assert (In n (seq 0 6)) as I by (apply in_seq; lia). specialize (K n I). rewrite forallb_forall in K.
  specialize (K (a, b) Hl). cbn [fst snd] in K. now apply negb_true_iff.
Qed.

Example C73_offsets_witness : let e := em4 1 0 2 in
  classify e (Cube 2 0 slc4) = Ok false /\ classify e (Cube 2 0 shifted) = Ok false /\
  covers slc4 (em_links e) /\ covers shifted (em_links e) /\ no_half_cycle e false slc4 /\
  (forall t a b, In (a, b) (em_links e) -> forall v, v = a \/ v = b ->
     cong2pi (nth v (nth t shifted []) 0) (nth v (nth t slc4 []) 0 + if (t <? 4)%nat then inject_Z (Z.of_nat (3 * t + 1)) else 0))%Q /\
  ~ (nth 1 (nth 1 shifted []) 0 == nth 1 (nth 1 slc4 []) 0)%Q.
Proof.
  cbv zeta. split; [reflexivity|]. split; [reflexivity|].
  assert (forall data, length data = 4 -> Forall (fun r => length r = 4) data -> covers data (em_links (em4 1 0 2))) as C.
  { intros data _ H row a b Hr Hl. rewrite Forall_forall in H. rewrite (H row Hr).
    cbn in Hl. repeat (destruct Hl as [[= <- <-]|Hl]; [lia|]). destruct Hl. }
  split; [apply C; [reflexivity|]; repeat constructor|]. split; [apply C; [reflexivity|]; repeat constructor|].
  split; [exact slc4_no_half|]. split.
  - intros t a b Hl v Hv.
    assert (v < 4) as Bv.
    { cbn in Hl. repeat (destruct Hl as [[= <- <-]|Hl]; [lia|]). destruct Hl. }
    destruct (Nat.ltb_spec t 4) as [B|B].
    + exists (Z.of_nat (t * v) - 1)%Z. unfold shifted.
      rewrite (map_nth' _ _ _ 0) by (rewrite seq_length; lia). rewrite seq_nth by lia.
      rewrite (map_nth' _ _ _ 0) by (rewrite seq_length; lia). rewrite seq_nth by lia. cbn [Nat.add]. reflexivity.
    + rewrite !(nth_overflow _ _ (n := t)) by (cbn; lia). apply cong2pi_eq. destruct v; cbn; reflexivity.
  - Transparent twopi. intros H. apply Qeq_bool_iff in H. vm_compute in H. discriminate. Opaque twopi.
Qed.

Example C73_slc_or_ifg_witness : let e := em4 1 0 2 in
  classify e (Cube 2 0 formed) = Ok true /\ covers formed (em_links e) /\
  (forall n i j a b v, n < length (em_ifgs e) -> nth n (em_ifgs e) (0, 0) = (i, j) ->
     In (a, b) (em_links e) -> v = a \/ v = b ->
     cong2pi (nth v (nth n formed []) 0%Q) (nth v (nth j slc4 []) 0 - nth v (nth i slc4 []) 0)%Q).
Proof.
  cbv zeta. split; [reflexivity|]. split.
  - intros row a b Hr Hl. unfold formed in Hr. apply in_map_iff in Hr as (ij & <- & _). rewrite map_length, seq_length.
    cbn in Hl. repeat (destruct Hl as [[= <- <-]|Hl]; [lia|]). destruct Hl.
  - intros n i j a b v Hn E Hl Hv. change (em_ifgs (em4 1 0 2)) with (g_links gt4) in *.
    assert (v < 4) as Bv.
    { cbn in Hl. repeat (destruct Hl as [[= <- <-]|Hl]; [lia|]). destruct Hl. }
    unfold formed. rewrite (map_nth' _ _ _ (0, 0)) by auto. rewrite E. cbn [fst snd].
    rewrite (map_nth' _ _ _ 0) by (rewrite seq_length; lia). rewrite seq_nth by lia. apply pd_cong.
Qed.

(** The four points of [C09_witness], which have a residue, from another reference phase and
    with a cycle more at one of them. *)
Definition p22' : list Q := [5; 2 + 5 + twopi; -2 + 5; 4 + 5]%Q.
Example C73_one_witness :
  (forall a b, In (a, b) (g_links g22) ->
     cong2pi (nth b p22' 0 - nth a p22' 0) (nth b p22 0 - nth a p22 0) /\ ~ tie (nth a p22 0) (nth b p22 0) 0)%Q /\
  exists r, unwrap_one (fixed_flow [0; 0; 0; 0; 0; 1; 0; 0]%Z) s22 p22 [3; 1; 3; 3]%Z None = Ok r /\ snd r = [0; 1; 0; 0]%Z.
Proof.
  split.
  - Transparent twopi.
    assert (forallb (fun ab => negb (half_way (nth (snd ab) p22 0 - nth (fst ab) p22 0)%Q)) (g_links g22) = true) as K by (vm_compute; reflexivity).
    Opaque twopi.
    intros a b Hl. split.
    + cbn in Hl.
      destruct Hl as [[= <- <-]|[[= <- <-]|[[= <- <-]|[[= <- <-]|[]]]]]; cbn [nth p22 p22'];
        [exists 1%Z|exists 0%Z|exists 0%Z|exists (-1)%Z].
      all: unfold inject_Z; ring.
    + apply half_way_tie. rewrite forallb_forall in K. specialize (K (a, b) Hl). now apply negb_true_iff.
  - Transparent twopi.
    assert (match unwrap_one (fixed_flow [0; 0; 0; 0; 0; 1; 0; 0]%Z) s22 p22 [3; 1; 3; 3]%Z None with
            | Ok r => if list_eq_dec Z.eq_dec (snd r) [0; 1; 0; 0]%Z then true else false | Err _ => false end = true) as K by (vm_compute; reflexivity).
    Opaque twopi.
    destruct (unwrap_one _ _ _ _ _) as [r|]; [|discriminate]. exists r. split; auto. destruct (list_eq_dec _ _ _); congruence.
Qed.

Print Assumptions C73_cube.
Print Assumptions C73_offsets.
Print Assumptions C73_ifg_offsets.
Print Assumptions C73_slc_or_ifg.
Print Assumptions C73_one.
Print Assumptions C73_half_cycle_refuted.
