(** C82: unwrapping what is already unwrapped changes nothing. *)
From Verif Require Import Base BaseLemmas GraphModel GraphSpec GraphProofs Hop3Proofs McfModel McfSpec DualProofs ResidueProofs PhaseProofs
  EmcfModel EmcfSpec EmcfProofs Props_Mcf Props_Emcf InvariantSpec InvariantProofs Props_Invariant CertSolver.
From Coq Require Import ZifyBool.
Set Default Goal Selector "!".
Opaque twopi.

(** One interferogram: given the unwrapped phases, the solver returns them again, from the same flows. *)
Theorem C82_one : forall smcf g s p cost revcost u k, smcf_sound smcf -> planar g -> make_solver g = Ok s ->
  length p = g_npoints g ->
  (forall a b, In (a, b) (g_links g) -> ~ tie (nth a p 0) (nth b p 0) 0)%Q ->
  unwrap_one smcf s p cost revcost = Ok (u, k) ->
  exists u', unwrap_one smcf s u cost revcost = Ok (u', k) /\ same_values u u'.
Proof.
  intros smcf g s p cost revcost u k Hsm Hp Hs HL T H.
  destruct (C15_unwrap_sound smcf g s p cost revcost u k Hsm Hp Hs H) as (_ & Lu & U0 & C & _).
  assert (same_outcome (fun r r' => snd r = snd r' /\ length (fst r) = length (fst r') /\
      forall v, v < length (fst r) -> (nth v (fst r) 0 - nth 0 p 0 == nth v (fst r') 0 - nth 0 u 0)%Q)
    (unwrap_one smcf s p cost revcost) (unwrap_one smcf s u cost revcost)) as S.
  { apply (C73_one smcf g); auto. intros a b Hl. split; [|now apply T].
    pose proof (pl_lt g Hp a b Hl). apply cong2pi_sub; apply C; lia. }
  rewrite H in S. destruct (unwrap_one smcf s u cost revcost) as [[u' k']|x]; cbn [same_outcome fst snd] in S; [|destruct S].
  destruct S as (<- & L & E). exists u'. split; [reflexivity|]. unfold same_values.
  apply (Forall2_nth_iff _ _ _ 0%Q 0%Q). split; auto. intros v Hv. specialize (E v Hv). rewrite U0 in E. lra.
Qed.

(** The stack: given its unwrapped interferograms, the solver returns them again. It takes them for
    interferograms because there are not as many of them as dates. *)
Theorem C82_cube : forall smcf gs gt tsched ssched cpu e c is_ifg U, smcf_sound smcf -> planar gs -> planar gt ->
  make_solver gs = Ok (em_space e) -> make_solver gt = Ok (em_time e) ->
  (forall b l, Permutation (tsched b l) l) -> (forall l, Permutation (ssched l) l) ->
  0 < links_per_batch (em_set e) -> em_nepochs e <> length (em_ifgs e) ->
  classify e c = Ok is_ifg -> covers (cu_data c) (g_links gs) -> no_half_cycle e is_ifg (cu_data c) ->
  unwrap_cube smcf tsched ssched cpu e c = Ok U ->
  exists U', unwrap_cube smcf tsched ssched cpu e (Cube 2 0 U) = Ok U' /\ Forall2 same_values U U'.
Proof.
  intros smcf gs gt tsched ssched cpu e c is_ifg U Hsm Hps Hpt Hes Het Ht Hs Hl Hn Hc Hcov T H.
  destruct (C22_sound smcf gs gt tsched ssched cpu e c is_ifg U Hsm Hps Hpt Hes Het Ht Hs Hl Hc H) as [LU K]. cbv zeta in K.
  pose proof (solver_of gs (em_space e) Hps Hes) as Es. pose proof (solver_of gt (em_time e) Hpt Het) as Et.
  assert (em_links e = g_links gs) as El by (unfold em_links; rewrite Es; reflexivity).
  assert (em_ifgs e = g_links gt) as Ei by (unfold em_ifgs; rewrite Et; reflexivity).
  assert (same_outcome (Forall2 same_values) (unwrap_cube smcf tsched ssched cpu e c) (unwrap_cube smcf tsched ssched cpu e (Cube 2 0 U))) as S.
  { apply (C73_cube smcf tsched ssched cpu e c (Cube 2 0 U) is_ifg true); auto.
    - unfold classify. cbn [cu_ndim cu_time_dim cu_data Z.eqb Pos.eqb negb].
      rewrite LU, Ei. destruct (Nat.eqb_spec (length (g_links gt)) (em_nepochs e)) as [X|X]; [rewrite Ei in Hn; congruence|].
      now rewrite Nat.eqb_refl.
    - now rewrite El.
    - rewrite El. intros row a b Hr Hab. cbn [cu_data] in Hr. apply (In_nth _ _ []) in Hr as (n & Bn & <-).
      destruct (K n ltac:(lia)) as (-> & _). pose proof (pl_lt gs Hps a b Hab). lia.
    - intros n a b Bn Hab. cbv zeta. split; [|now apply T]. rewrite Ei in *. cbn [cu_data].
      destruct (K n Bn) as (_ & _ & C). rewrite El in Hab. pose proof (pl_lt gs Hps a b Hab) as L.
      unfold ifg_phase at 1 2. set (ph := ifg_phase is_ifg (g_links gt) (cu_data c) n) in *.
      assert (cong2pi (nth b (nth n U []) 0 - nth a (nth n U []) 0) ((ph b - ph 0%nat) - (ph a - ph 0%nat)))%Q as X
        by (apply cong2pi_sub; apply C; lia).
      assert ((ph b - ph 0%nat) - (ph a - ph 0%nat) == ph b - ph a)%Q as <- by ring. exact X. }
  rewrite H in S. destruct (unwrap_cube smcf tsched ssched cpu e (Cube 2 0 U)) as [U'|x]; cbn [same_outcome] in S; [|destruct S].
  now exists U'.
Qed.

(** * Concrete cases *)
Lemma p22_no_tie a b : In (a, b) (g_links g22) -> ~ tie (nth a p22' 0%Q) (nth b p22' 0%Q) 0.
Proof.
  intros Hl [j J]. destruct (proj1 C73_one_witness a b Hl) as [[k K] T]. apply T. exists (j - k)%Z.
  unfold Z.sub. rewrite inject_Z_plus, inject_Z_opp. lra.
Qed.
(** Four points with a residue and a cycle too many at one of them: link (2, 3) gets one cycle, and keeps it when the result is unwrapped. *)
Example C82_one_witness : length p22' = g_npoints g22 /\
  (forall a b, In (a, b) (g_links g22) -> ~ tie (nth a p22' 0) (nth b p22' 0) 0)%Q /\
  exists u k u', unwrap_one cert_smcf s22 p22' [3; 1; 3; 3]%Z None = Ok (u, k) /\ k = [0; 1; 0; 0]%Z /\
    unwrap_one cert_smcf s22 u [3; 1; 3; 3]%Z None = Ok (u', k) /\ same_values u u' /\
    ~ (nth 1 u 0 == nth 1 p22' 0)%Q.
Proof.
  split; [reflexivity|]. split; [exact p22_no_tie|].
  Transparent twopi.
  assert (match unwrap_one cert_smcf s22 p22' [3; 1; 3; 3]%Z None with
          | Ok r => (if list_eq_dec Z.eq_dec (snd r) [0; 1; 0; 0]%Z then true else false) && negb (Qeq_bool (nth 1 (fst r) 0) (nth 1 p22' 0))%Q
          | Err _ => false end = true) as K by (vm_compute; reflexivity).
  Opaque twopi.
  destruct (unwrap_one cert_smcf s22 p22' [3; 1; 3; 3]%Z None) as [[u k]|] eqn:E; [|discriminate]. cbn [fst snd] in K.
  apply andb_prop in K as [K K']. destruct (list_eq_dec _ _ _) as [->|]; [|discriminate].
  destruct (C82_one cert_smcf g22 s22 p22' [3; 1; 3; 3]%Z None u [0; 1; 0; 0]%Z cert_smcf_sound g22_planar (proj2 g22_real) eq_refl p22_no_tie E)
    as (u' & E' & S).
  exists u, [0; 1; 0; 0]%Z, u'. split; [reflexivity|]. split; [reflexivity|]. split; [exact E'|]. split; [exact S|].
  intros X. apply Qeq_bool_iff in X. now rewrite X in K'.
Qed.

(** The four dates of [C22_witness]; their interferograms reach 4.5 rad, so they had to be unwrapped. *)
Example C82_cube_witness : exists U', let e := em4 1 0 2 in
  (forall l, Permutation (@rev nat l) l) /\ em_nepochs e <> length (em_ifgs e) /\
  classify e (Cube 2 0 slc4) = Ok false /\ covers slc4 (g_links g22) /\ no_half_cycle e false slc4 /\
  unwrap_cube cert_smcf (fun _ l => rev l) (@rev nat) 8 e
    (Cube 2 0 [[0; 1#2; 1; 3#2]; [0; 1; 2; 3]; [0; 3#2; 3; 9#2]; [0; 1#2; 1; 3#2]; [0; 1; 2; 3]; [0; 1#2; 1; 3#2]]%Q) = Ok U' /\
  Forall2 same_values [[0; 1#2; 1; 3#2]; [0; 1; 2; 3]; [0; 3#2; 3; 9#2]; [0; 1#2; 1; 3#2]; [0; 1; 2; 3]; [0; 1#2; 1; 3#2]]%Q U'.
Proof.
  set (V := [[0; 1#2; 1; 3#2]; [0; 1; 2; 3]; [0; 3#2; 3; 9#2]; [0; 1#2; 1; 3#2]; [0; 1; 2; 3]; [0; 1#2; 1; 3#2]]%Q).
  assert (exists U', unwrap_cube cert_smcf (fun _ l => rev l) (@rev nat) 8 (em4 1 0 2) (Cube 2 0 V) = Ok U' /\ Forall2 same_values V U') as (U' & E & S).
  { Transparent twopi.
    assert (red2 (unwrap_cube cert_smcf (fun _ l => rev l) (@rev nat) 8 (em4 1 0 2) (Cube 2 0 V)) = Some (map (map Qred) V)) as K
      by (vm_compute; reflexivity).
    Opaque twopi.
    destruct (unwrap_cube _ _ _ _ _ _) as [U'|]; [|discriminate]. exists U'. split; [reflexivity|]. cbn [red2] in K. injection K as K.
    assert (forall x y : list Q, map Qred x = map Qred y -> same_values x y) as R.
    { induction x as [|a x IH]; intros [|b y] X; try discriminate; constructor.
      - injection X as X _. rewrite <- (Qred_correct a), <- (Qred_correct b), X. reflexivity.
      - apply IH. now injection X. }
    assert (forall x y : list (list Q), map (map Qred) y = map (map Qred) x -> Forall2 same_values x y) as R2.
    { induction x as [|a x IH]; intros [|b y] X; try discriminate; constructor.
      - apply R. symmetry. injection X as X _. exact X.
      - apply IH. injection X as _ X. exact X. }
    now apply R2. }
  exists U'. cbv zeta. split; [intros l; apply Permutation_sym, Permutation_rev|]. split; [cbn; lia|].
  destruct C73_offsets_witness as (A & _ & B & _ & C & _).
  split; [exact A|]. split; [exact B|]. split; [exact C|]. split; [exact E|exact S].
Qed.

Print Assumptions C82_one.
Print Assumptions C82_cube.
